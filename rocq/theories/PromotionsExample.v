(** A concrete hierarchy used to show that hypotheses are satisfiable. *)
From Verif Require Import PyBase NamesModel PromotionsModel PromotionsSpec
  PromotionsProofs PromotionsProofs2 PromotionsProofs3.
Local Open Scope string_scope.

Definition leaf ins outs decl := Mdl ins outs decl [] [] [] None [].
(** root: input x; A (promotes everything) reads x and computes y; B (promotes only y)
    contains C (promotes nothing), which reads y. *)
Definition exC := leaf [] [("w", [2])] [("y", [2])].
Definition exB := Mdl [] [("z", [3])] [("y", [2])] [] [] [] None [("C", Some [], exC)].
Definition exA := leaf [] [("y", [2])] [("x", [2; 3])].
Definition exM := Mdl [("x", [2; 3])] [] [] [] [] [] None [("A", None, exA); ("B", Some ["y"], exB)].

Lemma exM_well_named : well_named exM.
Proof. apply well_namedb_sound. vm_compute. reflexivity. Qed.

Lemma exM_resolves : exists r, resolve exM None = Ok r /\
  rp_p2u r = [("x", ["x"; "A.x"]); ("y", ["A.y"; "B.y"]); ("B.z", ["B.z"]); ("B.C.w", ["B.C.w"]); ("B.C.y", ["B.C.y"])].
Proof. eexists. split; [vm_compute; reflexivity|reflexivity]. Qed.

(** Sibling source and target of different sizes under one promoted name. *)
Definition exSib := Mdl [("u", [1])] [] [] [] [] [] None
   [("A", None, leaf [] [("x", [2])] []); ("B", None, leaf [] [("y", [1])] [("x", [3])])].
Lemma exSib_accepted : exists r, well_named exSib /\ locally_consistent exSib /\ resolve exSib None = Ok r /\
   has_source exSib ["A"] "x" [2] /\ has_target exSib ["B"] "x" [3] /\
   promoted_ns exSib ["A"] "x" [] /\ promoted_ns exSib ["B"] "x" [] /\ prod [2] <> prod [3].
Proof.
  eexists. split; [apply well_namedb_sound; vm_compute; reflexivity|]. split.
  { intros p m' Hs k1 k2 x s1 s2. inversion Hs as [?|? nm pr sm p' m'' Hi Hs']; subst.
    - destruct k1, k2; simpl; intros; repeat match goal with H : _ \/ _ |- _ => destruct H | H : False |- _ => destruct H end; congruence.
    - simpl in Hi. destruct Hi as [E|[E|[]]]; injection E as <- <- <-; inversion Hs' as [?|? ? ? ? ? ? Hi' ?]; subst;
        [| destruct Hi' | | destruct Hi'];
        (destruct k1, k2; simpl; intros; repeat match goal with H : _ \/ _ |- _ => destruct H | H : False |- _ => destruct H end; congruence). }
  split; [vm_compute; reflexivity|].
  assert (IA : In ("A", None, leaf [] [("x", [2])] []) (m_subs exSib)) by (left; reflexivity).
  assert (IB : In ("B", None, leaf [] [("y", [1])] [("x", [3])]) (m_subs exSib)) by (right; left; reflexivity).
  split. { exists KOutput. split; [discriminate|]. eexists. split; [econstructor; [exact IA|constructor]|left; reflexivity]. }
  split. { eexists. split; [econstructor; [exact IB|constructor]|left; reflexivity]. }
  split; [eapply pn_lifted; [exact IA|constructor|exact I]|].
  split; [eapply pn_lifted; [exact IB|constructor|exact I]|vm_compute; discriminate].
Qed.

(** A promotes list naming a variable that only the parent has. *)
Definition exBadP := Mdl [("x", [2])] [] [] [] [] [] None
   [("A", Some ["x"], leaf [] [("y", [1])] [])].
Lemma exBadP_accepted : exists r, well_named exBadP /\ resolve exBadP None = Ok r /\
   In ("A", Some ["x"], leaf [] [("y", [1])] []) (m_subs exBadP) /\
   ~ (exists pv k s, has_var (leaf [] [("y", [1])] []) pv k "x" s).
Proof.
  eexists. split; [apply well_namedb_sound; vm_compute; reflexivity|]. split; [vm_compute; reflexivity|].
  split; [left; reflexivity|]. intros (pv & k & s & m' & Hs & Hi).
  inversion Hs as [?|? ? ? ? ? ? Hi' ?]; subst; [|destruct Hi'].
  destruct k; simpl in Hi; try tauto. destruct Hi as [E|[]]. discriminate.
Qed.

Lemma promoted_name_total_unique m p k x s : well_named m -> has_var m p k x s ->
  exists! q, promoted_ns m p x q.
Proof.
  intros W H. assert (E : exists q, promoted_ns m p x q).
  { destruct H as (m' & Hs & _). eapply promoted_ns_total; exact Hs. }
  destruct E as [q Hq]. exists q. split; [exact Hq|]. intros q' Hq'. eapply promoted_ns_fun; eassumption.
Qed.

Local Open Scope list_scope.
(** Enumeration of all variables with their promoted namespaces, for concrete checks. *)
Definition up (nm : string) (pr : promotes_t) (x : string) (q : list string) : list string :=
  match q with
  | [] => match pr with None => [] | Some l => if smem x l then [] else [nm] end
  | _ => nm :: q
  end.
Definition entry : Type := list string * vkind * string * shape * list string.
Definition here (k : vkind) (l : list (string * shape)) : list entry :=
  map (fun v => ([], k, fst v, snd v, [])) l.
Fixpoint enum (m : model) : list entry :=
  match m with
  | Mdl i o d _ _ _ _ subs =>
    here KInput i ++ here KOutput o ++ here KDeclared d ++
    (fix go (l : list (string * promotes_t * model)) : list entry :=
       match l with
       | [] => []
       | (nm, pr, sm) :: r =>
         map (fun e => match e with (p, k, x, s, q) => (nm :: p, k, x, s, up nm pr x q) end) (enum sm) ++ go r
       end) subs
  end.

Lemma enum_complete m p k x s q : well_named m ->
  has_var m p k x s -> promoted_ns m p x q -> In (p, k, x, s, q) (enum m).
Proof.
  revert p q. induction m as [m IH] using model_ind'. intros p q W (m' & Hs & Hi) Hp.
  destruct (well_named_here _ W) as (HN & _ & _).
  assert (Wsub : forall nm pr sm, In (nm, pr, sm) (m_subs m) -> well_named sm) by (intros; eapply well_named_sub; eassumption).
  destruct m as [i o d c v ks b subs]. cbn [enum m_subs] in *. rewrite !in_app_iff.
  inversion Hs as [?|? nm pr sm p' ? Hin Hs']; subst.
  - inversion Hp; subst. unfold here. destruct k; simpl in Hi;
    [left|right; left|right; right; left]; apply in_map_iff; exists (x, s); split; [reflexivity|exact Hi|reflexivity|exact Hi|reflexivity|exact Hi].
  - right; right; right. apply promoted_ns_cons in Hp. destruct Hp as (pr2 & sm2 & q2 & Hi2 & Hp2 & HL).
    cbn [m_subs] in *.
    destruct (sub_unique _ _ _ _ _ _ HN Hin Hi2) as [<- <-].
    assert (Hq : q = up nm pr x q2).
    { unfold up. destruct HL as [(-> & HL & ->)|(HL & ->)].
      - destruct pr as [l|]; [|reflexivity]. simpl in HL. apply smem_spec in HL. rewrite HL. reflexivity.
      - destruct q2 as [|a q2]; [|reflexivity]. destruct HL as [HL|HL]; [congruence|].
        destruct pr as [l|]; simpl in HL; [|tauto]. destruct (smem x l) eqn:E; [apply smem_spec in E; tauto|reflexivity]. }
    assert (He : In (p', k, x, s, q2) (enum sm)).
    { eapply IH; [exact Hin|eapply Wsub; exact Hin| |exact Hp2]. exists m'. split; assumption. }
    subst q. clear -Hin He. induction subs as [|[[n0 pr0] sm0] subs IHs]; [destruct Hin|].
    apply in_app_iff. destruct Hin as [E|Hin]; [left|right; apply IHs, Hin].
    injection E as -> -> ->. apply in_map_iff. exists (p', k, x, s, q2). split; [reflexivity|exact He].
Qed.

Fixpoint path_eqb (a b : list string) : bool :=
  match a, b with [], [] => true | x :: a, y :: b => String.eqb x y && path_eqb a b | _, _ => false end.
Lemma path_eqb_refl a : path_eqb a a = true.
Proof. induction a as [|x a IH]; [reflexivity|]. cbn [path_eqb]. rewrite String.eqb_refl. exact IH. Qed.
Lemma path_eqb_true a b : path_eqb a b = true -> a = b.
Proof.
  revert b. induction a as [|x a IH]; intros [|y b]; cbn [path_eqb]; try discriminate; [reflexivity|].
  rewrite andb_true_iff. intros [H1 H2]. apply String.eqb_eq in H1. f_equal; auto.
Qed.
Definition kind_src (k : vkind) : bool := match k with KDeclared => false | _ => true end.

Definition pairs_ok (f : entry -> entry -> bool) (m : model) : bool :=
  forallb (fun a => forallb (f a) (enum m)) (enum m).

Definition same_name (a b : entry) : bool :=
  match a, b with (_, _, x, _, q), (_, _, y, _, r) => String.eqb x y && path_eqb q r end.
Definition uniq_f (a b : entry) : bool :=
  match a, b with (p, k, _, _, _), (p', k', _, _, _) =>
    negb (same_name a b && kind_src k && kind_src k') || path_eqb p p' end.
Definition size_f (a b : entry) : bool :=
  match a, b with (_, _, _, s, _), (_, _, _, s', _) => negb (same_name a b) || Nat.eqb (prod s) (prod s') end.

Lemma pairs_ok_use f m a b : pairs_ok f m = true -> In a (enum m) -> In b (enum m) -> f a b = true.
Proof. unfold pairs_ok. rewrite forallb_forall. intros H Ha Hb. specialize (H a Ha). rewrite forallb_forall in H. auto. Qed.

Lemma unique_sources_check m : well_named m -> pairs_ok uniq_f m = true -> unique_sources m.
Proof.
  intros W H p1 p2 x s1 s2 q (k1 & K1 & V1) (k2 & K2 & V2) P1 P2.
  pose proof (pairs_ok_use _ _ _ _ H (enum_complete _ _ _ _ _ _ W V1 P1) (enum_complete _ _ _ _ _ _ W V2 P2)) as G.
  unfold uniq_f, same_name in G. rewrite String.eqb_refl, path_eqb_refl in G.
  destruct k1; [| |exfalso; apply K1; reflexivity]; (destruct k2; [| |exfalso; apply K2; reflexivity]);
    apply path_eqb_true; exact G.
Qed.
Lemma sizes_agree_check m : well_named m -> pairs_ok size_f m = true -> sizes_agree m.
Proof.
  intros W H p1 p2 k1 k2 x s1 s2 q V1 V2 P1 P2.
  pose proof (pairs_ok_use _ _ _ _ H (enum_complete _ _ _ _ _ _ W V1 P1) (enum_complete _ _ _ _ _ _ W V2 P2)) as G.
  unfold size_f, same_name in G. rewrite String.eqb_refl, path_eqb_refl in G. apply Nat.eqb_eq. exact G.
Qed.

Lemma sizes_locally m : sizes_agree m -> locally_consistent m.
Proof.
  intros Z p m' Hs k1 k2 x s1 s2 H1 H2. destruct (promoted_ns_total _ _ _ x Hs) as [q Hq].
  eapply Z; [exists m'; split; [exact Hs|exact H1]|exists m'; split; [exact Hs|exact H2]|exact Hq|exact Hq].
Qed.

Lemma exM_valid : unique_sources exM /\ sizes_agree exM /\ valid_promotes exM.
Proof.
  split; [apply unique_sources_check; [exact exM_well_named|vm_compute; reflexivity]|].
  split; [apply sizes_agree_check; [exact exM_well_named|vm_compute; reflexivity]|].
  intros p m' nm l sm x Hs Hi Hx.
  inversion Hs as [?|? n1 pr1 sm1 p1 m1 Hi1 Hs1]; subst.
  - simpl in Hi. destruct Hi as [E|[E|[]]]; [discriminate|].
    injection E as <- <- <-. destruct Hx as [<-|[]]. exists [], KDeclared, [2].
    split; [exists exB; split; [constructor|left; reflexivity]|constructor].
  - simpl in Hi1. destruct Hi1 as [E|[E|[]]]; injection E as <- <- <-.
    + inversion Hs1 as [?|? ? ? ? ? ? Hi2 ?]; subst; [destruct Hi|destruct Hi2].
    + inversion Hs1 as [?|? ? ? ? ? ? Hi2 Hs2]; subst.
      * simpl in Hi. destruct Hi as [E|[]]. injection E as <- <- <-. destruct Hx.
      * simpl in Hi2. destruct Hi2 as [E|[]]. injection E as <- <- <-.
        inversion Hs2 as [?|? ? ? ? ? ? Hi3 ?]; subst; [destruct Hi|destruct Hi3].
Qed.

Lemma exM_c16 : well_named exM /\ locally_consistent exM /\ (exists r, resolve exM None = Ok r) /\
  has_source exM [] "x" [2; 3] /\ has_target exM ["A"%string] "x" [2; 3].
Proof.
  split; [exact exM_well_named|]. split; [apply sizes_locally, exM_valid|].
  split; [destruct exM_resolves as (r & H & _); exists r; exact H|].
  split; [exists KInput; split; [discriminate|exists exM; split; [constructor|left; reflexivity]]|].
  exists exA. split; [|left; reflexivity]. econstructor; [left; reflexivity|constructor].
Qed.
