From Verif Require Import PyBase NamesModel NamesProofs PromotionsModel PromotionsSpec.

(** *** Induction over model trees *)
Section ModelInd.
  Variable P : model -> Prop.
  Hypothesis H : forall m, (forall nm pr sm, In (nm, pr, sm) (m_subs m) -> P sm) -> P m.
  Fixpoint model_ind' (m : model) : P m.
  Proof.
    apply H. destruct m as [i o d c v k b subs]; cbn [m_subs].
    revert subs. fix go 1. intros [|[[nm pr] sm] r] n' p' s' Hin.
    - destruct Hin.
    - destruct Hin as [E|Hin].
      + injection E as _ _ <-. apply model_ind'.
      + exact (go r n' p' s' Hin).
  Qed.
End ModelInd.

Lemma bind_Ok {A B} (x : res A) (f : A -> res B) b :
  bind x f = Ok b -> exists a, x = Ok a /\ f a = Ok b.
Proof. destruct x as [a|e]; simpl; [eauto|discriminate]. Qed.

Lemma raise_if_Ok {A} c e (k : res A) a : raise_if c e k = Ok a -> c = false /\ k = Ok a.
Proof. unfold raise_if. destruct c; [discriminate|auto]. Qed.

Ltac inv_bind H :=
  let a := fresh "a" in let E := fresh "E" in
  apply bind_Ok in H; destruct H as (a & E & H).

(** *** Names *)
Lemma has_dot_false s : has_dot s = false <-> count_dots s = 0.
Proof. unfold has_dot. destruct (Nat.eqb_spec (count_dots s) 0); simpl; split; congruence. Qed.

Lemma prepend_nonempty nm x : nm <> ""%string -> prepend_namespace nm x = (nm ++ "." ++ x)%string.
Proof. intros H. unfold prepend_namespace. destruct (String.eqb_spec nm ""); [congruence|reflexivity]. Qed.

Lemma append_inj_l a x y : (a ++ x)%string = (a ++ y)%string -> x = y.
Proof. induction a as [|c a IH]; simpl; intros E; [exact E|]. injection E; auto. Qed.

Lemma prepend_inj nm x y : prepend_namespace nm x = prepend_namespace nm y -> x = y.
Proof.
  unfold prepend_namespace. destruct (String.eqb nm ""); [auto|].
  intros E. apply append_inj_l in E. apply (append_inj_l ".") in E. exact E.
Qed.

Lemma prepend_has_dot nm x : nm <> ""%string -> has_dot (prepend_namespace nm x) = true.
Proof.
  intros H. rewrite prepend_nonempty by exact H. unfold has_dot.
  rewrite !count_dots_app. simpl. destruct (Nat.eqb_spec (count_dots nm + S (count_dots x)) 0); [lia|reflexivity].
Qed.

Lemma prepend_split n1 x1 n2 x2 :
  n1 <> ""%string -> n2 <> ""%string -> has_dot n1 = false -> has_dot n2 = false ->
  prepend_namespace n1 x1 = prepend_namespace n2 x2 -> n1 = n2 /\ x1 = x2.
Proof.
  intros H1 H2 D1 D2. rewrite !prepend_nonempty by assumption.
  apply has_dot_false in D1, D2. apply dot_split; assumption.
Qed.

(** *** Relational view of dictionaries of sets *)
Definition rel (d : dict (list string)) (k v : string) : Prop := exists l, In (k, l) d /\ In v l.

Lemma rel_maps_to d k v : NoDup (dkeys d) -> (rel d k v <-> maps_to d k v).
Proof.
  intros HN. unfold rel, maps_to. split; intros (l & H1 & H2); exists l; split; auto.
  - apply In_dget; assumption.
  - apply dget_In; assumption.
Qed.

Lemma In_dset {V} (d : dict V) k v k' v' :
  NoDup (dkeys d) ->
  (In (k', v') (dset d k v) <-> (k' = k /\ v' = v) \/ (k' <> k /\ In (k', v') d)).
Proof.
  intros HN. split.
  - intros H. apply In_dget in H; [|apply NoDup_dset; exact HN].
    destruct (String.eqb_spec k' k) as [->|Hne].
    + rewrite dget_dset_same in H. injection H as <-. auto.
    + rewrite dget_dset_other in H by exact Hne. right; split; [exact Hne|apply dget_In; exact H].
  - intros [[-> ->]|[Hne Hi]]; apply dget_In.
    + apply dget_dset_same.
    + rewrite dget_dset_other by exact Hne. apply In_dget; assumption.
Qed.

Lemma merge_names_NoDup items p : NoDup (dkeys p) -> NoDup (dkeys (merge_names p items)).
Proof.
  unfold merge_names. revert p. induction items as [|[k l] r IH]; intros p HN; [exact HN|].
  cbn [fold_left fst snd]. apply IH. destruct (dget p k); apply NoDup_dset; exact HN.
Qed.

Lemma rel_merge_names items p k v :
  NoDup (dkeys p) -> (rel (merge_names p items) k v <-> rel p k v \/ rel items k v).
Proof.
  unfold merge_names. revert p. induction items as [|[k0 l0] r IH]; intros p HN.
  - simpl. split; [auto|]. intros [H|(l & [] & _)]; exact H.
  - cbn [fold_left fst snd]. rewrite IH.
    2:{ destruct (dget p k0); apply NoDup_dset; exact HN. }
    destruct (dget p k0) as [old|] eqn:E.
    + split.
      * intros [(l & Hi & Hv)|(l & Hi & Hv)].
        -- apply In_dset in Hi; [|exact HN]. destruct Hi as [[-> ->]|[Hne Hi]].
           ++ apply In_sunion in Hv. destruct Hv as [Hv|Hv].
              ** left. exists old. split; [apply dget_In; exact E|exact Hv].
              ** right. exists l0. split; [left; reflexivity|exact Hv].
           ++ left. exists l; auto.
        -- right. exists l; split; [right; exact Hi|exact Hv].
      * intros [(l & Hi & Hv)|(l & [Ei|Hi] & Hv)].
        -- destruct (String.eqb_spec k k0) as [->|Hne].
           ++ apply In_dget in Hi; [|exact HN]. rewrite E in Hi. injection Hi as <-.
              left. exists (sunion old l0). split; [apply In_dset; auto|apply In_sunion; auto].
           ++ left. exists l. split; [apply In_dset; auto|exact Hv].
        -- injection Ei as <- <-. left. exists (sunion old l0). split; [apply In_dset; auto|apply In_sunion; auto].
        -- right. exists l; auto.
    + apply dget_None in E. split.
      * intros [(l & Hi & Hv)|(l & Hi & Hv)].
        -- apply In_dset in Hi; [|exact HN]. destruct Hi as [[-> ->]|[Hne Hi]].
           ++ right. exists l0. split; [left; reflexivity|exact Hv].
           ++ left. exists l; auto.
        -- right. exists l; split; [right; exact Hi|exact Hv].
      * intros [(l & Hi & Hv)|(l & [Ei|Hi] & Hv)].
        -- left. exists l. split; [apply In_dset; [exact HN|]|exact Hv].
           right. split; [|exact Hi]. intros ->. apply E. apply (in_map fst) in Hi; exact Hi.
        -- injection Ei as <- <-. left. exists l0. split; [apply In_dset; auto|exact Hv].
        -- right. exists l; auto.
Qed.

(** dict comprehension with distinct keys *)
Lemma dset_fresh {V} (d : dict V) k v : ~ In k (dkeys d) -> dset d k v = d ++ [(k, v)].
Proof.
  induction d as [|[k' v'] r IH]; simpl; intros H; [reflexivity|].
  destruct (String.eqb_spec k k') as [->|_]; [exfalso; auto|]. rewrite IH; auto.
Qed.

Lemma dupdate_fresh {V} (e d : dict V) : NoDup (dkeys d ++ dkeys e) -> dupdate d e = d ++ e.
Proof.
  revert d. induction e as [|[k v] e IH]; intros d HN; [rewrite app_nil_r; reflexivity|].
  rewrite dupdate_cons. cbn [fst snd].
  assert (Hk : ~ In k (dkeys d)).
  { simpl in HN. apply NoDup_remove_2 in HN. intros H; apply HN, in_app_iff; auto. }
  rewrite dset_fresh by exact Hk. rewrite IH.
  - rewrite <- app_assoc. reflexivity.
  - unfold dkeys in *. rewrite map_app. simpl. rewrite <- app_assoc. exact HN.
Qed.

Lemma dict_of_NoDup {V} (ps : list (string * V)) : NoDup (dkeys ps) -> dict_of ps = ps.
Proof. intros H. unfold dict_of. rewrite dupdate_fresh; [reflexivity|exact H]. Qed.

Lemma In_dkeys_dict_of {V} (ps : list (string * V)) x : In x (dkeys (dict_of ps)) <-> In x (dkeys ps).
Proof. unfold dict_of. rewrite In_dkeys_dupdate. simpl. tauto. Qed.

Lemma NoDup_dict_of {V} (ps : list (string * V)) : NoDup (dkeys (dict_of ps)).
Proof. apply NoDup_dupdate. constructor. Qed.

Lemma dget_dict_of_In {V} (ps : list (string * V)) x s : dget (dict_of ps) x = Some s -> In (x, s) ps.
Proof.
  unfold dict_of. assert (G : forall ps d, dget (dupdate d ps) x = Some s -> dget d x = Some s \/ In (x, s) ps).
  { clear ps. induction ps as [|[k v] ps IH]; intros d H; [auto|].
    rewrite dupdate_cons in H. cbn [fst snd] in H. apply IH in H. destruct H as [H|H]; [|right; right; exact H].
    destruct (String.eqb_spec x k) as [->|Hne].
    - rewrite dget_dset_same in H. injection H as <-. right; left; reflexivity.
    - rewrite dget_dset_other in H by exact Hne. auto. }
  intros H. apply G in H. destruct H as [H|H]; [discriminate|exact H].
Qed.

Lemma In_ddel {V} (d : dict V) k k' v' :
  NoDup (dkeys d) -> (In (k', v') (ddel d k) <-> k' <> k /\ In (k', v') d).
Proof.
  induction d as [|[k1 v1] r IH]; simpl; intros HN; [tauto|].
  inversion HN as [|? ? Hni HN']; subst. destruct (String.eqb_spec k k1) as [->|Hne].
  - split.
    + intros Hi. split; [|auto]. intros ->. apply Hni. apply (in_map fst) in Hi; exact Hi.
    + intros [Hne' [E|Hi]]; [injection E as -> _; congruence|exact Hi].
  - simpl. rewrite IH by assumption. split.
    + intros [E|[Hn Hi]]; [injection E as -> ->; auto|auto].
    + intros [Hn [E|Hi]]; auto.
Qed.

Lemma ddel_keys_incl {V} (d : dict V) k x : In x (dkeys (ddel d k)) -> In x (dkeys d).
Proof.
  induction d as [|[k1 v1] r IH]; simpl; [tauto|].
  destruct (String.eqb k k1); simpl; intros H; [auto|]. destruct H; auto.
Qed.

Lemma NoDup_ddel {V} (d : dict V) k : NoDup (dkeys d) -> NoDup (dkeys (ddel d k)).
Proof.
  induction d as [|[k1 v1] r IH]; simpl; intros HN; [constructor|].
  inversion HN; subst. destruct (String.eqb k k1); [assumption|]. simpl. constructor; [|auto].
  intros H. apply ddel_keys_incl in H. contradiction.
Qed.

Lemma In_fold_ddel {V W} (keep : dict W) (f : string -> string) (d : dict V) k v :
  NoDup (dkeys d) ->
  (In (k, v) (fold_left (fun d kv => ddel d (f (fst kv))) keep d) <->
   In (k, v) d /\ (forall k0, In k0 (dkeys keep) -> k <> f k0)).
Proof.
  revert d. induction keep as [|[k1 w1] r IH]; intros d HN.
  - simpl. split; [intros H; split; [exact H|intros k0 []]|tauto].
  - cbn [fold_left fst]. rewrite IH by (apply NoDup_ddel; exact HN).
    rewrite In_ddel by exact HN. simpl. split.
    + intros [[Hne Hi] Hk]. split; [exact Hi|]. intros k0 [<-|H0]; [exact Hne|auto].
    + intros [Hi Hk]. split; [split; [apply Hk; left; reflexivity|exact Hi]|]. intros k0 H0; apply Hk; auto.
Qed.

(** *** One child *)
Definition lifted_key (pr : promotes_t) (k : string) : Prop :=
  match pr with None => has_dot k = false | Some l => In k l end.

Lemma dkeys_map_fst {V W} (g : V -> W) (d : dict V) :
  dkeys (map (fun kv => (fst kv, g (snd kv))) d) = dkeys d.
Proof. unfold dkeys. rewrite map_map. reflexivity. Qed.

Lemma filter_keys_incl {V} (f : string * V -> bool) (d : dict V) k :
  In k (dkeys (filter f d)) <-> exists v, In (k, v) d /\ f (k, v) = true.
Proof.
  unfold dkeys. rewrite in_map_iff. split.
  - intros ([k' v] & E & Hi). simpl in E; subst k'. apply filter_In in Hi. eauto.
  - intros (v & Hi & Hf). exists (k, v). split; [reflexivity|apply filter_In; auto].
Qed.

Lemma NoDup_filter_keys {V} (f : string * V -> bool) (d : dict V) :
  NoDup (dkeys d) -> NoDup (dkeys (filter f d)).
Proof.
  induction d as [|[k v] r IH]; simpl; intros HN; [constructor|].
  inversion HN; subst. destruct (f (k, v)); simpl; [|auto]. constructor; [|auto].
  intros H. apply filter_keys_incl in H. destruct H as (w & Hi & _).
  apply (in_map fst) in Hi. contradiction.
Qed.

Lemma merge_child_spec ns p c p' :
  c_name c <> ""%string -> NoDup (dkeys p) -> NoDup (dkeys (c_p2u c)) ->
  merge_child ns p c = Ok p' ->
  NoDup (dkeys p') /\
  (forall k v, rel p' k v <-> rel p k v \/
     exists k0 v0, rel (c_p2u c) k0 v0 /\ v = prepend_namespace (c_name c) v0 /\
       ((lifted_key (c_prom c) k0 /\ k = k0) \/
        (~ lifted_key (c_prom c) k0 /\ k = prepend_namespace (c_name c) k0))) /\
  (forall l x, c_prom c = Some l -> In x l -> In x ns).
Proof.
  intros Hs HNp HNc H. unfold merge_child in H. set (s := c_name c) in *.
  set (pfc := map (fun kv => (fst kv, map (prepend_namespace s) (snd kv))) (c_p2u c)) in *.
  set (np0 := map (fun kv => (prepend_namespace s (fst kv), map (prepend_namespace s) (snd kv))) (c_p2u c)) in *.
  apply raise_if_Ok in H. destruct H as [_ H].
  assert (HNn : NoDup (dkeys np0)).
  { unfold np0, dkeys. rewrite map_map. cbn [fst].
    assert (G : forall l : dict (list string), NoDup (dkeys l) -> NoDup (map (fun kv => prepend_namespace s (fst kv)) l)).
    { induction l as [|[k v] l IH]; simpl; intros HN; [constructor|].
      inversion HN; subst. constructor; [|auto]. rewrite in_map_iff. intros ([k' v'] & E & Hi).
      apply prepend_inj in E. simpl in E. subst k'. apply (in_map fst) in Hi. contradiction. }
    apply G, HNc. }
  rewrite (dict_of_NoDup _ HNn) in H.
  (* common treatment of the three cases *)
  assert (Core : forall f : string -> bool,
     (forall k, f k = true <-> lifted_key (c_prom c) k) ->
     let keep := filter (fun kv => f (fst kv)) pfc in
     let rest := fold_left (fun d kv => ddel d (prepend_namespace s (fst kv))) keep np0 in
     forall q, q = merge_names (merge_names p keep) rest ->
     NoDup (dkeys q) /\
     (forall k v, rel q k v <-> rel p k v \/
       exists k0 v0, rel (c_p2u c) k0 v0 /\ v = prepend_namespace s v0 /\
       ((lifted_key (c_prom c) k0 /\ k = k0) \/
        (~ lifted_key (c_prom c) k0 /\ k = prepend_namespace s k0)))).
  { intros f Hf keep rest q ->. split; [do 2 apply merge_names_NoDup; exact HNp|].
    intros k v. rewrite rel_merge_names by (apply merge_names_NoDup; exact HNp).
    rewrite rel_merge_names by exact HNp.
    assert (Hkeep : rel keep k v <-> exists v0, rel (c_p2u c) k v0 /\ v = prepend_namespace s v0 /\ lifted_key (c_prom c) k).
    { unfold rel, keep. split.
      - intros (l & Hi & Hv). apply filter_In in Hi. cbn [fst] in Hi. destruct Hi as [Hi Hk].
        apply Hf in Hk. unfold pfc in Hi. apply in_map_iff in Hi. destruct Hi as ([k1 l1] & E & Hi).
        cbn [fst snd] in E. injection E as <- <-. apply in_map_iff in Hv. destruct Hv as (v0 & <- & Hv).
        exists v0. split; [exists l1; auto|auto].
      - intros (v0 & (l & Hi & Hv) & -> & Hk). exists (map (prepend_namespace s) l). split.
        + apply filter_In. split; [|cbn [fst]; apply Hf; exact Hk].
          unfold pfc. apply in_map_iff. exists (k, l). auto.
        + apply in_map; exact Hv. }
    assert (Hrest : rel rest k v <-> exists k0 v0, rel (c_p2u c) k0 v0 /\ v = prepend_namespace s v0 /\
                       ~ lifted_key (c_prom c) k0 /\ k = prepend_namespace s k0).
    { unfold rel, rest. split.
      - intros (l & Hi & Hv). apply In_fold_ddel in Hi; [|exact HNn]. destruct Hi as [Hi Hk].
        unfold np0 in Hi. apply in_map_iff in Hi. destruct Hi as ([k1 l1] & E & Hi).
        cbn [fst snd] in E. injection E as <- <-. apply in_map_iff in Hv. destruct Hv as (v0 & <- & Hv).
        exists k1, v0. split; [exists l1; auto|]. split; [reflexivity|]. split; [|reflexivity].
        intros HL. apply (Hk k1); [|reflexivity]. unfold keep. apply filter_keys_incl.
        exists (map (prepend_namespace s) l1). split; [|cbn [fst]; apply Hf; exact HL].
        unfold pfc. apply in_map_iff. exists (k1, l1); auto.
      - intros (k0 & v0 & (l & Hi & Hv) & -> & HL & ->). exists (map (prepend_namespace s) l). split.
        + apply In_fold_ddel; [exact HNn|]. split.
          * unfold np0. apply in_map_iff. exists (k0, l). auto.
          * intros k1 Hk1 E. apply prepend_inj in E. subst k1. apply HL. apply Hf.
            unfold keep in Hk1. apply filter_keys_incl in Hk1. destruct Hk1 as (w & _ & Hw). exact Hw.
        + apply in_map; exact Hv. }
    rewrite Hkeep, Hrest. clear. split.
    - intros [[H|H]|H]; [auto|right|right].
      + destruct H as (v0 & H1 & H2 & H3). exists k, v0. auto 6.
      + destruct H as (k0 & v0 & H1 & H2 & H3 & H4). exists k0, v0. auto 6.
    - intros [H|(k0 & v0 & H1 & H2 & [[H3 ->]|[H3 H4]])]; [auto| |].
      + left; right. exists v0; auto.
      + right. exists k0, v0; auto. }
  inv_bind H. destruct a as [keep rest]. cbn [fst snd] in H.
  apply raise_if_Ok in H. destruct H as [_ H]. injection H as <-.
  destruct (c_prom c) as [l|] eqn:Epr.
  - assert (El : (if existsb (fun k => negb (smem k ns)) l then Err KeyError
                  else let keep := filter (fun kv => smem (fst kv) l) pfc in
                       Ok (keep, fold_left (fun d kv => ddel d (prepend_namespace s (fst kv))) keep np0))
                 = Ok (keep, rest)).
    { destruct l as [|x l]; [|exact E]. cbn [existsb].
      injection E as <- <-. cbv zeta.
      assert (Z : forall A (q : list A), filter (fun _ => false) q = []) by (induction q; auto).
      replace (filter (fun kv : string * list string => smem (fst kv) []) pfc) with (@nil (string * list string)).
      - reflexivity.
      - symmetry. exact (Z _ pfc). }
    clear E. destruct (existsb (fun k => negb (smem k ns)) l) eqn:Ex; [discriminate|].
    cbv zeta in El. injection El as <- <-.
    destruct (Core (fun k => smem k l)) with (q := merge_names (merge_names p (filter (fun kv => smem (fst kv) l) pfc))
          (fold_left (fun d kv => ddel d (prepend_namespace s (fst kv))) (filter (fun kv => smem (fst kv) l) pfc) np0))
       as [C1 C2]; [intros k; apply smem_spec|reflexivity|].
    split; [exact C1|]. split; [exact C2|].
    intros l' x E Hx. injection E as <-.
    destruct (smem x ns) eqn:Em; [apply smem_spec; exact Em|].
    exfalso. assert (existsb (fun k => negb (smem k ns)) l = true); [|congruence].
    apply existsb_exists. exists x. rewrite Em. auto.
  - cbv zeta in E. injection E as <- <-.
    destruct (Core (fun k => negb (has_dot k))) with (q := merge_names (merge_names p (filter (fun kv => negb (has_dot (fst kv))) pfc))
          (fold_left (fun d kv => ddel d (prepend_namespace s (fst kv))) (filter (fun kv => negb (has_dot (fst kv))) pfc) np0))
       as [C1 C2].
    { intros k. simpl. destruct (has_dot k); split; simpl; congruence. }
    { reflexivity. }
    split; [exact C1|]. split; [exact C2|]. discriminate.
Qed.

Lemma merge_children_spec ns cs p p' :
  (forall c, In c cs -> c_name c <> ""%string /\ NoDup (dkeys (c_p2u c))) ->
  NoDup (dkeys p) ->
  merge_children ns p cs = Ok p' ->
  NoDup (dkeys p') /\
  (forall k v, rel p' k v <-> rel p k v \/
     exists c k0 v0, In c cs /\ rel (c_p2u c) k0 v0 /\ v = prepend_namespace (c_name c) v0 /\
       ((lifted_key (c_prom c) k0 /\ k = k0) \/
        (~ lifted_key (c_prom c) k0 /\ k = prepend_namespace (c_name c) k0))) /\
  (forall c l x, In c cs -> c_prom c = Some l -> In x l -> In x ns).
Proof.
  revert p. induction cs as [|c cs IH]; intros p Hc HN H.
  - simpl in H. injection H as <-. split; [exact HN|]. split; [|intros c l x []].
    intros k v. split; [auto|]. intros [H|(c & k0 & v0 & [] & _)]; exact H.
  - cbn [merge_children] in H. inv_bind H.
    destruct (Hc c (or_introl eq_refl)) as [Hs HNc].
    destruct (merge_child_spec _ _ _ _ Hs HN HNc E) as (HN1 & HR1 & HP1).
    destruct (IH a) as (HN2 & HR2 & HP2); [intros c' Hc'; apply Hc; right; exact Hc'|exact HN1|exact H|].
    split; [exact HN2|]. split.
    + intros k v. rewrite HR2, HR1. split.
      * intros [[Hr|(k0 & v0 & Hx)]|(c' & k0 & v0 & Hi & Hx)]; [auto|right..].
        -- exists c, k0, v0. split; [left; reflexivity|exact Hx].
        -- exists c', k0, v0. split; [right; exact Hi|exact Hx].
      * intros [Hr|(c' & k0 & v0 & [<-|Hi] & Hx)]; [auto| |].
        -- left; right. exists k0, v0; exact Hx.
        -- right. exists c', k0, v0; auto.
    + intros c' l x [<-|Hi]; [apply HP1|apply HP2; exact Hi].
Qed.

(** *** The loop over the subgraphs *)
Lemma resolve_children_spec f l accs acct s t cs :
  resolve_children f l accs acct = Ok (s, t, cs) ->
  (forall c, In c cs -> exists nm pr sm r, In (nm, pr, sm) l /\ f sm pr = Ok r /\ c = Child nm pr (rp_p2u r)) /\
  (forall nm pr sm, In (nm, pr, sm) l -> exists r, f sm pr = Ok r /\ In (Child nm pr (rp_p2u r)) cs) /\
  (forall x, In x (dkeys s) <-> In x (dkeys accs) \/
      exists nm pr sm r, In (nm, pr, sm) l /\ f sm pr = Ok r /\ In x (dkeys (rp_src r))) /\
  (forall x, In x (dkeys t) <-> In x (dkeys acct) \/
      exists nm pr sm r, In (nm, pr, sm) l /\ f sm pr = Ok r /\ In x (dkeys (rp_tgt r))).
Proof.
  revert accs acct s t cs. induction l as [|[[nm pr] sm] l IH]; intros accs acct s t cs H.
  - simpl in H. injection H as <- <- <-. repeat split.
    + intros c [].
    + intros ? ? ? [].
    + auto.
    + intros [H|(?&?&?&?&[]&_)]; exact H.
    + auto.
    + intros [H|(?&?&?&?&[]&_)]; exact H.
  - cbn [resolve_children] in H. inv_bind H. rename a into r, E into Er.
    inv_bind H. inv_bind H. inv_bind H. destruct a1 as [[s' t'] cs']. cbn [fst snd] in H.
    injection H as <- <- <-. fold (resolve_children f) in E1. apply IH in E1.
    destruct E1 as (H1 & H2 & H3 & H4). split; [|split; [|split]].
    + intros c [<-|Hc].
      * exists nm, pr, sm, r. auto using in_eq.
      * apply H1 in Hc. destruct Hc as (n' & p' & s'' & r' & Hi & Hx). exists n', p', s'', r'. split; [right; exact Hi|exact Hx].
    + intros n' p' s'' [E'|Hi].
      * injection E' as <- <- <-. exists r. split; [exact Er|left; reflexivity].
      * apply H2 in Hi. destruct Hi as (r' & Hr & Hi). exists r'. split; [exact Hr|right; exact Hi].
    + intros x. rewrite H3, In_dkeys_dupdate. split.
      * intros [[Hx|Hx]|(n' & p' & s'' & r' & Hi & Hx)]; [auto|right..].
        -- exists nm, pr, sm, r. auto using in_eq.
        -- exists n', p', s'', r'. split; [right; exact Hi|exact Hx].
      * intros [Hx|(n' & p' & s'' & r' & [E'|Hi] & Hr & Hx)]; [auto| |].
        -- injection E' as <- <- <-. rewrite Er in Hr. injection Hr as <-. auto.
        -- right. exists n', p', s'', r'. auto.
    + intros x. rewrite H4, In_dkeys_dupdate. split.
      * intros [[Hx|Hx]|(n' & p' & s'' & r' & Hi & Hx)]; [auto|right..].
        -- exists nm, pr, sm, r. auto using in_eq.
        -- exists n', p', s'', r'. split; [right; exact Hi|exact Hx].
      * intros [Hx|(n' & p' & s'' & r' & [E'|Hi] & Hr & Hx)]; [auto| |].
        -- injection E' as <- <- <-. rewrite Er in Hr. injection Hr as <-. auto.
        -- right. exists n', p', s'', r'. auto.
Qed.

(** initial map with the local names *)
Lemma fold_singletons_spec (ks : list string) (d : dict (list string)) :
  NoDup (dkeys d) -> (forall k v, rel d k v -> v = k) ->
  let d' := fold_left (fun d k => dset d k [k]) ks d in
  NoDup (dkeys d') /\ (forall k v, rel d' k v <-> (rel d k v \/ (In k ks /\ v = k))).
Proof.
  revert d. induction ks as [|k0 ks IH]; intros d HN Hd; cbv zeta.
  - split; [exact HN|]. intros k v; simpl. tauto.
  - cbn [fold_left].
    assert (HR : forall k v, rel (dset d k0 [k0]) k v <-> (rel d k v \/ (k = k0 /\ v = k))).
    { intros k v. unfold rel. split.
      - intros (l & Hi & Hv). apply In_dset in Hi; [|exact HN]. destruct Hi as [[-> ->]|[Hne Hi]].
        + destruct Hv as [<-|[]]. auto.
        + left. eauto.
      - intros [(l & Hi & Hv)|[-> ->]].
        + destruct (String.eqb_spec k k0) as [->|Hne].
          * exists [k0]. split; [apply In_dset; auto|]. left. symmetry. apply Hd. exists l; auto.
          * exists l. split; [apply In_dset; auto|exact Hv].
        + exists [k0]. split; [apply In_dset; auto|left; reflexivity]. }
    destruct (IH (dset d k0 [k0])) as [H1 H2].
    { apply NoDup_dset; exact HN. }
    { intros k v H. apply HR in H. destruct H as [H|[_ H]]; [apply Hd; exact H|exact H]. }
    split; [exact H1|]. intros k v. rewrite H2, HR. simpl. intuition congruence.
Qed.

(** [resolve] unfolded once. *)
Definition p2u_local (m : model) : dict (list string) :=
  fold_left (fun d k => dset d k [k]) (dkeys (local_targets m))
    (fold_left (fun d k => dset d k [k]) (dkeys (local_sources m)) []).

Lemma resolve_inv m pr r :
  resolve m pr = Ok r ->
  exists csrc ctgt cs,
    resolve_children resolve (m_subs m) [] [] = Ok (csrc, ctgt, cs) /\
    (is_nil csrc = false -> check_duplicate_keys (local_sources m) csrc = Ok tt) /\
    (is_nil ctgt = false -> find_names_with_matching_shapes ctgt (local_targets m) = Ok tt) /\
    find_names_with_matching_shapes (local_sources m) ctgt = Ok tt /\
    find_names_with_matching_shapes csrc (local_targets m) = Ok tt /\
    rp_src r = promotable pr (dupdate (local_sources m) csrc) /\
    rp_tgt r = promotable pr (dupdate (local_targets m) ctgt) /\
    merge_children (dkeys (dupdate (local_sources m) csrc) ++ dkeys (dupdate (local_targets m) ctgt))
      (p2u_local m) cs = Ok (rp_p2u r).
Proof.
  destruct m as [ins outs decl conns dvs csts obj subs]. cbn [resolve].
  intros H. inv_bind H. destruct a as [[csrc ctgt] cs]. cbn [fst snd] in H.
  inv_bind H. inv_bind H. inv_bind H. inv_bind H. inv_bind H. injection H as <-.
  exists csrc, ctgt, cs. cbn [m_subs rp_src rp_tgt rp_p2u].
  destruct a, a0, a1, a2.
  split; [exact E|]. split; [intros Z; rewrite Z in E0; exact E0|].
  split; [intros Z; rewrite Z in E1; exact E1|]. split; [exact E2|]. split; [exact E3|].
  split; [reflexivity|]. split; [reflexivity|]. exact E4.
Qed.

Lemma In_promotable pr d x : In x (dkeys (promotable pr d)) <-> In x (dkeys d) /\ lifts pr x.
Proof.
  destruct pr as [l|]; simpl; [|tauto]. rewrite filter_keys_incl. split.
  - intros (v & Hi & Hm). cbn [fst] in Hm. apply smem_spec in Hm. apply (in_map fst) in Hi. auto.
  - intros [Hx Hm]. apply In_key_dget in Hx. destruct Hx as [v Hv].
    exists v. split; [apply dget_In; exact Hv|apply smem_spec; exact Hm].
Qed.

Lemma promotable_get pr d x s : NoDup (dkeys d) ->
  (dget (promotable pr d) x = Some s <-> dget d x = Some s /\ lifts pr x).
Proof.
  intros HN. destruct pr as [l|]; simpl; [|tauto].
  split.
  - intros H. apply dget_In, filter_In in H. destruct H as [Hi Hm]. cbn [fst] in Hm.
    split; [apply In_dget; assumption|apply smem_spec; exact Hm].
  - intros [Hg Hm]. apply In_dget; [apply NoDup_filter_keys; exact HN|].
    apply filter_In. split; [apply dget_In; exact Hg|apply smem_spec; exact Hm].
Qed.

(** *** Well-named hierarchies *)
Lemma well_named_sub m nm pr sm : well_named m -> In (nm, pr, sm) (m_subs m) -> well_named sm.
Proof. intros W Hi p m' Hs. apply (W (nm :: p) m'). econstructor; eassumption. Qed.

Lemma well_named_here m : well_named m ->
    NoDup (map (fun t => fst (fst t)) (m_subs m)) /\
    (forall nm pr sm, In (nm, pr, sm) (m_subs m) -> has_dot nm = false /\ nm <> ""%string) /\
    (forall k x s, In (x, s) (vars k m) -> has_dot x = false).
Proof. intros W. apply (W [] m). constructor. Qed.

Lemma sub_unique {A B} (l : list (string * A * B)) nm a b a' b' :
  NoDup (map (fun t => fst (fst t)) l) -> In (nm, a, b) l -> In (nm, a', b') l -> a = a' /\ b = b'.
Proof.
  induction l as [|[[n x] y] l IH]; simpl; [tauto|]. intros HN H1 H2.
  inversion HN as [|? ? Hni HN']; subst.
  destruct H1 as [E1|H1]; destruct H2 as [E2|H2].
  - injection E1 as -> -> ->. injection E2 as -> ->. auto.
  - injection E1 as -> -> ->. exfalso. apply Hni. apply (in_map (fun t => fst (fst t))) in H2. exact H2.
  - injection E2 as -> -> ->. exfalso. apply Hni. apply (in_map (fun t => fst (fst t))) in H1. exact H1.
  - auto.
Qed.

Lemma has_var_here m k x s : has_var m [] k x s <-> In (x, s) (vars k m).
Proof.
  split.
  - intros (m' & Hs & Hi). inversion Hs; subst. exact Hi.
  - intros Hi. exists m. split; [constructor|exact Hi].
Qed.

Lemma has_var_sub m nm p k x s :
  has_var m (nm :: p) k x s <-> exists pr sm, In (nm, pr, sm) (m_subs m) /\ has_var sm p k x s.
Proof.
  split.
  - intros (m' & Hs & Hi). inversion Hs; subst. eexists _, _. split; [eassumption|]. exists m'; auto.
  - intros (pr & sm & Hi & m' & Hs & Hv). exists m'. split; [econstructor; eassumption|exact Hv].
Qed.

Lemma has_var_no_dot m p k x s : well_named m -> has_var m p k x s -> has_dot x = false.
Proof. intros W (m' & Hs & Hi). destruct (W p m' Hs) as (_ & _ & H). eapply H; exact Hi. Qed.

Lemma has_var_path_names m p k x s : well_named m -> has_var m p k x s ->
  Forall (fun n => has_dot n = false /\ n <> ""%string) p.
Proof.
  revert m. induction p as [|nm p IH]; intros m W H; [constructor|].
  apply has_var_sub in H. destruct H as (pr & sm & Hi & Hv).
  destruct (well_named_here _ W) as (_ & Hn & _). constructor; [eapply Hn; exact Hi|].
  eapply IH; [eapply well_named_sub; eassumption|exact Hv].
Qed.

Definition hv (m : model) p x : Prop := exists k s, has_var m p k x s.

Lemma promoted_ns_prefix m p x q : promoted_ns m p x q -> exists t, p = q ++ t.
Proof.
  intros H. induction H as [m x|m nm pr sm p x Hi H [t IH] HL|m nm pr sm p x q Hi H [t IH] HL].
  - exists []. reflexivity.
  - exists (nm :: p). reflexivity.
  - exists t. simpl. congruence.
Qed.

Lemma promoted_ns_cons m nm p x q :
  promoted_ns m (nm :: p) x q ->
  exists pr sm q0, In (nm, pr, sm) (m_subs m) /\ promoted_ns sm p x q0 /\
    ((q0 = [] /\ lifts pr x /\ q = []) \/ ((q0 <> [] \/ ~ lifts pr x) /\ q = nm :: q0)).
Proof.
  intros H. inversion H; subst.
  - eexists _, _, []. split; [eassumption|]. split; [eassumption|]. auto.
  - eexists _, _, _. split; [eassumption|]. split; [eassumption|]. auto.
Qed.

Lemma lifts_dec pr x : {lifts pr x} + {~ lifts pr x}.
Proof. destruct pr as [l|]; simpl; [apply in_dec, string_dec|auto]. Qed.

Lemma promoted_ns_fun m p x q1 q2 : well_named m ->
  promoted_ns m p x q1 -> promoted_ns m p x q2 -> q1 = q2.
Proof.
  intros W H. revert q2 W.
  induction H as [m x|m nm pr sm p x Hi H IH HL|m nm pr sm p x q Hi H IH HL]; intros q2 W H2.
  - inversion H2; reflexivity.
  - destruct (well_named_here _ W) as (HN & _ & _).
    apply promoted_ns_cons in H2. destruct H2 as (pr1 & sm1 & q0 & Hi1 & H2 & Hc).
    destruct (sub_unique _ _ _ _ _ _ HN Hi Hi1) as [<- <-].
    assert (E : [] = q0) by (apply IH; [eapply well_named_sub; eassumption|assumption]). subst q0.
    destruct Hc as [(_ & _ & ->)|([Hc|Hc] & ->)]; [reflexivity|contradiction..].
  - destruct (well_named_here _ W) as (HN & _ & _).
    apply promoted_ns_cons in H2. destruct H2 as (pr1 & sm1 & q0 & Hi1 & H2 & Hc).
    destruct (sub_unique _ _ _ _ _ _ HN Hi Hi1) as [<- <-].
    assert (E : q = q0) by (apply IH; [eapply well_named_sub; eassumption|assumption]). subst q0.
    destruct Hc as [(-> & Hl & ->)|(Hc & ->)]; [|reflexivity]. destruct HL; contradiction.
Qed.

Lemma promoted_ns_total m p m' x : sub_at m p m' -> exists q, promoted_ns m p x q.
Proof.
  intros H. induction H as [m|m nm pr sm p m' Hi H [q IH]].
  - exists []. constructor.
  - destruct q as [|a q].
    + destruct (lifts_dec pr x) as [HL|HL].
      * exists []. econstructor; eassumption.
      * exists [nm]. eapply pn_prefixed; eauto.
    + exists (nm :: a :: q). eapply pn_prefixed; eauto. left; discriminate.
Qed.

Lemma path_name_has_dot q x : Forall (fun n => has_dot n = false /\ n <> ""%string) q -> q <> [] ->
  has_dot (path_name q x) = true.
Proof.
  destruct q as [|n q]; [congruence|]. intros H _. inversion H as [|? ? [_ Hn] _]; subst.
  cbn [path_name]. apply prepend_has_dot. exact Hn.
Qed.

Lemma Forall_prefix {A} (P : A -> Prop) l1 l2 : Forall P (l1 ++ l2) -> Forall P l1.
Proof. intros H. apply Forall_app in H. tauto. Qed.

(** *** Main characterisation *)
Definition Visible (m : model) (k : vkind -> Prop) (x : string) : Prop :=
  exists p kd s, k kd /\ has_var m p kd x s /\ promoted_ns m p x [].

Lemma local_sources_keys m x : In x (dkeys (local_sources m)) <-> exists k s, is_source k /\ In (x, s) (vars k m).
Proof.
  unfold local_sources. rewrite In_dkeys_dict_of. unfold dkeys. rewrite map_app, in_app_iff, !in_map_iff. split.
  - intros [([y s] & E & H)|([y s] & E & H)]; cbn [fst] in E; subst y.
    + exists KInput, s. split; [discriminate|exact H].
    + exists KOutput, s. split; [discriminate|exact H].
  - intros ([| |] & s & Hk & H); cbn [vars] in H.
    + left. exists (x, s); auto.
    + right. exists (x, s); auto.
    + exfalso. apply Hk; reflexivity.
Qed.

Lemma local_targets_keys m x : In x (dkeys (local_targets m)) <-> exists s, In (x, s) (vars KDeclared m).
Proof.
  unfold local_targets. rewrite In_dkeys_dict_of. unfold dkeys. rewrite in_map_iff. split.
  - intros ([y s] & E & H); cbn [fst] in E; subst y. eauto.
  - intros (s & H). exists (x, s); auto.
Qed.

Lemma resolve_names m pr r :
  well_named m -> resolve m pr = Ok r ->
  (forall x, In x (dkeys (rp_src r)) <-> Visible m is_source x /\ lifts pr x) /\
  (forall x, In x (dkeys (rp_tgt r)) <-> Visible m (eq KDeclared) x /\ lifts pr x).
Proof.
  revert pr r. induction m as [m IH] using model_ind'. intros pr r W H.
  apply resolve_inv in H. destruct H as (csrc & ctgt & cs & Hch & _ & _ & _ & _ & Hs & Ht & _).
  apply resolve_children_spec in Hch. destruct Hch as (_ & Hc2 & Hcs & Hct).
  destruct (well_named_here _ W) as (HN & _ & _).
  assert (Hsub : forall (K : vkind -> Prop) (g : rp -> dict shape),
     (forall nm pr sm, In (nm, pr, sm) (m_subs m) -> forall r, resolve sm pr = Ok r ->
        forall x, In x (dkeys (g r)) <-> Visible sm K x /\ lifts pr x) ->
     forall x, (exists nm pr sm r, In (nm, pr, sm) (m_subs m) /\ resolve sm pr = Ok r /\ In x (dkeys (g r)))
        <-> (exists nm p kd s, K kd /\ has_var m (nm :: p) kd x s /\ promoted_ns m (nm :: p) x [])).
  { intros K g Hg x. split.
    - intros (nm & pr0 & sm & r0 & Hi & Hr & Hx). apply (Hg _ _ _ Hi _ Hr) in Hx.
      destruct Hx as ((p & kd & s & HK & Hv & Hp) & HL).
      exists nm, p, kd, s. split; [exact HK|]. split; [apply has_var_sub; eauto|]. econstructor; eassumption.
    - intros (nm & p & kd & s & HK & Hv & Hp). apply promoted_ns_cons in Hp.
      destruct Hp as (pr1 & sm1 & q0 & Hi1 & Hp & [(-> & HL & _)|(_ & Hx)]); [|discriminate].
      apply has_var_sub in Hv. destruct Hv as (pr' & sm' & Hi' & Hv).
      destruct (sub_unique _ _ _ _ _ _ HN Hi1 Hi') as [-> ->].
      destruct (Hc2 _ _ _ Hi') as (r0 & Hr & _).
      exists nm, pr', sm', r0. split; [exact Hi'|]. split; [exact Hr|].
      apply (Hg _ _ _ Hi' _ Hr). split; [|assumption]. exists p, kd, s. auto. }
  split; intros x.
  - rewrite Hs, In_promotable, In_dkeys_dupdate, Hcs, local_sources_keys.
    rewrite (Hsub is_source rp_src).
    2:{ intros nm pr0 sm Hi r0 Hr. destruct (IH _ _ _ Hi pr0 r0) as [I1 _]; [eapply well_named_sub; eassumption|exact Hr|exact I1]. }
    split.
    + intros [[(k & s & Hk & Hv)|[[]|(nm & p & kd & s & HK & Hv & Hp)]] HL]; (split; [|exact HL]).
      * exists [], k, s. split; [exact Hk|]. split; [apply has_var_here; exact Hv|constructor].
      * exists (nm :: p), kd, s. auto.
    + intros [(p & kd & s & HK & Hv & Hp) HL]. split; [|exact HL].
      destruct p as [|nm p].
      * left. exists kd, s. split; [exact HK|apply has_var_here; exact Hv].
      * right; right. exists nm, p, kd, s. auto.
  - rewrite Ht, In_promotable, In_dkeys_dupdate, Hct, local_targets_keys.
    rewrite (Hsub (eq KDeclared) rp_tgt).
    2:{ intros nm pr0 sm Hi r0 Hr. destruct (IH _ _ _ Hi pr0 r0) as [_ I1]; [eapply well_named_sub; eassumption|exact Hr|exact I1]. }
    split.
    + intros [[(s & Hv)|[[]|(nm & p & kd & s & HK & Hv & Hp)]] HL]; (split; [|exact HL]).
      * exists [], KDeclared, s. split; [reflexivity|]. split; [apply has_var_here; exact Hv|constructor].
      * exists (nm :: p), kd, s. auto.
    + intros [(p & kd & s & HK & Hv & Hp) HL]. split; [|exact HL].
      destruct p as [|nm p].
      * left. exists s. subst kd. apply has_var_here; exact Hv.
      * right; right. exists nm, p, kd, s. auto.
Qed.

(** names of the local namespace have no dot *)
Lemma Visible_no_dot m K x : well_named m -> Visible m K x -> has_dot x = false.
Proof. intros W (p & kd & s & _ & Hv & _). eapply has_var_no_dot; eassumption. Qed.

Lemma resolve_p2u m pr r :
  well_named m -> resolve m pr = Ok r ->
  NoDup (dkeys (rp_p2u r)) /\
  (forall k v, rel (rp_p2u r) k v <->
     exists p x q, hv m p x /\ promoted_ns m p x q /\ v = path_name p x /\ k = path_name q x) /\
  (forall nm l sm x, In (nm, Some l, sm) (m_subs m) -> In x l ->
     Visible m is_source x \/ Visible m (eq KDeclared) x).
Proof.
  revert pr r. induction m as [m IH] using model_ind'. intros pr r W H.
  destruct (resolve m None) as [r0|e0] eqn:E0.
  2:{ exfalso. destruct m as [ins outs decl conns dvs csts obj subs].
      cbn [resolve] in H, E0. inv_bind H. rewrite E in E0. cbn [bind] in E0.
      inv_bind H. rewrite E1 in E0. cbn [bind] in E0.
      inv_bind H. rewrite E2 in E0. cbn [bind] in E0.
      inv_bind H. rewrite E3 in E0. cbn [bind] in E0.
      inv_bind H. rewrite E4 in E0. cbn [bind] in E0.
      inv_bind H. rewrite E5 in E0. cbn [bind] in E0. discriminate. }
  destruct (resolve_names _ _ _ W E0) as [Nsrc Ntgt].
  apply resolve_inv in E0. destruct E0 as (csrc' & ctgt' & cs' & Hch' & _ & _ & _ & _ & Hs' & Ht' & _).
  apply resolve_inv in H. destruct H as (csrc & ctgt & cs & Hch & _ & _ & _ & _ & Hs & Ht & Hm).
  rewrite Hch in Hch'. injection Hch' as <- <- <-.
  cbn [promotable] in Hs', Ht'. rewrite <- Hs', <- Ht' in Hm.
  apply resolve_children_spec in Hch. destruct Hch as (Hc1 & Hc2 & _ & _).
  destruct (well_named_here _ W) as (HN & Hnm & Hvn).
  assert (Hloc : NoDup (dkeys (p2u_local m)) /\
     forall k v, rel (p2u_local m) k v <-> (exists kd s, In (k, s) (vars kd m)) /\ v = k).
  { unfold p2u_local.
    destruct (fold_singletons_spec (dkeys (local_sources m)) []) as [A1 A2].
    { constructor. } { intros k v (l & [] & _). }
    destruct (fold_singletons_spec (dkeys (local_targets m))
       (fold_left (fun d k => dset d k [k]) (dkeys (local_sources m)) [])) as [B1 B2].
    { exact A1. } { intros k v Hr. apply A2 in Hr. destruct Hr as [(l & [] & _)|[_ Hr]]; exact Hr. }
    split; [exact B1|]. intros k v. rewrite B2, A2, local_sources_keys, local_targets_keys. split.
    - intros [[(l & [] & _)|[(kd & s & _ & Hi) ->]]|[(s & Hi) ->]]; eauto.
    - intros [(kd & s & Hi) ->]. destruct kd.
      + left; right. split; [|reflexivity]. exists KInput, s. split; [discriminate|exact Hi].
      + left; right. split; [|reflexivity]. exists KOutput, s. split; [discriminate|exact Hi].
      + right. split; [|reflexivity]. exists s; exact Hi. }
  destruct Hloc as [HNl HRl].
  assert (Hchild : forall c, In c cs -> exists sm r', In (c_name c, c_prom c, sm) (m_subs m) /\
      resolve sm (c_prom c) = Ok r' /\ c_p2u c = rp_p2u r').
  { intros c Hc. apply Hc1 in Hc. destruct Hc as (nm & pr' & sm & r' & Hi & Hr & ->). exists sm, r'. auto. }
  apply merge_children_spec in Hm.
  2:{ intros c Hc. apply Hchild in Hc. destruct Hc as (sm & r' & Hi & Hr & ->). split; [eapply Hnm; exact Hi|].
      eapply IH; [exact Hi|eapply well_named_sub; eassumption|exact Hr]. }
  2:{ exact HNl. }
  destruct Hm as (HNp & HRp & HPp).
  assert (Hns : forall x, In x (dkeys (rp_src r0) ++ dkeys (rp_tgt r0)) ->
     Visible m is_source x \/ Visible m (eq KDeclared) x).
  { intros x Hx. apply in_app_iff in Hx. destruct Hx as [Hx|Hx]; [left; apply Nsrc|right; apply Ntgt]; exact Hx. }
  split; [exact HNp|]. split.
  - intros k v. rewrite HRp, HRl. split.
    + intros [[(kd & s & Hi) ->]|(c & k0 & v0 & Hc & Hr & -> & Hk)].
      * exists [], k, []. split; [exists kd, s; apply has_var_here; exact Hi|]. split; [constructor|auto].
      * destruct (Hchild _ Hc) as (sm & r' & Hi & Hres & Hp). rewrite Hp in Hr.
        assert (Ws : well_named sm) by (eapply well_named_sub; eassumption).
        apply (proj1 (proj2 (IH _ _ _ Hi _ _ Ws Hres))) in Hr.
        destruct Hr as (p & x & q & (kd & s & Hv) & Hpn & -> & ->).
        pose proof (has_var_no_dot _ _ _ _ _ Ws Hv) as Hxd.
        pose proof (has_var_path_names _ _ _ _ _ Ws Hv) as Hpp.
        assert (Hqp : Forall (fun n => has_dot n = false /\ n <> ""%string) q).
        { destruct (promoted_ns_prefix _ _ _ _ Hpn) as [t Et]. rewrite Et in Hpp. eapply Forall_prefix; exact Hpp. }
        assert (Hlk : lifted_key (c_prom c) (path_name q x) <-> q = [] /\ lifts (c_prom c) x).
        { destruct q as [|n q].
          - cbn [path_name]. destruct (c_prom c) as [l|]; simpl; [tauto|]. tauto.
          - split; [|intros [? _]; discriminate]. intros HL. exfalso.
            assert (Hd : has_dot (path_name (n :: q) x) = true) by (apply path_name_has_dot; [exact Hqp|discriminate]).
            destruct (c_prom c) as [l|] eqn:Epr; simpl in HL.
            + assert (Hin : In (path_name (n :: q) x) (dkeys (rp_src r0) ++ dkeys (rp_tgt r0)))
                by (eapply HPp; eassumption).
              apply Hns in Hin. destruct Hin as [Hin|Hin]; apply (Visible_no_dot _ _ _ W) in Hin; congruence.
            + cbn [path_name] in Hd. congruence. }
        exists (c_name c :: p), x.
        destruct Hk as [[HL ->]|[HL ->]].
        -- apply Hlk in HL. destruct HL as [-> HL]. exists [].
           split; [exists kd, s; apply has_var_sub; eauto|]. split; [econstructor; eassumption|auto].
        -- exists (c_name c :: q). split; [exists kd, s; apply has_var_sub; eauto|].
           split; [|auto]. eapply pn_prefixed; [exact Hi|exact Hpn|].
           destruct q as [|n q]; [right|left; discriminate]. intros HL'. apply HL, Hlk. auto.
    + intros (p & x & q & (kd & s & Hv) & Hpn & -> & ->).
      destruct p as [|nm p].
      * inversion Hpn; subst. left. cbn [path_name]. split; [|reflexivity].
        exists kd, s. apply has_var_here; exact Hv.
      * right. apply has_var_sub in Hv. destruct Hv as (pr' & sm & Hi & Hv).
        destruct (Hc2 _ _ _ Hi) as (r' & Hres & Hc).
        assert (Ws : well_named sm) by (eapply well_named_sub; eassumption).
        destruct (IH _ _ _ Hi _ _ Ws Hres) as (_ & HR & _).
        pose proof (has_var_no_dot _ _ _ _ _ Ws Hv) as Hxd.
        apply promoted_ns_cons in Hpn. destruct Hpn as (pr1 & sm1 & q0 & Hi1 & Hpn & Hcase).
        destruct (sub_unique _ _ _ _ _ _ HN Hi1 Hi) as [-> ->].
        destruct Hcase as [(-> & HL & ->)|(Hnl & ->)].
        -- exists (Child nm pr' (rp_p2u r')), x, (path_name p x). cbn [c_p2u c_name c_prom].
           split; [exact Hc|]. split; [apply HR; exists p, x, []; split; [exists kd, s; exact Hv|auto]|].
           split; [reflexivity|]. left. split; [|reflexivity].
           destruct pr' as [l|]; simpl; [assumption|exact Hxd].
        -- exists (Child nm pr' (rp_p2u r')), (path_name q0 x), (path_name p x). cbn [c_p2u c_name c_prom].
           split; [exact Hc|]. split; [apply HR; exists p, x, q0; split; [exists kd, s; exact Hv|auto]|].
           split; [reflexivity|]. right. split; [|reflexivity].
           pose proof (has_var_path_names _ _ _ _ _ Ws Hv) as Hpp.
           assert (Hqp : Forall (fun n => has_dot n = false /\ n <> ""%string) q0).
           { destruct (promoted_ns_prefix _ _ _ _ Hpn) as [t Et]. rewrite Et in Hpp. eapply Forall_prefix; exact Hpp. }
           intros HL. destruct q0 as [|n q0].
           ++ cbn [path_name] in HL. destruct Hnl as [Hnl|Hnl]; [congruence|]. apply Hnl.
              destruct pr' as [l|]; simpl in *; [exact HL|exact I].
           ++ assert (Hd : has_dot (path_name (n :: q0) x) = true) by (apply path_name_has_dot; [exact Hqp|discriminate]).
              destruct pr' as [l|] eqn:Epr; simpl in HL.
              ** assert (Hin : In (path_name (n :: q0) x) (dkeys (rp_src r0) ++ dkeys (rp_tgt r0)))
                   by (eapply HPp; [exact Hc|reflexivity|exact HL]).
                 apply Hns in Hin. destruct Hin as [Hin|Hin]; apply (Visible_no_dot _ _ _ W) in Hin; congruence.
              ** cbn [path_name] in Hd. congruence.
  - intros nm l sm x Hi Hx. destruct (Hc2 _ _ _ Hi) as (r' & _ & Hc).
    apply Hns. eapply HPp; [exact Hc|reflexivity|exact Hx].
Qed.
