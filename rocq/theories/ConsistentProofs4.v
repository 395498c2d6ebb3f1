(** Consistent renaming of programs. *)
From Verif Require Import PyBase NamesModel PromotionsModel ExprModel ExprProofs UnflatModel WorldModel WorldProofs WorldProofs5 ReorderProofs4 ReorderProofs5 RenameSpec RenameProofs2 RenameProofs3 ConsistentSpec ConsistentSpec2.
From Coq Require Import Lia.
Local Open Scope list_scope.

(** Names of existing objects change only by registration. *)
Definition nms (s : bst) : list string := map ob_name (b_heap s).
Definition ext (s s1 : bst) : Prop := exists xs, nms s1 = nms s ++ xs.
Lemma ext_refl s : ext s s. Proof. exists []. now rewrite app_nil_r. Qed.
Lemma ext_trans a b c : ext a b -> ext b c -> ext a c.
Proof. intros (x & E) (y & F). exists (x ++ y). now rewrite F, E, app_assoc. Qed.
Lemma map_upd_id {A B} (g : A -> B) f l i : (forall x, g (f x) = g x) -> map g (upd l i f) = map g l.
Proof. intros H. revert i. induction l as [|x l IH]; intros [|i]; cbn; f_equal; auto. Qed.
Lemma ext_with s h i f : (forall o, ob_name (f o) = ob_name o) -> ext s h -> ext s (with_objs h (upd (b_heap h) i f)).
Proof.
  intros H (x & E). exists x. unfold nms in *. cbn in *. now rewrite (map_upd_id ob_name f) by exact H.
Qed.
Lemma ext_alloc s k n d : ext s (fst (alloc s k n d)).
Proof. eexists. unfold nms. cbn. rewrite map_app. reflexivity. Qed.
Lemma ext_outputs op : forall ns s, ext s (fst (new_outputs s op ns)).
Proof.
  induction ns as [|n ns IH]; intros s; [apply ext_refl|]. cbn [new_outputs]. pose proof (ext_alloc s KOut n [op]) as A. destruct (alloc s KOut n [op]) as [s1 v]. cbn [fst] in A.
  pose proof (IH s1) as B. destruct (new_outputs s1 op ns) as [s2 vs]. exact (ext_trans _ _ _ A B).
Qed.
Lemma ext_op s args ns : ext s (fst (new_op s args ns)).
Proof.
  unfold new_op. pose proof (ext_alloc s (KOp false) None args) as A. destruct (alloc s (KOp false) None args) as [s1 v]. cbn [fst] in A.
  pose proof (ext_outputs v ns s1) as B. destruct (new_outputs s1 v ns) as [s2 vs]. cbn [fst] in *. apply ext_with; [reflexivity|]. exact (ext_trans _ _ _ A B).
Qed.
Lemma ext_dedup : forall args seen s, ext s (fst (dedup_args s seen args)).
Proof.
  induction args as [|a args IH]; intros seen s; [apply ext_refl|]. cbn [dedup_args]. destruct (memn a seen).
  - pose proof (ext_op s [a] [None]) as A. destruct (new_op s [a] [None]) as [s1 vs]. cbn [fst] in A. pose proof (IH (match vs with v :: _ => v | [] => a end :: seen) s1) as B.
    destruct (dedup_args s1 _ args) as [s2 l]. exact (ext_trans _ _ _ A B).
  - pose proof (IH (a :: seen) s) as B. destruct (dedup_args s _ args) as [s2 l]. exact B.
Qed.
Lemma ext_step s e : (forall n, e <> ECreateOut n) -> (forall n v, e <> ERegister n v) -> ext s (bstep s e).
Proof.
  intros N1 N2. destruct e as [k|n|n|n|args nouts|args outs| |op args outs|x fr|y x|v op|n v|on]; cbn [bstep].
  - exact (ext_refl s).
  - destruct (is_ok _); [|apply ext_refl]. exact (ext_alloc s KIn (Some n) []).
  - exact (ext_alloc s KDecl (Some n) []).
  - destruct (N1 n eq_refl).
  - destruct (forallb _ _); [|apply ext_refl]. pose proof (ext_dedup args [] s) as A. destruct (dedup_args s [] args) as [s1 l]. eapply ext_trans; [exact A|apply ext_op].
  - destruct (forallb _ _); [apply ext_op|apply ext_refl].
  - apply ext_alloc.
  - destruct (_ && _); [|apply ext_refl]. pose proof (ext_outputs op (map Some outs) (with_objs s (upd (b_heap s) op (app_deps args)))) as B.
    destruct (new_outputs _ op (map Some outs)) as [s2 vs]. cbn [fst] in B. apply ext_with; [reflexivity|]. eapply ext_trans; [|exact B]. apply ext_with; [reflexivity|apply ext_refl].
  - destruct (nth_error (b_heap s) x) as [o|]; [|apply ext_refl]. destruct (is_variable o); [|apply ext_refl].
    assert (G : forall t d, ext s t -> ext s (if fr then let (s2, v) := alloc t KOut None [d] in with_objs s2 (upd (b_heap s2) d (add_outs v)) else t)).
    { intros t d X. destruct fr; [|exact X]. pose proof (ext_alloc t KOut None [d]) as A. destruct (alloc t KOut None [d]) as [s2 v]. cbn [fst] in A. apply ext_with; [reflexivity|]. exact (ext_trans _ _ _ X A). }
    destruct (ob_decomp o) as [d|]; [apply G, ext_refl|]. pose proof (ext_alloc s (KOp false) None [x]) as A. destruct (alloc s (KOp false) None [x]) as [s' d]. cbn [fst] in A. apply G. apply ext_with; [reflexivity|exact A].
  - destruct (nth_error (b_heap s) y) as [o|]; [|apply ext_refl]. destruct (ob_kind o); try apply ext_refl. destruct (kind_is _ _ _); [|apply ext_refl]. destruct (ob_defined o).
    + destruct (ob_deps o); [apply ext_refl|]. apply ext_with; [reflexivity|apply ext_refl].
    + pose proof (ext_alloc s (KOp false) None [x]) as A. destruct (alloc s (KOp false) None [x]) as [s1 op]. cbn [fst] in A.
      change (ext s (with_objs (with_objs s1 (upd (b_heap s1) op (set_outs [y]))) (upd (b_heap (with_objs s1 (upd (b_heap s1) op (set_outs [y])))) y (set_defined op)))).
      apply ext_with; [reflexivity|]. apply ext_with; [reflexivity|exact A].
  - destruct (nth_error (b_heap s) v) as [o|]; [|apply ext_refl]. destruct (_ && _); [|apply ext_refl]. apply ext_with; [reflexivity|apply ext_refl].
  - destruct (N2 n v eq_refl).
  - destruct on; [destruct (_ && _)|]; exact (ext_refl s).
Qed.

Section R.
  Context (r s : string -> string) (RN : renaming r s) (LG : forall n, is_ok (check_banned_chars (r n)) = is_ok (check_banned_chars n)).
  Lemma r_inj x y : r x = r y -> x = y.
  Proof. intros E. rewrite <- (rn_back r s RN x), E. apply (rn_back r s RN). Qed.
  Lemma r_eqb x y : String.eqb (r x) (r y) = String.eqb x y.
  Proof. destruct (String.eqb_spec x y) as [->|N]; [apply String.eqb_refl|]. apply String.eqb_neq. intros E. apply N, r_inj, E. Qed.
  Lemma r_smem x l : smem (r x) (map r l) = smem x l.
  Proof. unfold smem. induction l as [|y l IH]; [reflexivity|]. cbn. now rewrite r_eqb, IH. Qed.
  (** Object [i] has the name [x], and the new name. *)
  Definition nren (h h' : list string) (i : nat) : Prop := exists x, nth_error h i = Some x /\ nth_error h' i = Some (r x).
  Definition members (s : bst) : list nat := b_ins s ++ b_outs s ++ b_decls s.
  Lemma nren_app h h' x x' i : nren h h' i -> nren (h ++ x) (h' ++ x') i.
  Proof. intros (n & A & B). exists n. rewrite !nth_error_app1; [auto|eapply nth_error_Some; congruence|eapply nth_error_Some; congruence]. Qed.
  Lemma nren_name s1 s2 i : nren (nms s1) (nms s2) i -> (match nth_error (b_heap s2) i with Some o => ob_name o | None => EmptyString end) = r (match nth_error (b_heap s1) i with Some o => ob_name o | None => EmptyString end).
  Proof. intros (n & A & B). unfold nms in *. rewrite nth_error_map in A, B. destruct (nth_error (b_heap s1) i); [|discriminate]. destruct (nth_error (b_heap s2) i); [|discriminate]. cbn in *. congruence. Qed.
  Definition names_of (s : bst) l := map (fun i => match nth_error (b_heap s) i with Some o => ob_name o | None => EmptyString end) l.
  Lemma nren_names s1 s2 l : (forall i, In i l -> nren (nms s1) (nms s2) i) -> names_of s2 l = map r (names_of s1 l).
  Proof. intros H. unfold names_of. rewrite map_map. apply map_ext_in. intros i Hi. apply nren_name, H, Hi. Qed.
  (** What a call does to both processes. *)
  Definition steps (a b a1 b1 : bst) : Prop :=
    brel a1 b1 /\ (forall i, nren (nms a) (nms b) i -> nren (nms a1) (nms b1) i) /\ (forall i, In i (members a1) -> In i (members a) \/ nren (nms a1) (nms b1) i).
  Lemma steps_refl a b : brel a b -> steps a b a b.
  Proof. intros B. split; [exact B|]. auto. Qed.
  Lemma steps_ext a b a1 b1 : brel a1 b1 -> ext a a1 -> ext b b1 -> members a1 = members a -> steps a b a1 b1.
  Proof. intros B (x & E) (y & F) M. split; [exact B|]. split; [intros i H; rewrite E, F; apply nren_app, H|]. intros i. rewrite M. auto. Qed.
  Lemma set_nren s1 s2 n v : length (b_heap s1) = length (b_heap s2) -> forall i, nren (nms s1) (nms s2) i -> nren (map ob_name (upd (b_heap s1) v (set_name n))) (map ob_name (upd (b_heap s2) v (set_name (r n)))) i.
  Proof.
    intros L i (x & A & B). unfold nren, nms in *. rewrite nth_error_map in A, B. rewrite !nth_error_map, !nth_upd. destruct (Nat.eqb_spec v i) as [->|N].
    - destruct (nth_error (b_heap s1) i); [|discriminate]. destruct (nth_error (b_heap s2) i); [|discriminate]. exists n. auto.
    - exists x. auto.
  Qed.
  Lemma steps_register a b n v : brel a b -> (forall i, In i (members a) -> nren (nms a) (nms b) i) -> steps a b (register a n v) (register b (r n) v) /\ memn v (b_outs (register a n v)) = memn v (b_outs (register b (r n) v)).
  Proof.
    intros B M. pose proof B as (E & I & O & D). unfold register. fold (names_of a (b_outs a)) (names_of a (b_ins a)) (names_of a (b_decls a)) (names_of b (b_outs b)) (names_of b (b_ins b)) (names_of b (b_decls b)).
    rewrite LG. rewrite <- (brel_kind is_output a b v B) by reflexivity. rewrite <- I, <- O, <- D.
    rewrite (nren_names a b (b_outs a)), (nren_names a b (b_ins a)), (nren_names a b (b_decls a)), !r_smem by (intros i Hi; apply M; unfold members; rewrite !in_app_iff; auto).
    destruct (is_ok _); cbn [negb]; [|split; [apply steps_refl, B|now rewrite O]]. destruct (kind_is is_output a v) eqn:K; cbn [negb]; [|split; [apply steps_refl, B|now rewrite O]].
    repeat match goal with |- context [if ?c then _ else _] => destruct c; [split; [apply steps_refl, B|now rewrite O]|] end.
    split; [|cbn; now rewrite O]. split; [|split].
    - apply brel_add_out. split; [|cbn; auto]. cbn. eapply eq_trans; [apply hrel_name|]. eapply eq_trans; [exact E|]. symmetry. apply hrel_name.
    - intros i Hi. cbn. apply set_nren; [apply hrel_length, E|exact Hi].
    - intros i Hi. unfold members in *. cbn [b_ins b_outs b_decls add_out with_objs] in Hi. rewrite !in_app_iff in *. destruct Hi as [Hi|[[Hi|[<-|[]]]|Hi]]; auto.
      right. unfold nms. cbn [b_heap add_out with_objs]. unfold nren. rewrite !nth_error_map, !nth_upd, Nat.eqb_refl. pose proof (hrel_nth _ _ v E) as Q. unfold kind_is in K. destruct (nth_error (b_heap a) v) as [o|]; [|discriminate]. destruct (nth_error (b_heap b) v) as [o'|]; [|discriminate]. exists n. auto.
  Qed.
  Lemma members_step s1 e : marks e = false -> (forall n, e <> EDeclare n) -> members (bstep s1 e) = members s1.
  Proof.
    intros M N. unfold members.
    assert (AL : forall t k n d, members (fst (alloc t k n d)) = members t) by reflexivity.
    assert (OU : forall ns t op, members (fst (new_outputs t op ns)) = members t).
    { induction ns as [|x ns IH]; intros t op; [reflexivity|]. cbn [new_outputs]. pose proof (AL t KOut x [op]) as A. destruct (alloc t KOut x [op]) as [t1 v]. pose proof (IH t1 op) as B. destruct (new_outputs t1 op ns) as [t2 vs]. cbn [fst] in *. congruence. }
    assert (OP : forall t args ns, members (fst (new_op t args ns)) = members t).
    { intros t args ns. unfold new_op. pose proof (AL t (KOp false) None args) as A. destruct (alloc t _ _ _) as [t1 v]. pose proof (OU ns t1 v) as B. destruct (new_outputs t1 v ns) as [t2 vs]. cbn [fst] in *. change (members t2 = members t). congruence. }
    assert (DD : forall args seen t, members (fst (dedup_args t seen args)) = members t).
    { induction args as [|x args IH]; intros seen t; [reflexivity|]. cbn [dedup_args]. destruct (memn x seen).
      - pose proof (OP t [x] [None]) as A. destruct (new_op t [x] [None]) as [t1 vs]. pose proof (IH (match vs with v :: _ => v | [] => x end :: seen) t1) as B. destruct (dedup_args t1 _ args) as [t2 l]. cbn [fst] in *. congruence.
      - pose proof (IH (x :: seen) t) as B. destruct (dedup_args t _ args) as [t2 l]. exact B. }
    change (members (bstep s1 e) = members s1).
    destruct e as [k|n|n|n|args nouts|args outs| |op args outs|x fr|y x|v op|n v|on]; try discriminate M; try (destruct (N n eq_refl)); cbn [bstep].
    - reflexivity.
    - destruct (forallb _ _); [|reflexivity]. pose proof (DD args [] s1) as A. destruct (dedup_args s1 [] args) as [t l]. rewrite OP. exact A.
    - destruct (forallb _ _); [apply OP|reflexivity].
    - reflexivity.
    - destruct (_ && _); [|reflexivity]. pose proof (OU (map Some outs) (with_objs s1 (upd (b_heap s1) op (app_deps args))) op) as A. destruct (new_outputs _ op (map Some outs)) as [t vs]. exact A.
    - destruct (nth_error _ _) as [o|]; [|reflexivity]. destruct (is_variable o); [|reflexivity]. destruct (ob_decomp o); destruct fr; reflexivity.
    - destruct (nth_error _ _) as [o|]; [|reflexivity]. destruct (ob_kind o); try reflexivity. destruct (kind_is _ _ _); [|reflexivity]. destruct (ob_defined o); [destruct (ob_deps o)|]; reflexivity.
    - destruct (nth_error _ _) as [o|]; [|reflexivity]. destruct (_ && _); reflexivity.
    - destruct on; [destruct (_ && _)|]; reflexivity.
  Qed.
  Lemma anonymous_ren e : anonymous (rename_call r e) = anonymous e.
  Proof. destruct e as [| | | | | | | | | | | |[]]; cbn; try reflexivity; now rewrite map_map. Qed.
  Lemma new_named a b (K : okind) n : brel a b -> nren (nms (fst (alloc a K (Some n) []))) (nms (fst (alloc b K (Some (r n)) []))) (length (b_heap a)).
  Proof.
    intros (E & _). exists n. unfold nms. cbn. rewrite !map_app. pose proof (hrel_length _ _ E) as L. cbn.
    rewrite !nth_error_app2 by (rewrite map_length; lia). rewrite !map_length, <- L, Nat.sub_diag. auto.
  Qed.
  Lemma steps_call a b e : brel a b -> (forall i, In i (members a) -> nren (nms a) (nms b) i) -> steps a b (bstep a e) (bstep b (rename_call r e)).
  Proof.
    intros B M. destruct (marks e) eqn:K.
    - destruct e as [|n| |n| | | | | | | |n v|]; try discriminate K; cbn [rename_call bstep].
      + rewrite LG. destruct (is_ok _); [|apply steps_refl, B]. pose proof (new_named a b KIn n B) as N. destruct (brel_alloc a b KIn (Some n) (Some (r n)) [] B) as [B1 B2].
        pose proof (ext_alloc a KIn (Some n) []) as (x & X). pose proof (ext_alloc b KIn (Some (r n)) []) as (y & Y).
        split; [|split]; cbn [alloc fst] in *.
        * destruct B1 as (E & I & O & D). split; [exact E|]. cbn in *. rewrite (hrel_length _ _ (proj1 B)). repeat split; congruence.
        * intros i Hi. unfold nms in *. cbn in *. rewrite X, Y. apply nren_app, Hi.
        * intros i Hi. unfold members in *. cbn in Hi. rewrite !in_app_iff in *. destruct Hi as [[Hi|[<-|[]]]|Hi]; [left; tauto| |left; tauto]. right. exact N.
      + rewrite LG. destruct (is_ok _); [|apply steps_refl, B]. pose proof (new_named a b KConcat n B) as N. destruct (brel_alloc a b KConcat (Some n) (Some (r n)) [] B) as [B1 B2].
        pose proof (ext_alloc a KConcat (Some n) []) as (x & X). pose proof (ext_alloc b KConcat (Some (r n)) []) as (y & Y).
        assert (Mm : members (fst (alloc a KConcat (Some n) [])) = members a) by reflexivity.
        destruct (alloc a KConcat (Some n) []) as [a1 v] eqn:Ea. destruct (alloc b KConcat (Some (r n)) []) as [b1 v'] eqn:Eb. cbn [fst snd] in *. subst v'.
        assert (M1 : forall i, nren (nms a) (nms b) i -> nren (nms a1) (nms b1) i) by (intros i Hi; rewrite X, Y; apply nren_app, Hi).
        destruct (steps_register a1 b1 n v B1) as [(S1 & S2 & S3) S4]; [intros i Hi; rewrite Mm in Hi; auto|]. rewrite <- S4. destruct (memn v _).
        * split; [exact S1|]. split; [auto|]. intros i Hi. destruct (S3 i Hi) as [Q|Q]; [rewrite Mm in Q|]; auto.
        * apply steps_ext; [exact B|exact (ext_refl a)|exact (ext_refl b)|reflexivity].
      + apply steps_register; assumption.
    - assert (ND : (exists n, e = EDeclare n) \/ forall n, e <> EDeclare n) by (destruct e; eauto; right; discriminate). destruct ND as [[n ->]|ND].
      + cbn [rename_call bstep]. pose proof (new_named a b KDecl n B) as N. destruct (brel_alloc a b KDecl (Some n) (Some (r n)) [] B) as [B1 B2].
        pose proof (ext_alloc a KDecl (Some n) []) as (x & X). pose proof (ext_alloc b KDecl (Some (r n)) []) as (y & Y).
        split; [|split]; cbn [alloc fst] in *.
        * destruct B1 as (E & I & O & D). split; [exact E|]. cbn in *. rewrite (hrel_length _ _ (proj1 B)). repeat split; congruence.
        * intros i Hi. unfold nms in *. cbn in *. rewrite X, Y. apply nren_app, Hi.
        * intros i Hi. unfold members in *. cbn in Hi. rewrite !in_app_iff in *. destruct Hi as [Hi|[Hi|[Hi|[<-|[]]]]]; [left; tauto|left; tauto|left; tauto|]. right. exact N.
      + apply steps_ext.
        * apply brel_step; [exact B|symmetry; apply anonymous_ren|intros Q; congruence|]. intros Q. destruct e; try discriminate K; discriminate Q.
        * apply ext_step; intros; intros ->; discriminate K.
        * apply ext_step; intros; intros Q; destruct e; try discriminate Q; discriminate K.
        * apply members_step; assumption.
  Qed.

  (** Two processes. *)
  Definition wnms (w : world) : list string := map ob_name (w_heap w).
  Definition rsub (t : string * promotes_t * nat) : string * promotes_t * nat := (r (fst (fst t)), option_map (map r) (snd (fst t)), snd t).
  Definition mrel (m m' : wmodel) : Prop :=
    m' = WM (wm_ins m) (wm_outs m) (wm_decls m) (map rsub (wm_subs m)) (map (fun ab => (r (fst ab), r (snd ab))) (wm_conns m)) (map r (wm_dvs m)) (map r (wm_cons m)) (option_map r (wm_obj m)).
  Definition wmem (m : wmodel) : list nat := wm_ins m ++ wm_outs m ++ wm_decls m.
  Definition wren (w w' : world) : Prop :=
    hrel (w_heap w) (w_heap w') /\ Forall2 mrel (w_models w) (w_models w') /\ forall m i, In m (w_models w) -> In i (wmem m) -> nren (wnms w) (wnms w') i.
  Lemma F2_nth {A B} (P : A -> B -> Prop) l l' : Forall2 P l l' -> forall k, match nth_error l k, nth_error l' k with Some a, Some b => P a b | None, None => True | _, _ => False end.
  Proof. intros F. induction F as [|a b l l' H F IH]; intros [|k]; [exact I|exact I|exact H|exact (IH k)]. Qed.
  Lemma F2_upd {A B} (P : A -> B -> Prop) l l' : Forall2 P l l' -> forall k f g, (forall a b, nth_error l k = Some a -> P a b -> P (f a) (g b)) -> Forall2 P (upd l k f) (upd l' k g).
  Proof. intros F. induction F as [|a b l l' H F IH]; intros [|k] f g Q; cbn; constructor; auto. Qed.
  Lemma in_upd {A} (l : list A) : forall k f x, In x (upd l k f) -> In x l \/ exists y, nth_error l k = Some y /\ x = f y.
  Proof. induction l as [|a l IH]; intros [|k] f x Hx; cbn in *; [destruct Hx|destruct Hx|destruct Hx as [<-|Hx]; eauto|destruct Hx as [<-|Hx]; [auto|]]. destruct (IH _ _ _ Hx) as [Q|Q]; auto. Qed.
  Lemma wren_on w w' k f g : wren w w' -> (forall m m', nth_error (w_models w) k = Some m -> mrel m m' -> mrel (f m) (g m')) -> (forall m, wmem (f m) = wmem m) -> wren (on_model w k f) (on_model w' k g).
  Proof.
    intros (E & F & N) Q W. split; [exact E|]. split; [apply F2_upd; assumption|]. intros m i Hm Hi. cbn in Hm. apply in_upd in Hm. destruct Hm as [Hm|(y & Hy & ->)]; [eapply N; eassumption|]. rewrite W in Hi. eapply N; [eapply nth_error_In, Hy|exact Hi].
  Qed.
  Lemma wren_step w w' e : wren w w' -> (forall k pr c, e <> WAdd k None pr c) -> wren (wstep w e) (wstep w' (rename_event r e)).
  Proof.
    intros R NA. pose proof R as (E & F & N). destruct e as [|k ev|k on pr c|k a b|k x|k x|k x]; cbn [rename_event].
    - split; [exact E|]. split; [cbn; apply Forall2_app; [exact F|]; constructor; [reflexivity|constructor]|]. intros m i Hm Hi. cbn in Hm. apply in_app_iff in Hm. destruct Hm as [Hm|[<-|[]]]; [eapply N; eassumption|destruct Hi].
    - assert (NE : (exists on, ev = EAdd on) \/ forall on, ev <> EAdd on) by (destruct ev; eauto; right; discriminate).
      destruct NE as [[on ->]|NE]; [cbn [rename_call]; rewrite !on_add; exact R|]. assert (NE' : forall on, rename_call r ev <> EAdd on) by (intros on Q; destruct ev; try discriminate Q; eapply NE; reflexivity).
      pose proof (F2_nth _ _ _ F k) as Q. destruct (nth_error (w_models w) k) as [m|] eqn:M, (nth_error (w_models w') k) as [m'|] eqn:M'; try (destruct Q; fail); [unfold mrel in Q; subst m'|rewrite (on_none w k ev M), (on_none w' k _ M'); exact R].
      rewrite (on_some w k ev m NE M), (on_some w' k _ _ NE' M').
      match goal with |- wren _ (put _ _ (bstep (view _ ?mm) _)) => set (m1 := mm) end.
      destruct (steps_call (view w m) (view w' m1) ev) as ((H1 & H2 & H3 & H4) & S2 & S3).
      { split; [exact E|]. subst m1. cbn. repeat split. }
      { intros i Hi. exact (N m i (nth_error_In _ _ M) Hi). }
      split; [exact H1|]. split.
      + cbn. apply F2_upd; [exact F|]. intros x y _ ->. unfold mrel, with_lists. cbn. congruence.
      + intros x i Hx Hi. cbn in Hx. apply in_upd in Hx. destruct Hx as [Hx|(y & Hy & ->)]; [apply S2; eapply N; eassumption|].
        destruct (S3 i Hi) as [Q|Q]; [apply S2; exact (N m i (nth_error_In _ _ M) Q)|exact Q].
    - destruct on as [n|]; [|destruct (NA k pr c eq_refl)]. cbn [wstep option_map]. pose proof (F2_nth _ _ _ F k) as Q. pose proof (F2_nth _ _ _ F c) as Qc.
      destruct (nth_error (w_models w) k) as [m|] eqn:M, (nth_error (w_models w') k) as [m'|] eqn:M'; try (destruct Q; fail); [unfold mrel in Q; subst m'|exact R].
      destruct (nth_error (w_models w) c) as [mc|], (nth_error (w_models w') c) as [mc'|]; try (destruct Qc; fail); [|exact R].
      rewrite LG. match goal with |- context [smem (r n) (sub_names ?mm)] => assert (SN : sub_names mm = map r (sub_names m)) by (unfold sub_names; cbn; rewrite !map_map; reflexivity) end. rewrite SN, r_smem.
      destruct (_ && _); [|exact R]. apply (wren_on w w' k (app_sub (n, pr, c)) (app_sub (r n, option_map (map r) pr, c)) R); [|reflexivity].
      intros x y _ ->. unfold mrel, app_sub. cbn. rewrite map_app. reflexivity.
    - cbn [wstep]. pose proof (F2_nth _ _ _ F k) as Q. destruct (nth_error (w_models w) k) as [m|] eqn:M, (nth_error (w_models w') k) as [m'|] eqn:M'; try (destruct Q; fail); [unfold mrel in Q; subst m'|exact R].
      rewrite r_eqb. destruct (String.eqb a b); [exact R|].
      match goal with |- context [existsb ?p (map ?g (wm_conns m))] => idtac | _ => cbn [wm_conns] end.
      assert (X : forall l, existsb (fun p => String.eqb (r a) (fst p) && String.eqb (r b) (snd p)) (map (fun ab => (r (fst ab), r (snd ab))) l) = existsb (fun p => String.eqb a (fst p) && String.eqb b (snd p)) l).
      { intros l. induction l as [|p l IH]; [reflexivity|]. cbn. now rewrite !r_eqb, IH. }
      rewrite X. destruct (existsb _ _); [exact R|]. apply wren_on; [exact R| |reflexivity]. intros x y _ ->. unfold mrel, app_conn. cbn. rewrite map_app. reflexivity.
    - cbn [wstep]. pose proof (F2_nth _ _ _ F k) as Q. destruct (nth_error (w_models w) k) as [m|] eqn:M, (nth_error (w_models w') k) as [m'|] eqn:M'; try (destruct Q; fail); [unfold mrel in Q; subst m'|exact R]. cbn [wm_ins wm_dvs].
      assert (X : map (name_in (w_heap w')) (wm_ins m) = map r (map (name_in (w_heap w)) (wm_ins m))).
      { rewrite map_map. apply map_ext_in. intros i Hi. destruct (N m i (nth_error_In _ _ M)) as (n & A & B); [unfold wmem; apply in_app_iff; auto|]. unfold name_in, wnms in *. rewrite nth_error_map in A, B.
        destruct (nth_error (w_heap w) i); [|discriminate]. destruct (nth_error (w_heap w') i); [|discriminate]. cbn in *. congruence. }
      rewrite X, !r_smem. destruct (negb _); [exact R|]. destruct (smem _ _); [exact R|]. apply wren_on; [exact R| |reflexivity]. intros x' y _ ->. unfold mrel, app_dv. cbn. rewrite map_app. reflexivity.
    - cbn [wstep]. pose proof (F2_nth _ _ _ F k) as Q. destruct (nth_error (w_models w) k) as [m|] eqn:M, (nth_error (w_models w') k) as [m'|] eqn:M'; try (destruct Q; fail); [unfold mrel in Q; subst m'|exact R]. cbn [wm_cons].
      rewrite r_smem. destruct (smem _ _); [exact R|]. apply wren_on; [exact R| |reflexivity]. intros x' y _ ->. unfold mrel, app_con. cbn. rewrite map_app. reflexivity.
    - cbn [wstep]. pose proof (F2_nth _ _ _ F k) as Q. destruct (nth_error (w_models w) k) as [m|] eqn:M, (nth_error (w_models w') k) as [m'|] eqn:M'; try (destruct Q; fail); [unfold mrel in Q; subst m'|exact R]. cbn [wm_obj].
      destruct (wm_obj m); [exact R|]. cbn [option_map]. apply wren_on; [exact R| |reflexivity]. intros x' y _ ->. unfold mrel, set_obj. reflexivity.
  Qed.
  Lemma wren_run l : forall w w', wren w w' -> all_named l -> wren (fold_left wstep l w) (fold_left wstep (rename_program r l) w').
  Proof.
    induction l as [|e l IH]; intros w w' R A; [exact R|]. cbn [rename_program map fold_left]. apply IH; [|intros k pr c H; exact (A k pr c (or_intror H))]. apply wren_step; [exact R|]. intros k pr c ->. exact (A k pr c (or_introl eq_refl)).
  Qed.
  Lemma wren_history l : all_named l -> wren (whistory l) (whistory (rename_program r l)).
  Proof. intros A. apply wren_run; [|exact A]. split; [reflexivity|]. split; [constructor|]. intros m i []. Qed.
  Lemma all_some_map {A B C} (g : A -> option B) (g' : A -> option C) (q : B -> C) l : (forall a, g' a = option_map q (g a)) -> all_some (map g' l) = option_map (map q) (all_some (map g l)).
  Proof. intros H. induction l as [|a l IH]; [reflexivity|]. cbn. rewrite H. destruct (g a); [|reflexivity]. cbn. rewrite IH. destruct (all_some (map g l)); reflexivity. Qed.
  Lemma combine_map2 {A A' B B'} (f : A -> A') (g : B -> B') l l' : combine (map f l) (map g l') = map (fun p => (f (fst p), g (snd p))) (combine l l').
  Proof. revert l'. induction l as [|a l IH]; intros [|b l']; cbn; f_equal; auto. Qed.
  Lemma wren_tree w w' shp : wren w w' -> forall f k, tree f w' shp k = option_map (fun t => (rename_um r (fst t), rename_model r (snd t))) (tree f w shp k).
  Proof.
    intros (E & F & N). induction f as [|f IH]; intros k; [reflexivity|]. cbn [tree]. pose proof (F2_nth _ _ _ F k) as Q.
    destruct (nth_error (w_models w) k) as [m|] eqn:M, (nth_error (w_models w') k) as [m'|] eqn:M'; try (destruct Q; fail); [unfold mrel in Q; subst m'|reflexivity].
    cbn [wm_subs]. rewrite map_map. rewrite (all_some_map (fun t => tree f w shp (snd t)) _ (fun t => (rename_um r (fst t), rename_model r (snd t)))) by (intros a; apply IH).
    destruct (all_some (map (fun t => tree f w shp (snd t)) (wm_subs m))) as [l|]; [|reflexivity]. cbn [option_map fst snd rename_um rename_model wm_ins wm_outs wm_decls wm_conns wm_dvs wm_cons wm_obj].
    assert (X : forall l0, (forall i, In i l0 -> In i (wmem m)) -> map (fun i => (name_in (w_heap w') i, shp i)) l0 = map (fun xs : string * shape => (r (fst xs), snd xs)) (map (fun i => (name_in (w_heap w) i, shp i)) l0)).
    { intros l0 H. rewrite map_map. apply map_ext_in. intros i Hi. cbn [fst snd]. f_equal. destruct (N m i (nth_error_In _ _ M) (H i Hi)) as (n & A & B). unfold name_in, wnms in *. rewrite nth_error_map in A, B.
      destruct (nth_error (w_heap w) i); [|discriminate]. destruct (nth_error (w_heap w') i); [|discriminate]. cbn in *. congruence. }
    rewrite !X by (intros i Hi; unfold wmem; rewrite !in_app_iff; auto). unfold sub_names. cbn [wm_subs]. rewrite !map_map. cbn [fst snd].
    f_equal. f_equal; f_equal.
    - rewrite <- (map_map (fun t : string * promotes_t * nat => fst (fst t)) r). rewrite <- (map_map (@fst umodel model) (rename_um r)). apply combine_map2.
    - rewrite <- (map_map (@fst (string * promotes_t) nat) (fun t => (r (fst t), option_map (map r) (snd t)))). rewrite <- (map_map (@snd umodel model) (rename_model r)). etransitivity; [apply combine_map2|]. apply map_ext. intros [[? ?] ?]; reflexivity.
  Qed.
End R.
