(** Property theorem C90: models contain what their calls recorded, and nothing else. *)
From Verif Require Import PyBase NamesModel NamesProofs PromotionsModel ExprModel ExprSpec ExprProofs UnflatModel UnflatSpec Prop_Unflat FlattenSpec HierSpec PromotionsSpec EffectSpec EffectProofs Prop_Expr
  WorldModel WorldSpec WorldSpec2 WorldProofs WorldProofs2 WorldProofs3 WorldProofs4 WorldProofs5 WorldProofs6 WorldProofs7 WorldProofs8 Prop_Compile Prop_World.
From Coq Require Import Lia.
Local Open Scope string_scope.
Local Open Scope list_scope.

Lemma the_model_nil k : the_model [] k = wm0.
Proof. unfold the_model. cbn. destruct k; reflexivity. Qed.
Lemma not_created l k : ~ created l k -> the_model l k = wm0.
Proof. intros C. unfold the_model. rewrite (model_none C). reflexivity. Qed.
Lemma actor_cases e k : e = WNew \/ (e <> WNew /\ actor e = k) \/ (e <> WNew /\ forall x, e = x -> k <> actor x).
Proof. destruct (Nat.eq_dec (actor e) k) as [E|E]; destruct e; auto; right; (left; split; [discriminate|exact E]) || (right; split; [discriminate|intros x <-; congruence]). Qed.
(** A call that leaves a part of the models alone. *)
Lemma keeps {B} (f : wmodel -> B) l e k :
  (forall on pr c, e = WAdd k on pr c -> forall t m, f (app_sub t m) = f m) ->
  (forall a b, e = WConnect k a b -> forall t m, f (app_conn t m) = f m) ->
  (forall n, e = WDesign k n -> forall m, f (app_dv n m) = f m) ->
  (forall n, e = WConstraint k n -> forall m, f (app_con n m) = f m) ->
  (forall n, e = WObjective k n -> forall m, f (set_obj n m) = f m) ->
  (forall s m, f (with_lists s m) = f m) ->
  f (the_model (l ++ [e]) k) = f (the_model l k).
Proof.
  intros H1 H2 H3 H4 H5 H6. destruct (actor_cases e k) as [->|[[N A]|[N A]]]; [rewrite the_model_other by auto; reflexivity| |rewrite the_model_other by auto; reflexivity].
  rewrite (the_model_self l N A). destruct (created_dec l k) as [C|C]; [|rewrite not_created by exact C; reflexivity].
  destruct e as [|j ev|j on pr c|j a b|j n|j n|j n]; cbn [actor] in A; try congruence; subst j.
  - destruct ev; try reflexivity; apply H6.
  - destruct (created_dec l c); [|reflexivity]. destruct on as [n|]; [destruct (_ && _); [|reflexivity]|]; eapply H1; reflexivity.
  - destruct (String.eqb a b); [reflexivity|]. destruct (existsb _ _); [reflexivity|]. eapply H2; reflexivity.
  - destruct (negb _); [reflexivity|]. destruct (smem _ _); [reflexivity|]. eapply H3; reflexivity.
  - destruct (smem _ _); [reflexivity|]. eapply H4; reflexivity.
  - destruct (wm_obj _); [reflexivity|]. eapply H5; reflexivity.
Qed.

(** C90: the connections of a model are those made by connect on this model with different
    names; each is recorded once. *)
Theorem c90_connections : forall l k,
  NoDup (wm_conns (the_model l k)) /\
  forall a b, In (a, b) (wm_conns (the_model l k)) <-> a <> b /\ called_when l (WConnect k a b) (fun before => created before k).
Proof.
  intros l k. induction l as [|e l [IH1 IH2]] using rev_ind.
  { rewrite the_model_nil. split; [constructor|]. intros a b. split; [intros []|intros [_ H]; destruct (called_nil H)]. }
  assert (D : (exists a b, e = WConnect k a b) \/ forall a b, e <> WConnect k a b).
  { destruct e; try (right; discriminate). destruct (Nat.eq_dec k0 k) as [->|N]; [left; eauto|right; congruence]. }
  destruct D as [(a0 & b0 & ->)|D].
  2:{ rewrite (@keeps _ wm_conns); try reflexivity; [|intros a b E; exfalso; eapply D, E]. split; [exact IH1|]. intros a b. rewrite IH2, called_snoc.
      split; [intros [? ?]; auto|]. intros [H [Q|[Q _]]]; [auto|]. exfalso. eapply D. symmetry. exact Q. }
  rewrite (@the_model_self l (WConnect k a0 b0) k) by (reflexivity || discriminate). destruct (created_dec l k) as [C|C].
  2:{ split; [constructor|]. intros a b. rewrite called_snoc. rewrite not_created in IH2 by exact C. split; [intros []|]. intros [H [Q|[_ Q]]]; [apply (IH2 a b); auto|contradiction]. }
  destruct (String.eqb_spec a0 b0) as [->|NE].
  { split; [exact IH1|]. intros a b. rewrite IH2, called_snoc. split; [intros [? ?]; auto|]. intros [H [Q|[Q _]]]; [auto|]. injection Q as -> ->. congruence. }
  destruct (existsb _ _) eqn:X.
  - split; [exact IH1|]. intros a b. rewrite called_snoc. split; [intros H; apply IH2 in H; destruct H; auto|]. intros [H [Q|[Q _]]]; [apply IH2; auto|]. injection Q as -> ->.
    apply existsb_exists in X. destruct X as ([x y] & Hx & Hb). cbn in Hb. apply andb_prop in Hb. destruct Hb as [B1 B2]. apply String.eqb_eq in B1, B2. subst. exact Hx.
  - assert (NI : ~ In (a0, b0) (wm_conns (the_model l k))).
    { intros H. assert (Q : existsb (fun p => String.eqb a0 (fst p) && String.eqb b0 (snd p)) (wm_conns (the_model l k)) = true); [|congruence].
      apply existsb_exists. exists (a0, b0). split; [exact H|]. cbn. rewrite !String.eqb_refl. reflexivity. }
    cbn [app_conn wm_conns]. split; [apply NoDup_app_single; assumption|]. intros a b. rewrite in_app_iff, IH2, called_snoc. cbn. split.
    + intros [[? ?]|[E|[]]]; [auto|]. injection E as <- <-. auto.
    + intros [H [Q|[Q _]]]; [auto|]. injection Q as -> ->. auto.
Qed.
Print Assumptions c90_connections.

(** C90: its design variables, constraints and objective. *)
Theorem c90_design : forall l k,
  NoDup (wm_dvs (the_model l k)) /\
  forall n, In n (wm_dvs (the_model l k)) <-> called_when l (WDesign k n) (fun before => exists i, In i (wm_ins (the_model before k)) /\ name_of before i = n).
Proof.
  intros l k. induction l as [|e l [IH1 IH2]] using rev_ind.
  { rewrite the_model_nil. split; [constructor|]. intros n. split; [intros []|intros H; destruct (called_nil H)]. }
  assert (D : (exists n, e = WDesign k n) \/ forall n, e <> WDesign k n).
  { destruct e; try (right; discriminate). destruct (Nat.eq_dec k0 k) as [->|N]; [left; eauto|right; congruence]. }
  destruct D as [(n0 & ->)|D].
  2:{ rewrite (@keeps _ wm_dvs); try reflexivity; [|intros n E; exfalso; eapply D, E]. split; [exact IH1|]. intros n. rewrite IH2, called_snoc.
      split; [auto|]. intros [Q|[Q _]]; [auto|]. exfalso. eapply D. symmetry. exact Q. }
  rewrite (@the_model_self l (WDesign k n0) k) by (reflexivity || discriminate). destruct (created_dec l k) as [C|C].
  2:{ split; [constructor|]. intros n. rewrite called_snoc. pose proof (not_created _ _ C) as NC. rewrite NC in IH2. split; [intros []|]. intros [Q|[_ (i & Hi & _)]]; [apply (IH2 n); auto|]. rewrite NC in Hi. destruct Hi. }
  destruct (smem n0 (map (name_of l) (wm_ins (the_model l k)))) eqn:S1; cbn [negb].
  2:{ split; [exact IH1|]. intros n. rewrite IH2, called_snoc. split; [auto|]. intros [Q|[Q (i & Hi & E)]]; [auto|]. injection Q as ->. apply smem_false in S1. exfalso. apply S1.
      apply in_map_iff. exists i. auto. }
  apply smem_spec, in_map_iff in S1. destruct S1 as (i0 & E0 & H0).
  destruct (smem n0 (wm_dvs (the_model l k))) eqn:S2.
  - split; [exact IH1|]. intros n. rewrite called_snoc. split; [intros H; apply IH2 in H; auto|]. intros [Q|[Q _]]; [apply IH2; auto|]. injection Q as ->. apply smem_spec, S2.
  - apply smem_false in S2. cbn [app_dv wm_dvs]. split; [apply NoDup_app_single; assumption|]. intros n. rewrite in_app_iff, IH2, called_snoc. cbn. split.
    + intros [?|[<-|[]]]; [auto|]. right. split; [reflexivity|]. exists i0. auto.
    + intros [Q|[Q _]]; [auto|]. injection Q as ->. auto.
Qed.
Print Assumptions c90_design.

Theorem c90_constraints : forall l k,
  NoDup (wm_cons (the_model l k)) /\
  forall n, In n (wm_cons (the_model l k)) <-> called_when l (WConstraint k n) (fun before => created before k).
Proof.
  intros l k. induction l as [|e l [IH1 IH2]] using rev_ind.
  { rewrite the_model_nil. split; [constructor|]. intros n. split; [intros []|intros H; destruct (called_nil H)]. }
  assert (D : (exists n, e = WConstraint k n) \/ forall n, e <> WConstraint k n).
  { destruct e; try (right; discriminate). destruct (Nat.eq_dec k0 k) as [->|N]; [left; eauto|right; congruence]. }
  destruct D as [(n0 & ->)|D].
  2:{ rewrite (@keeps _ wm_cons); try reflexivity; [|intros n E; exfalso; eapply D, E]. split; [exact IH1|]. intros n. rewrite IH2, called_snoc.
      split; [auto|]. intros [Q|[Q _]]; [auto|]. exfalso. eapply D. symmetry. exact Q. }
  rewrite (@the_model_self l (WConstraint k n0) k) by (reflexivity || discriminate). destruct (created_dec l k) as [C|C].
  2:{ split; [constructor|]. intros n. rewrite called_snoc. rewrite (not_created _ _ C) in IH2. split; [intros []|]. intros [Q|[_ Q]]; [apply (IH2 n); auto|contradiction]. }
  destruct (smem n0 (wm_cons (the_model l k))) eqn:S2.
  - split; [exact IH1|]. intros n. rewrite called_snoc. split; [intros H; apply IH2 in H; auto|]. intros [Q|[Q _]]; [apply IH2; auto|]. injection Q as ->. apply smem_spec, S2.
  - apply smem_false in S2. cbn [app_con wm_cons]. split; [apply NoDup_app_single; assumption|]. intros n. rewrite in_app_iff, IH2, called_snoc. cbn. split.
    + intros [?|[<-|[]]]; [auto|]. right. auto.
    + intros [Q|[Q _]]; [auto|]. injection Q as ->. auto.
Qed.
Print Assumptions c90_constraints.

(** The first objective wins. *)
Theorem c90_objective : forall l k n,
  wm_obj (the_model l k) = Some n <->
  called_when l (WObjective k n) (fun before => created before k /\ forall n', ~ called_when before (WObjective k n') (fun b => created b k)).
Proof.
  intros l k. assert (G : (forall n, wm_obj (the_model l k) = Some n <->
      called_when l (WObjective k n) (fun before => created before k /\ forall n', ~ called_when before (WObjective k n') (fun b => created b k))) /\
      (wm_obj (the_model l k) = None <-> forall n', ~ called_when l (WObjective k n') (fun b => created b k))); [|exact (proj1 G)].
  induction l as [|e l [IH1 IH2]] using rev_ind.
  { rewrite the_model_nil. split; [|split; [intros _ n; apply called_nil|reflexivity]]. intros n. split; [discriminate|intros H; destruct (called_nil H)]. }
  assert (D : (exists n, e = WObjective k n) \/ forall n, e <> WObjective k n).
  { destruct e; try (right; discriminate). destruct (Nat.eq_dec k0 k) as [->|N]; [left; eauto|right; congruence]. }
  destruct D as [(n0 & ->)|D].
  2:{ rewrite (@keeps _ wm_obj); try reflexivity; [|intros n E; exfalso; eapply D, E]. split.
      - intros n. rewrite IH1, called_snoc. split; [auto|]. intros [Q|[Q _]]; [auto|]. exfalso. eapply D. symmetry. exact Q.
      - rewrite IH2. split; intros H n Q; [apply called_snoc in Q; destruct Q as [Q|[Q _]]; [exact (H n Q)|exact (D n (eq_sym Q))]|apply (H n), called_snoc; auto]. }
  rewrite (@the_model_self l (WObjective k n0) k) by (reflexivity || discriminate). destruct (created_dec l k) as [C|C].
  2:{ cbn. rewrite (not_created _ _ C) in IH1, IH2. cbn in IH1, IH2. split.
      - intros n. split; [discriminate|]. rewrite called_snoc. intros [Q|[_ [Q _]]]; [apply IH1, Q|contradiction].
      - split; [|reflexivity]. intros _ n Q. apply called_snoc in Q. destruct Q as [Q|[_ Q]]; [exact (proj1 IH2 eq_refl n Q)|contradiction]. }
  destruct (wm_obj (the_model l k)) as [n1|] eqn:E.
  - rewrite E. split.
    + intros n. rewrite called_snoc, IH1. split; [auto|]. intros [Q|[Q [_ Q2]]]; [exact Q|]. exfalso.
      pose proof (proj1 (IH1 n1) eq_refl) as (b & a & El & H). apply (Q2 n1). exists b, a. split; [exact El|apply H].
    + split; [discriminate|]. intros H. exfalso. pose proof (proj1 (IH1 n1) eq_refl) as (b & a & El & Hb). apply (H n1). apply called_snoc. left. exists b, a. split; [exact El|apply Hb].
  - cbn. pose proof (proj1 IH2 eq_refl) as NO. split.
    + intros n. rewrite called_snoc. split.
      * intros Q. injection Q as ->. right. auto.
      * intros [Q|[Q _]]; [apply IH1 in Q; discriminate|]. injection Q as ->. reflexivity.
    + split; [discriminate|]. intros H. exfalso. apply (H n0), called_snoc. auto.
Qed.
Print Assumptions c90_objective.

(** C90: its submodels. *)
Theorem c90_submodels : forall l k n pr c,
  In (n, pr, c) (wm_subs (the_model l k)) <->
  exists on, called_when l (WAdd k on pr c) (fun before => created before k /\ created before c /\
    match on with
    | Some n' => n' = n /\ check_banned_chars n = Ok tt /\ ~ In n (sub_names (the_model before k))
    | None => subgraph_auto_name (w_count (whistory before)) = Some n
    end).
Proof.
  intros l k n pr c. induction l as [|e l IH] using rev_ind.
  { rewrite the_model_nil. split; [intros []|intros (on & H); destruct (called_nil H)]. }
  assert (D : (exists on pr' c', e = WAdd k on pr' c') \/ forall on pr' c', e <> WAdd k on pr' c').
  { destruct e; try (right; discriminate). destruct (Nat.eq_dec k0 k) as [->|N]; [left; eauto|right; congruence]. }
  destruct D as [(on & pr0 & c0 & ->)|D].
  2:{ rewrite (@keeps _ wm_subs); try reflexivity; [|intros on p c' E; exfalso; eapply D, E]. rewrite IH. split; intros (on & Q); exists on.
      - apply called_snoc. auto.
      - apply called_snoc in Q. destruct Q as [Q|[Q _]]; [exact Q|]. exfalso. eapply D. symmetry. exact Q. }
  rewrite (@the_model_self l (WAdd k on pr0 c0) k) by (reflexivity || discriminate). destruct (created_dec l k) as [C|C].
  2:{ split; [intros []|]. intros (on' & Q). apply called_snoc in Q. destruct Q as [Q|[_ [Q _]]]; [|contradiction]. rewrite (not_created _ _ C) in IH. apply IH. eauto. }
  assert (OLD : (forall on', WAdd k on' pr c = WAdd k on pr0 c0 -> ~ (created l k /\ created l c /\
       match on' with Some n' => n' = n /\ check_banned_chars n = Ok tt /\ ~ In n (sub_names (the_model l k)) | None => subgraph_auto_name (w_count (whistory l)) = Some n end)) ->
     In (n, pr, c) (wm_subs (the_model l k)) <-> exists on', called_when (l ++ [WAdd k on pr0 c0]) (WAdd k on' pr c) (fun before => created before k /\ created before c /\
       match on' with Some n' => n' = n /\ check_banned_chars n = Ok tt /\ ~ In n (sub_names (the_model before k)) | None => subgraph_auto_name (w_count (whistory before)) = Some n end)).
  { intros H. rewrite IH. split; intros (on' & Q); exists on'; [apply called_snoc; auto|]. apply called_snoc in Q. destruct Q as [Q|[Q1 Q2]]; [exact Q|]. exfalso. eapply H; eassumption. }
  assert (NEW : forall t, ((t = (n, pr, c)) <-> exists on', WAdd k on' pr c = WAdd k on pr0 c0 /\ (created l k /\ created l c /\
       match on' with Some n' => n' = n /\ check_banned_chars n = Ok tt /\ ~ In n (sub_names (the_model l k)) | None => subgraph_auto_name (w_count (whistory l)) = Some n end)) ->
     In (n, pr, c) (wm_subs (app_sub t (the_model l k))) <-> exists on', called_when (l ++ [WAdd k on pr0 c0]) (WAdd k on' pr c) (fun before => created before k /\ created before c /\
       match on' with Some n' => n' = n /\ check_banned_chars n = Ok tt /\ ~ In n (sub_names (the_model before k)) | None => subgraph_auto_name (w_count (whistory before)) = Some n end)).
  { intros t H. cbn [app_sub wm_subs]. rewrite in_app_iff, IH. cbn [In]. split.
    - intros [(on' & Q)|[Q|[]]]; [exists on'; apply called_snoc; auto|]. apply H in Q. destruct Q as (on' & Q1 & Q2). exists on'. apply called_snoc. auto.
    - intros (on' & Q). apply called_snoc in Q. destruct Q as [Q|[Q1 Q2]]; [left; eauto|right; left]. apply H. eauto. }
  destruct (created_dec l c0) as [Cc|Cc].
  2:{ apply OLD. intros on' E (_ & Q & _). injection E as -> -> ->. contradiction. }
  destruct on as [n0|].
  - destruct (check_banned_chars n0) as [[]|] eqn:CB; cbn [is_ok andb].
    2:{ apply OLD. intros on' E (_ & _ & Q). injection E as -> -> ->. destruct Q as (-> & Q & _). congruence. }
    destruct (smem n0 (sub_names (the_model l k))) eqn:SM; cbn [negb].
    + apply OLD. intros on' E (_ & _ & Q). injection E as -> -> ->. destruct Q as (-> & _ & Q). apply Q, smem_spec, SM.
    + apply smem_false in SM. apply NEW. split.
      * intros E. injection E as -> -> ->. exists (Some n). auto 8.
      * intros (on' & E & _ & _ & Q). injection E as -> -> ->. destruct Q as (-> & _). reflexivity.
  - apply NEW. pose proof (gen_hex_name_total (w_count (whistory l) + 1)) as TT. fold (subgraph_auto_name (w_count (whistory l))) in TT.
    destruct (subgraph_auto_name (w_count (whistory l))) as [x|]; [|congruence]. split.
    + intros E. injection E as -> -> ->. exists None. auto 8.
    + intros (on' & E & _ & _ & Q). injection E as -> -> ->. injection Q as ->. reflexivity.
Qed.
Print Assumptions c90_submodels.

(** C90: its inputs and declared variables are exactly those its own calls created. *)
Theorem c90_inputs : forall l, follows_rules l -> forall k i,
  (In i (wm_ins (the_model l k)) <-> nth_error (owners l) i = Some k /\ kind_of l i = Some KIn) /\
  (In i (wm_decls (the_model l k)) <-> nth_error (owners l) i = Some k /\ kind_of l i = Some KDecl).
Proof.
  intros l FR k i. pose proof (inv_history FR) as IV. unfold kind_of.
  assert (L : forall f, f wm0 = @nil nat -> In i (f (the_model l k)) <-> In i (lists f (whistory l) k)).
  { intros f Hf. unfold lists, the_model. destruct (nth_error (w_models (whistory l)) k); [reflexivity|]. rewrite Hf. reflexivity. }
  split; (rewrite L by reflexivity); split.
  - intros H. destruct (@i_ins _ _ IV k i H) as (ob & E & O & K & _). split; [exact O|]. cbn in E. rewrite E. cbn. congruence.
  - intros [O K]. destruct (nth_error (w_heap (whistory l)) i) as [ob|] eqn:E; [|discriminate]. injection K as K.
    assert (OI : oinv (small l) (wst l) i k ob) by (eapply i_obj; [exact IV|exact E|exact O]). apply (o_in OI K).
  - intros H. destruct (@i_decls _ _ IV k i H) as (ob & E & O & K & _). split; [exact O|]. cbn in E. rewrite E. cbn. congruence.
  - intros [O K]. destruct (nth_error (w_heap (whistory l)) i) as [ob|] eqn:E; [|discriminate]. injection K as K.
    assert (OI : oinv (small l) (wst l) i k ob) by (eapply i_obj; [exact IV|exact E|exact O]). apply (o_decl OI K).
Qed.
Print Assumptions c90_inputs.

(** C90: its outputs are the objects of its create_output calls and those of its accepted
    register_output calls, under the names given there. *)
Theorem c90_outputs : forall l, follows_rules l -> forall k v n,
  (In v (wm_outs (the_model l k)) /\ name_of l v = n) <->
  called_when l (WOn k (ERegister n v)) (fun before => created before k /\
    (kind_of before v = Some KOut \/ kind_of before v = Some KConcat) /\ check_banned_chars n = Ok tt /\
    ~ In v (wm_outs (the_model before k)) /\
    forall i, In i (wm_outs (the_model before k) ++ wm_ins (the_model before k) ++ wm_decls (the_model before k)) -> name_of before i <> n) \/
  (nth_error (owners l) v = Some k /\ kind_of l v = Some KConcat /\ name_of l v = n).
Proof.
  assert (RG : forall l k v n, registrable (view (whistory l) (the_model l k)) n v <->
     (kind_of l v = Some KOut \/ kind_of l v = Some KConcat) /\ check_banned_chars n = Ok tt /\ ~ In v (wm_outs (the_model l k)) /\
     forall i, In i (wm_outs (the_model l k) ++ wm_ins (the_model l k) ++ wm_decls (the_model l k)) -> name_of l i <> n).
  { intros l k v n. assert (Q : kind_is is_output (view (whistory l) (the_model l k)) v = true <-> kind_of l v = Some KOut \/ kind_of l v = Some KConcat).
    { unfold kind_is, kind_of, is_output. cbn [view b_heap]. destruct (nth_error (w_heap (whistory l)) v) as [ob|]; cbn; [|split; [discriminate|intros [?|?]; discriminate]].
      destruct (ob_kind ob); split; intros H; try discriminate; auto; destruct H; discriminate. }
    unfold registrable. rewrite Q. cbn [view b_outs b_ins b_decls b_heap]. unfold name_of. tauto. }
  assert (CON : forall l, follows_rules l -> forall k v, nth_error (owners l) v = Some k -> kind_of l v = Some KConcat -> In v (wm_outs (the_model l k))).
  { intros l FR k v O K. pose proof (inv_history FR) as IV. unfold kind_of in K. destruct (nth_error (w_heap (whistory l)) v) as [ob|] eqn:E; [|discriminate]. injection K as K.
    assert (OI : oinv (small l) (wst l) v k ob) by (eapply i_obj; [exact IV|exact E|exact O]). destruct (o_con OI K) as (H & _). cbn in H. unfold lists in H. unfold the_model.
    destruct (nth_error (w_models (whistory l)) k); [exact H|destruct H]. }
  intros l. induction l as [|e l IH] using rev_ind; intros FR k v n.
  { rewrite the_model_nil. split; [intros [[] _]|]. intros [H|[H _]]; [destruct (called_nil H)|]. destruct v; discriminate. }
  pose proof (proj1 (@rules_snoc l e FR)) as FRl. specialize (IH FRl k v n). rewrite called_snoc. split.
  - intros [Ho En]. destruct (in_dec Nat.eq_dec v (wm_outs (the_model l k))) as [I|NI].
    + destruct (@outs_persist l e FR k v I) as [_ EN]. destruct (proj1 IH) as [Q|(O & K & Q)]; [split; [exact I|congruence]|auto|].
      right. split; [apply owner_kept, O|]. split; [|exact En]. unfold kind_of in *. destruct (nth_error (w_heap (whistory l)) v) as [ob|] eqn:E; [|discriminate].
      destruct (@step_object l e FR v ob E) as (ob' & E' & K' & _). rewrite E'. cbn in *. congruence.
    + destruct (@outs_step l e FR k) as [Eq|[(n' & x & Ee & C & R & Eq & EN)|(n' & x & Ee & Eq & K)]]; rewrite Eq in Ho; [contradiction|..];
        apply in_app_iff in Ho; destruct Ho as [Ho|[->|[]]]; try contradiction.
      * left. right. rewrite EN in En. rewrite En in *. split; [symmetry; exact Ee|]. split; [exact C|]. apply RG, R.
      * right. split; [|auto]. assert (I : In v (wm_outs (the_model (l ++ [e]) k))) by (rewrite Eq; apply in_app_iff; cbn; auto).
        assert (IV : inv (small (l ++ [e])) (wst (l ++ [e]))) by (apply inv_history, FR). destruct (@i_outs _ _ IV k v) as (ob & _ & O & _); [|exact O].
        cbn [wst t_outs]. unfold lists. unfold the_model in I. destruct (nth_error (w_models (whistory (l ++ [e]))) k); [exact I|destruct I].
  - intros [[Q|[Ee (C & R)]]|(O & K & EN)].
    + destruct (proj2 IH (or_introl Q)) as [I En]. destruct (@outs_persist l e FR k v I) as [I' EN]. split; [exact I'|congruence].
    + apply RG in R. subst e. pose proof (@the_model_self l (WOn k (ERegister n v)) k) as TM. rewrite TM by (discriminate || reflexivity).
      destruct (created_dec l k) as [_|N]; [|contradiction]. cbn [bstep]. destruct (@register_spec (view (whistory l) (the_model l k)) n v) as [[_ E]|[N _]]; [|contradiction]. split.
      * rewrite E. cbn. apply in_app_iff. cbn. auto.
      * unfold name_of, name_in. rewrite whistory_snoc, (@wstep_on _ _ _ _ (model_some C)) by discriminate. cbn [put w_heap bstep]. rewrite E. cbn. rewrite nth_upd, Nat.eqb_refl.
        destruct R as (_ & R & _). unfold kind_is in R. cbn in R. destruct (nth_error (w_heap (whistory l)) v); [reflexivity|discriminate].
    + split; [|exact EN]. apply CON; assumption.
Qed.
Print Assumptions c90_outputs.

(** C90: a call on one model changes no other model, and none of the objects of other
    models. *)
Theorem c90_isolated : forall l e, follows_rules (l ++ [e]) -> forall k, k <> actor e ->
  the_model (l ++ [e]) k = the_model l k /\
  forall o, nth_error (owners l) o = Some k -> nth_error (w_heap (whistory (l ++ [e]))) o = nth_error (w_heap (whistory l)) o.
Proof.
  intros l e FR k N. split.
  - apply the_model_other. left. intros x <-. exact N.
  - intros o O. eapply frame_objects; eassumption.
Qed.
Print Assumptions c90_isolated.

(** The rule is needed: using a variable of another model changes objects of that model. *)
Example c90_sharing_not_isolated : exists l e k o, k <> actor e /\ nth_error (owners l) o = Some k /\
  nth_error (w_heap (whistory (l ++ [e]))) o <> nth_error (w_heap (whistory l)) o.
Proof.
  exists [WNew; WNew; WOn 0 (EInput "x"); WOn 0 (EApply [0] 1)], (WOn 1 (ERegister "y" 2)), 0, 2. split; [discriminate|]. split; [reflexivity|]. vm_compute. discriminate.
Qed.
Print Assumptions c90_sharing_not_isolated.

(** The program of Prop_World. *)
Example c90_program :
  In ("z", "w") (wm_conns (the_model wx 0)) /\ wm_subs (the_model wx 0) = [("A", None, 1)] /\ wm_ins (the_model wx 0) = [0] /\ wm_decls (the_model wx 1) = [1] /\
  wm_outs (the_model wx 0) = [6; 9] /\ name_of wx 6 = "z" /\ owners wx = [0; 1; 1; 1; 0; 0; 0; 0; 0; 0].
Proof. vm_compute. auto 10. Qed.
Example c90_options : let l := [WNew; WOn 0 (EInput "x"); WDesign 0 "x"; WDesign 0 "q"; WConstraint 0 "c"; WConstraint 0 "c"; WObjective 0 "f"; WObjective 0 "g"] in
  wm_dvs (the_model l 0) = ["x"] /\ wm_cons (the_model l 0) = ["c"] /\ wm_obj (the_model l 0) = Some "f".
Proof. vm_compute. auto. Qed.

(** C90: compiling a model reads, at every path of submodel names, the model that was added
    there, and nothing else. *)
Theorem c90_hierarchy : forall w shp f k um m, tree f w shp k = Some (um, m) ->
  (forall p j, leads w k p j -> exists mj um' m', nth_error (w_models w) j = Some mj /\ um_at um p um' /\ sub_at m p m' /\ reads_model w shp mj um' m') /\
  (forall p um', um_at um p um' -> exists j, leads w k p j) /\
  (forall p m', sub_at m p m' -> exists j, leads w k p j).
Proof.
  intros w shp f k um m T. split; [|split].
  - intros p j H. revert f um m T. induction H as [k|k mk n pr c p j E Hs _ IH]; intros f um m T; apply tree_inv in T; destruct T as (f' & wm & tl & _ & E' & AL & LL & -> & ->).
    + exists wm. eexists. eexists. split; [exact E'|]. split; [constructor|]. split; [constructor|]. split; [|cbn; repeat (split; [reflexivity|]); apply map_fst_combine; rewrite !map_length; lia].
      eexists. split; [reflexivity|]. apply map_fst_combine. unfold sub_names. rewrite !map_length. lia.
    + rewrite E in E'. injection E' as <-. apply In_nth_error in Hs. destruct Hs as (i & Hi).
      assert (Li : i < length tl) by (rewrite LL; apply nth_error_Some; congruence). destruct (nth_error tl i) as [[um1 m1]|] eqn:Et; [|apply nth_error_None in Et; lia].
      pose proof (all_some_nth _ _ AL Et) as Q. rewrite nth_error_map, Hi in Q. cbn in Q. injection Q as Q.
      destruct (IH _ _ _ Q) as (mj & um' & m' & H1 & H2 & H3 & H4). exists mj, um', m'. split; [exact H1|]. split; [|split; [|exact H4]].
      * eapply um_step; [|exact H2]. apply (nth_error_In _ i). assert (G : forall (a : list string) (b : list umodel) i x y, nth_error a i = Some x -> nth_error b i = Some y -> nth_error (combine a b) i = Some (x, y)).
        { induction a as [|x a IHa]; intros [|y b] [|i'] x' y' A B; cbn in *; try discriminate; [injection A as ->; injection B as ->; reflexivity|apply IHa; assumption]. }
        apply G; [unfold sub_names|]; rewrite nth_error_map; [rewrite Hi|rewrite Et]; reflexivity.
      * eapply sub_step; [|exact H3]. cbn [m_subs]. apply (nth_error_In _ i). assert (G : forall (a : list (string * promotes_t)) (b : list model) i x y, nth_error a i = Some x -> nth_error b i = Some y -> nth_error (combine a b) i = Some (x, y)).
        { induction a as [|x a IHa]; intros [|y b] [|i'] x' y' A B; cbn in *; try discriminate; [injection A as ->; injection B as ->; reflexivity|apply IHa; assumption]. }
        apply G; rewrite nth_error_map; [rewrite Hi|rewrite Et]; reflexivity.
  - intros p um' A. revert f k m T. induction A as [um0|ins outs decls subs s sm p um0 Hs A IH]; intros f k m T; [eexists; constructor|].
    apply tree_inv in T. destruct T as (f' & wm & tl & _ & E & AL & LL & Eu & _). injection Eu as -> -> -> ->. apply In_nth_error in Hs. destruct Hs as (i & Hi).
    apply nth_combine in Hi. cbn in Hi. destruct Hi as [H1 H2]. unfold sub_names in H1. rewrite nth_error_map in H1, H2. destruct (nth_error (wm_subs wm) i) as [[[n pr] c]|] eqn:En; [|discriminate].
    destruct (nth_error tl i) as [[um1 m1]|] eqn:Et; [|discriminate]. cbn in H1, H2. injection H1 as ->. injection H2 as ->.
    pose proof (all_some_nth _ _ AL Et) as Q. rewrite nth_error_map, En in Q. cbn in Q. injection Q as Q. destruct (IH _ _ _ Q) as (j & H). exists j. eapply leads_sub; [exact E|eapply nth_error_In, En|exact H].
  - intros p m' A. revert f k um T. induction A as [m0|m0 s pr0 sm p m' Hs A IH]; intros f k um T; [eexists; constructor|].
    apply tree_inv in T. destruct T as (f' & wm & tl & _ & E & AL & LL & _ & ->). cbn in Hs. apply In_nth_error in Hs. destruct Hs as (i & Hi).
    apply nth_combine in Hi. cbn in Hi. destruct Hi as [H1 H2]. rewrite nth_error_map in H1, H2. destruct (nth_error (wm_subs wm) i) as [[[n pr] c]|] eqn:En; [|discriminate].
    destruct (nth_error tl i) as [[um1 m1]|] eqn:Et; [|discriminate]. cbn in H1, H2. injection H1 as -> ->. injection H2 as ->.
    pose proof (all_some_nth _ _ AL Et) as Q. rewrite nth_error_map, En in Q. cbn in Q. injection Q as Q. destruct (IH _ _ _ Q) as (j & H). exists j. eapply leads_sub; [exact E|eapply nth_error_In, En|exact H].
Qed.
Print Assumptions c90_hierarchy.
Example c90_leads : leads (whistory wx) 0 ["A"] 1.
Proof. eapply leads_sub; [vm_compute; reflexivity|left; reflexivity|constructor]. Qed.
