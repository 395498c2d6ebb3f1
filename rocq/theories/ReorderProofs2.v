(** The rules of C88 do not depend on the order of what a hierarchy lists. *)
From Verif Require Import PyBase NamesModel PromotionsModel PromotionsSpec PromotionsProofs HierModel HierSpec Digraph FlatModel ExprModel UnflatModel UnflatSpec
  FlattenModel FlattenSpec FlattenProofs3 CompileModel CompileSpec AcceptSpec DependSpec ExtendSpec ExtendProofs ReorderSpec ReorderProofs.
From Coq Require Import Permutation.
Local Open Scope list_scope.

Lemma g_has_var m m' p k x s : grows m m' -> has_var m p k x s -> has_var m' p k x s.
Proof. intros G (y & A & Hi). destruct (e_sub_at m m' G p y A) as (y' & A' & Gy). exists y'. split; [exact A'|]. inversion Gy as [? ? I _ _]; subst. apply I, Hi. Qed.
Lemma keeps_refl h : keeps h h.
Proof. intros o ob E. exists ob. split; [exact E|]. split; [reflexivity|]. split; [reflexivity|]. exists []. rewrite app_nil_r. reflexivity. Qed.
Lemma names_refl h um : names_kept h h um.
Proof. intros p k o x M. apply M. Qed.

Section R.
  Context (h : list obj) (shp : nat -> shape) (um um' : umodel) (m m' : model) (RU : um_reorder um um') (R : reorder m m').
  Let U1 : um_grows um um' := um_reorder_grows _ _ RU.
  Let U2 : um_grows um' um := um_reorder_grows _ _ (um_reorder_sym _ _ RU).
  Let G1 : grows m m' := reorder_grows _ _ R.
  Let G2 : grows m' m := reorder_grows _ _ (reorder_sym _ _ R).

  Lemma r_occurs p o : occurs h um' p o -> occurs h um p o.
  Proof. exact (e_occurs h h um' um (keeps_refl h) U2 p o). Qed.
  Lemma r_occurs' p o : occurs h um p o -> occurs h um' p o.
  Proof. exact (e_occurs h h um um' (keeps_refl h) U1 p o). Qed.
  Lemma r_called p k o n : called h um' m' p k o n -> called h um m p k o n.
  Proof. exact (e_called h h um' um m' m U2 G2 (names_refl h um') p k o n). Qed.
  Lemma r_called' p k o n : called h um m p k o n -> called h um' m' p k o n.
  Proof. exact (e_called h h um um' m m' U1 G1 (names_refl h um) p k o n). Qed.
  Lemma r_promoted p x q : promoted_ns m' p x q -> promoted_ns m p x q.
  Proof. exact (e_promoted m' m G2 p x q). Qed.
  Lemma r_resolves f n : resolves_to m' f n -> resolves_to m f n.
  Proof. exact (e_resolves m' m G2 f n). Qed.
  Lemma r_resolves' f n : resolves_to m f n -> resolves_to m' f n.
  Proof. exact (e_resolves m m' G1 f n). Qed.
  Lemma r_conn p a b : declared_conn m' p a b -> declared_conn m p a b.
  Proof. exact (e_conn m' m G2 p a b). Qed.

  Lemma r_unsupplied n : unsupplied h um m n -> unsupplied h um' m' n.
  Proof.
    intros [A B]. split; [intros p k o C; apply (A p k o), r_called, C|]. intros (p & a & b & D & E). apply B. exists p, a, b. split; [apply r_conn, D|apply r_resolves, E].
  Qed.
  Lemma r_connection_ok p a b : connection_ok h shp um m p a b -> connection_ok h shp um' m' p a b.
  Proof.
    intros (pa & pb & A & B & C & ps & ks & os & pt & ot & D & E & F & H & I). exists pa, pb. split; [apply r_resolves', A|]. split; [apply r_resolves', B|].
    split; [intros p' k' o' Q; apply (C p' k' o'), r_called, Q|]. exists ps, ks, os, pt, ot. split; [apply r_called', D|]. split; [exact E|]. split; [apply r_occurs', F|]. split; [apply r_called', H|exact I].
  Qed.
  Lemma r_ranking rank : ranking h um m rank -> ranking h um' m' rank.
  Proof.
    intros [A B C D]. split.
    - intros p o d Ho. apply A, r_occurs, Ho.
    - intros p o v Ho. apply B, r_occurs, Ho.
    - intros p k o p' k' o' n H1 H2 H3 H4. apply (C p k o p' k' o' n); [apply r_occurs, H1|apply r_occurs, H2|apply r_called, H3|apply r_called, H4].
    - intros p0 a b pa pb p k o p' k' o' H1 H2 H3 H4 H5 H6 H7. eapply D; [apply r_conn, H1|apply r_resolves, H2|apply r_resolves, H3|apply r_occurs, H4|apply r_occurs, H5|apply r_called, H6|apply r_called, H7].
  Qed.
  Lemma r_unique : unique_sources m -> unique_sources m'.
  Proof.
    intros U p1 p2 x s1 s2 q (k1 & S1 & V1) (k2 & S2 & V2) P1 P2. apply (U p1 p2 x s1 s2 q); [exists k1|exists k2|apply r_promoted, P1|apply r_promoted, P2]; (split; [assumption|]);
      eapply g_has_var; try eassumption; exact G2.
  Qed.
  Lemma r_sizes : sizes_agree m -> sizes_agree m'.
  Proof. intros U p1 p2 k1 k2 x s1 s2 q V1 V2 P1 P2. apply (U p1 p2 k1 k2 x s1 s2 q); [eapply g_has_var; [exact G2|exact V1]|eapply g_has_var; [exact G2|exact V2]|apply r_promoted, P1|apply r_promoted, P2]. Qed.

  (** Lists with one promoted name for each element. *)
  Lemma names_perm {A B} (S : A -> B -> Prop) (P : A -> string -> Prop) (Q : B -> string -> Prop) l l' : permR S l l' -> (forall a b n, S a b -> P a n -> Q b n) ->
    (exists ns, Forall2 P l ns /\ NoDup ns) -> exists ns, Forall2 Q l' ns /\ NoDup ns.
  Proof.
    intros (k & PK & F) H (ns & FP & ND). assert (FQ : Forall2 Q k ns).
    { clear PK ND. revert ns FP. induction F as [|a b l k Sab F IH]; intros ns FP; inversion FP; subst; constructor; eauto. }
    apply Permutation_sym in PK. destruct (forall2_perm _ _ _ _ PK FQ) as (ns' & PN & FQ'). exists ns'. split; [exact FQ'|]. eapply Permutation_NoDup; eassumption.
  Qed.
  Lemma r_targets : targets_distinct m -> targets_distinct m'.
  Proof.
    unfold targets_distinct. apply names_perm with (S := eq).
    - unfold conns_declared. apply permR_flat with (R := at_same); [|apply postorder_reorder, R]. intros [p a] [p' b] _ [E Q]. cbn in *. subst p'.
      apply permR_map with (R := eq); [intros ? ? ->; reflexivity|]. inversion Q; subst. apply permR_perm. assumption.
    - intros a b n <- H. apply r_resolves', H.
  Qed.
  Lemma r_options sel : (forall a b, reorder a b -> Permutation (sel a) (sel b)) -> options_ok m sel -> options_ok m' sel.
  Proof.
    intros HS. unfold options_ok. apply names_perm with (S := fun a b => fst (fst a) = fst (fst b) /\ reorder (snd (fst a)) (snd (fst b)) /\ snd a = snd b).
    - unfold opts_declared. apply permR_flat with (R := at_same); [|apply preorder_reorder, R]. intros [p a] [p' b] _ [E Q]. cbn in *. subst p'.
      apply permR_map with (R := eq); [intros ? ? ->; cbn; auto|]. apply permR_perm, HS, Q.
    - intros [[p a] k] [[p' b] k'] n (E & Q & E') (n1 & H1 & H2). cbn in *. subst. exists n1. split; [|apply r_resolves', H2]. exact (e_resolves a b (reorder_grows _ _ Q) _ _ H1).
  Qed.
  Lemma r_objective : objective_ok m -> objective_ok m'.
  Proof.
    unfold objective_ok. pose proof (permR_filter at_same (fun pm => match m_obj (snd pm) with Some _ => true | None => false end) (fun pm => match m_obj (snd pm) with Some _ => true | None => false end) _ _
      (fun a b Q => ltac:(destruct Q as [_ Q]; inversion Q; subst; match goal with E : m_obj _ = m_obj _ |- _ => rewrite E end; reflexivity)) (preorder_reorder _ _ R)) as (k & P & F).
    destruct F as [|[p a] [p' b] l k [E Q] F]; intros H.
    - apply Permutation_sym, Permutation_nil in P. rewrite P. exact I.
    - destruct F as [|? ? ? ? ? F]; [|destruct H]. apply Permutation_sym, Permutation_length_1_inv in P. rewrite P. cbn in E. subst p'. cbn in Q. destruct H as (n & n1 & n2 & H1 & H2 & H3).
      exists n, n1, n2. split; [inversion Q; congruence|]. split; [exact (e_resolves a b (reorder_grows _ _ Q) _ _ H2)|apply r_resolves', H3].
  Qed.
  Lemma r_promotes : valid_promotes m -> valid_promotes m'.
  Proof.
    intros VP p y nm l sm x A Hi Hx.
    assert (G : exists y0, sub_at m p y0 /\ reorder y y0).
    { clear VP Hi. pose proof (reorder_sym _ _ R) as S. clear G1 G2 R. revert m S. induction A as [y|y n pr s p z Hs A IH]; intros m0 S; [exists m0; split; [constructor|exact S]|].
      inversion S as [? ? s2 _ _ _ _ _ _ _ P8 F]; subst. destruct (permR_in (same_sub reorder) (m_subs y) (m_subs m0) (n, pr, s)) as ([[n' pr'] s'] & Hs' & E & Q); [exists s2; auto|exact Hs|].
      cbn in E, Q. injection E as <- <-. destruct (IH _ Q) as (y0 & B & C). exists y0. split; [econstructor; eassumption|exact C]. }
    destruct G as (y0 & A0 & Q). inversion Q as [? ? s2 _ _ _ _ _ _ _ P8 F]; subst.
    destruct (permR_in (same_sub reorder) (m_subs y) (m_subs y0) (nm, Some l, sm)) as ([[n' pr'] s'] & Hs' & E & Qs); [exists s2; auto|exact Hi|]. cbn in E, Qs. injection E as <- <-.
    destruct (VP p y0 nm l s' x A0 Hs' Hx) as (pv & k & s & V & P). pose proof (reorder_grows _ _ (reorder_sym _ _ Qs)) as Gs.
    exists pv, k, s. split; [eapply g_has_var; eassumption|]. exact (e_promoted s' sm Gs _ _ _ P).
  Qed.
  Lemma r_acceptable : acceptable h shp um m -> acceptable h shp um' m'.
  Proof.
    intros [A1 A2 A3 A4 A5 A6 A7 A8 (rank & A9)]. split.
    - apply r_unique, A1.
    - apply r_sizes, A2.
    - apply r_promotes, A3.
    - intros p a b D. apply r_connection_ok, A4, r_conn, D.
    - apply r_targets, A5.
    - apply r_options; [|exact A6]. intros a b Q. inversion Q; subst; assumption.
    - apply r_options; [|exact A7]. intros a b Q. inversion Q; subst; assumption.
    - apply r_objective, A8.
    - exists rank. apply r_ranking, A9.
  Qed.
  Lemma r_not_targets : inputs_not_targets h um m -> inputs_not_targets h um' m'.
  Proof. intros T. exact (e_targets h h um' um m' m U2 G2 (names_refl h um') T). Qed.
End R.
