(** What a compiled model satisfies. *)
From Verif Require Import PyBase NamesModel NamesProofs PromotionsModel PromotionsSpec PromotionsProofs PromotionsProofs2 PromotionsProofs3 HierModel HierSpec HierProofs HierProofs2 Digraph
  FlatModel FlatSpec FlatProofs ConnProofs ConnProofs2 ExprModel UnflatModel UnflatSpec UnflatProofs UnflatProofs2 FlattenModel FlattenSpec FlattenProofs
  FlattenProofs2 FlattenProofs3 FlattenProofs4 TopoModel TopoSpec TopoProofs CompileModel CompileSpec ExecProofs CompileProofs AcceptSpec AcceptProofs AcceptProofs2 AcceptProofs3
  CompileProofs2.

Lemma Forall2_NoDup_r {A B} (P : A -> B -> Prop) l l' : Forall2 P l l' -> (forall x x' y, In x l -> In x' l -> P x y -> P x' y -> x = x') -> NoDup l -> NoDup l'.
Proof.
  intros F. induction F as [|x y l l' Hxy F IH]; intros H ND; [constructor|]. inversion ND as [|? ? N1 N2]; subst. constructor.
  - intros Hy. destruct (Forall2_In_r _ _ _ _ F Hy) as (x' & Hx' & Hxy'). rewrite (H x x' y (or_introl eq_refl) (or_intror Hx') Hxy Hxy') in N1. contradiction.
  - apply IH; [intros x1 x2 y1 A1 A2; apply H; right; assumption|exact N2].
Qed.
Lemma precedes_position l a b : NoDup l -> precedes l a b -> exists i j, position a l = Some i /\ position b l = Some j /\ i < j.
Proof.
  intros ND (l1 & l2 & l3 & ->). exists (length l1), (length l1 + S (length l2)). split; [|split; [|lia]].
  - apply position_nodup; [exact ND|]. rewrite nth_error_app2 by lia. rewrite Nat.sub_diag. reflexivity.
  - apply position_nodup; [exact ND|]. rewrite nth_error_app2 by lia. replace (length l1 + S (length l2) - length l1) with (S (length l2)) by lia. cbn.
    rewrite nth_error_app2 by lia. rewrite Nat.sub_diag. reflexivity.
Qed.

Section N.
  Context (h : list obj) (shp : nat -> shape) (dflt : nat -> bool) (um : umodel) (m : model) (c : compiled).
  Hypothesis (WF : well_formed h um m shp) (TI : inputs_not_targets h um m) (CO : compiles h shp dflt um m c).
  Local Notation occ := (occurs h um).
  Local Notation call := (called h um m).
  Local Notation attr := (node_attr h shp dflt (c_log c)).

  Theorem n_connections p a b : declared_conn m p a b -> connection_ok h shp um m p a b.
  Proof.
    intros Hd. destruct CO as (r & u & g & g1 & R & B & _ & _ & F & M & MC & SO & _).
    destruct (@rep1_exists h shp dflt um m c WF r u g g1 R B F M) as (rep1 & H1).
    edestruct conn_of as (t & s & Hi & Ds & Dt); try exact Hd; try eassumption.
    edestruct denotes_called as (ps & os & ks & pa & vs & Es & Hos & Hcs & _ & Rs & Avs & _); try exact Ds; try eassumption.
    edestruct denotes_called as (pt & ot & kt & pb & vt & Et & Hot & Hct & Ft & Rt & Avt & Pvt); try exact Dt; try eassumption.
    edestruct conn_target as (pt' & ot' & pn' & Et' & _ & Hct' & _); try exact Hi; try eassumption. rewrite Et in Et'. injection Et' as <- <-.
    assert (Kt : kt = KDeclared). { eapply kinds_excl; [eapply called_kind; eassumption|exact (@called_kind h shp um m WF _ _ _ _ Hct')]. } subst kt.
    edestruct conns_spec as (_ & _ & AD); try eassumption. destruct (AD _ _ Hi) as [(sv & [Asv Csv] & tv & Atv & SZ) _].
    exists pa, pb. split; [exact Rs|]. split; [exact Rt|]. split.
    - intros p' k' o' Hc'. assert (KD : k' = KDeclared \/ k' <> KDeclared) by (destruct k'; auto; right; discriminate).
      destruct KD as [KD|KD]; [exact KD|exfalso]. pose proof (source_occurs _ _ _ _ _ _ _ KD Hc') as Ho'.
      pose proof H1 as (_ & _ & _ & ND & _ & RS). pose proof (RS _ _ _ _ _ _ _ Hot Ho' Hct Hc') as E.
      rewrite (ND p' o' Ho' (@not_declared h shp um m WF k' KD _ _ _ Hc')), <- Et, Ft, Et in E. injection E as <- <-.
      exact (@not_declared h shp um m WF k' KD _ _ _ Hc' (@called_kind h shp um m WF _ _ _ _ Hct)).
    - exists ps, ks, os, pt, ot. split; [exact Hcs|]. split.
      + intros ->. edestruct called_attr as (v & Av & _ & _ & Cv); try exact Hos; try exact Hcs; try eassumption. rewrite <- Es, Asv in Av. injection Av as <-. destruct Csv; congruence.
      + split; [exact Hot|]. split; [exact Hct|]. subst s t.
        erewrite <- (called_shape h shp dflt um m c WF ps ks os pa sv Hos Hcs Asv). erewrite <- (called_shape h shp dflt um m c WF pt KDeclared ot pb tv Hot Hct Atv). exact SZ.
  Qed.

  Theorem n_targets : targets_distinct m.
  Proof.
    destruct CO as (r & u & g & g1 & R & B & _ & _ & F & M & MC & SO & _).
    destruct (@rep1_exists h shp dflt um m c WF r u g g1 R B F M) as (rep1 & H1).
    edestruct conns_spec as (FC & ND & _); try eassumption. rewrite (triples h shp um m WF) in FC. apply Forall2_map_l in FC. cbn [fst snd] in FC.
    exists (map (fun ts => pname attr (fst ts)) (c_conns c)).
    assert (G : forall l l', (forall t, In t l -> In t (conns_declared m)) ->
      Forall2 (fun t ts => denotes attr g1 (rp_p2u r) (prepend_namespace (ns_of (fst t)) (fst (snd t))) (snd ts) /\
                           denotes attr g1 (rp_p2u r) (prepend_namespace (ns_of (fst t)) (snd (snd t))) (fst ts)) l l' ->
      Forall2 (fun t pn => resolves_to m (dotted (fst t) (snd (snd t))) pn) l (map (fun ts => pname attr (fst ts)) l')).
    { intros l l' Hl FF. induction FF as [|t ts l l' (_ & D2) FF IH]; constructor; [|apply IH; intros t' Ht'; apply Hl; right; exact Ht'].
      pose proof (proj1 (conns_declared_spec m t) (Hl t (or_introl eq_refl))) as Hd. rewrite (@conn_name h shp um m WF _ _ _ _ Hd) in D2.
      edestruct denotes_called as (pt & ot & kt & pb & vt & Et & Hot & Hct & Ft & Rt & Avt & Pvt); try exact D2; try eassumption.
      unfold pname, vat. rewrite Avt, Pvt. exact Rt. }
    split; [apply G; [auto|exact FC]|].
    assert (DT : forall t, In t (map fst (c_conns c)) -> exists full, denotes attr g1 (rp_p2u r) full t).
    { intros t Ht. apply in_map_iff in Ht. destruct Ht as ([t' s] & <- & Hi). edestruct conn_in as (p0 & a & b & _ & _ & Dt); try exact Hi; try eassumption. eauto. }
    rewrite <- (map_map fst (fun t => pname attr t)). clear FC G. revert DT ND. generalize (map fst (c_conns c)). intros l DT ND.
    assert (FF : Forall2 (fun t pn => pname attr t = pn) l (map (fun t => pname attr t) l)) by (clear; induction l; constructor; auto).
    eapply Forall2_NoDup_r; [exact FF| |exact ND]. intros x x' y Hx Hx' Ex Ex'. destruct (DT _ Hx) as (fx & vx & nx & Nx & _). destruct (DT _ Hx') as (fx' & vx' & nx' & Nx' & _).
    eapply named_same; [exact R|exact MC|exact Nx|exact Nx'|]. destruct Nx as (_ & Ax & _), Nx' as (_ & Ax' & _). unfold pname, vat in Ex, Ex'. rewrite Ax in Ex. rewrite Ax' in Ex'. congruence.
  Qed.

  Definition order_rank (p : list string) (o : nat) : nat :=
    match position (match nth_error h o with Some ob => if is_op ob then NObj p o else node_of h c p o | None => NObj p o end) (c_order c) with Some k => k | None => 0 end.
  Lemma rank_op p o : operation h o -> order_rank p o = match position (NObj p o) (c_order c) with Some k => k | None => 0 end.
  Proof. intros (ob & E & O). unfold order_rank. rewrite E, O. reflexivity. Qed.
  Lemma rank_var p o : variable h o -> order_rank p o = match position (node_of h c p o) (c_order c) with Some k => k | None => 0 end.
  Proof. intros (ob & E & O). unfold order_rank. rewrite E, O. reflexivity. Qed.

  Theorem n_ranking : ranking h um m order_rank.
  Proof.
    destruct (compiles_order h shp dflt um m c WF TI CO) as (ND & _ & _ & _ & _ & EA & ER & EP).
    pose proof CO as CO'. destruct CO' as (r & u & g & g1 & R & B & _ & _ & F & M & MC & SO & _).
    destruct (@rep1_exists h shp dflt um m c WF r u g g1 R B F M) as (rep1 & H1).
    destruct (@rep2_exists h shp dflt um m c WF TI r u g g1 R B F MC rep1 H1) as (rep2 & H2).
    split.
    - intros p o d Ho O Hr. assert (V : variable h d) by (eapply arg_variable; eassumption). rewrite (rank_op p o O), (rank_var p d V).
      assert (He : edge (c_graph c) (node_of h c p d) (NObj p o)) by (apply (EA p o _ Ho O); eauto).
      destruct (precedes_position _ _ _ ND (EP _ _ He)) as (i & j & -> & -> & L). exact L.
    - intros p o v Ho Hw. pose proof (@writes_op h o v Hw) as O. rewrite (rank_op p o O), (rank_var p v (@out_var h v (f_outputs WF _ _ Hw))).
      assert (He : edge (c_graph c) (NObj p o) (node_of h c p v)) by (apply (ER p o _ Ho O); eauto).
      destruct (precedes_position _ _ _ ND (EP _ _ He)) as (i & j & -> & -> & L). exact L.
    - intros p k o p' k' o' pn Ho Ho' Hc Hc'. assert (V : variable h o) by (eapply called_var; eassumption). assert (V' : variable h o') by (eapply called_var; eassumption).
      rewrite (rank_var p o V), (rank_var p' o' V'). erewrite node_of_rep; try eassumption. erewrite (node_of_rep h shp dflt um m c WF TI) with (p := p'); try eassumption.
      unfold rep. pose proof H1 as (_ & _ & _ & _ & _ & RS). rewrite (RS _ _ _ _ _ _ _ Ho Ho' Hc Hc'). reflexivity.
    - intros p0 a b pa pb p k o p' k' o' Hd Ra Rb Ho Ho' Hc Hc'. assert (V : variable h o) by (eapply called_var; eassumption). assert (V' : variable h o') by (eapply called_var; eassumption).
      edestruct conn_of as (t & s & Hi & Ds & Dt); try exact Hd; try eassumption.
      rewrite (rank_var p o V), (rank_var p' o' V'). erewrite node_of_rep; try eassumption. erewrite (node_of_rep h shp dflt um m c WF TI) with (p := p'); try eassumption.
      unfold rep. erewrite same_rep1; try eassumption. erewrite (same_rep1 h shp dflt um m c WF) with (p := p'); try eassumption.
      destruct H2 as (_ & _ & C2 & _). destruct (C2 _ _ Hi) as (-> & -> & _). reflexivity.
  Qed.

  Theorem compiled_acceptable : unique_sources m /\ (forall p a b, declared_conn m p a b -> connection_ok h shp um m p a b) /\ targets_distinct m /\
    options_ok m m_dvs /\ options_ok m m_cons /\ objective_ok m /\ exists rank, ranking h um m rank.
  Proof.
    pose proof CO as CO'. destruct CO' as (r & u & g & g1 & R & B & _ & _ & F & M & MC & SO & CS & DV & CT & ob & OB).
    pose proof (f_named WF) as W. assert (MO : exists mp, maps_of m = Ok mp) by (unfold maps_of; rewrite R; cbn [bind]; eauto). destruct MO as (mp & MO).
    unfold rep_design_variables in DV. unfold rep_constraints in CT. rewrite MO in DV, CT. cbn [bind] in DV, CT.
    split; [intros p1 p2 x s1 s2 q; eapply sources_unique; eassumption|]. split; [exact n_connections|]. split; [exact n_targets|].
    split; [eapply (proj1 (opt_accepted m_dvs m mp W MO)); eauto|]. split; [eapply (proj1 (opt_accepted m_cons m mp W MO)); eauto|].
    split; [|exists order_rank; exact n_ranking]. pose proof (objective_unique _ _ _ W OB) as U. unfold objective_ok.
    change (fun pm : list string * model => match m_obj (snd pm) with Some _ => true | None => false end) with has_obj. fold (obj_owners m).
    destruct (obj_owners m) as [|[p m'] [|? ?]]; [exact I| |exact U]. destruct U as (k & n1 & n2 & E1 & E2 & E3 & _). eauto 10.
  Qed.
End N.
