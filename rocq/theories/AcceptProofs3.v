(** Acceptable models compile, and compiled models are acceptable up to sizes. *)
From Verif Require Import PyBase NamesModel NamesProofs PromotionsModel PromotionsSpec PromotionsProofs PromotionsProofs2 PromotionsProofs3 HierModel HierSpec HierProofs HierProofs2 Digraph
  FlatModel FlatSpec FlatProofs ConnProofs ConnProofs2 ExprModel UnflatModel UnflatSpec UnflatProofs UnflatProofs2 FlattenModel FlattenSpec FlattenProofs
  FlattenProofs2 FlattenProofs3 FlattenProofs4 TopoModel TopoSpec TopoProofs CompileModel CompileSpec ExecProofs CompileProofs AcceptSpec AcceptProofs AcceptProofs2.
From Coq Require Import Permutation Relations.

Lemma acceptable_targets h shp um m mp : well_named m -> maps_of m = Ok mp -> (forall p a b, declared_conn m p a b -> connection_ok h shp um m p a b) ->
  inputs_not_targets h um m.
Proof.
  intros W MO A p o pn (p0 & a & b & Hd & Hr) Hc. destruct (A _ _ _ Hd) as (pa & pb & _ & Rb & D & _).
  pose proof (resolves_fun _ _ _ _ _ W MO Hr Rb) as E. subst pb. pose proof (D _ _ _ Hc). discriminate.
Qed.

Lemma well_formed_buildable h um m shp : well_formed h um m shp -> buildable h um.
Proof.
  intros WF. assert (L : forall v, variable h v -> v < length h) by (intros v (ob & E & _); apply nth_error_Some; congruence).
  assert (G : forall um' p, um_at um p um' -> buildable h um').
  { induction um' as [ins outs decls subs IH] using umodel_ind'. intros p A. constructor.
    - intros i Hi. apply L. apply in_app_iff in Hi. destruct Hi as [Hi|Hi]; [|apply in_app_iff in Hi; destruct Hi as [Hi|Hi]].
      + eapply (@kind_var h i KInput), in_object; eassumption.
      + eapply (@kind_var h i KOutput), out_object; eassumption.
      + eapply (@kind_var h i KDeclared), decl_object; eassumption.
    - destruct (f_names WF _ _ _ _ _ A) as [N1 N2]. split.
      + intros a b n Pa Pb Na Nb Va. rewrite <- (N1 a b n Pa Pb Na Nb). exact Va.
      + intros a n Pa Va Na Hn. exfalso. exact (N2 a n Pa Na Hn).
    - intros s sm Hs. rewrite Forall_forall in IH. apply (IH _ Hs (p ++ [s])). cbn [snd]. clear -A Hs.
      revert sm s Hs. remember (UM ins outs decls subs) as m' eqn:E. induction A as [m0|i o d sb nm sm0 q m0 Hn A IHA]; intros sm s Hs; subst.
      + cbn. econstructor; [exact Hs|constructor].
      + cbn. econstructor; [exact Hn|]. apply IHA; [reflexivity|exact Hs]. }
  apply (G um []). constructor.
Qed.

Section Acyclic.
  Context (h : list obj) (shp : nat -> shape) (dflt : nat -> bool) (um : umodel) (m : model) (c : compiled).
  Hypothesis (WF : well_formed h um m shp) (TI : inputs_not_targets h um m).
  Context (r : rp) (u : ugraph) (g g1 : digraph irnode).
  Hypothesis (R : resolve m None = Ok r) (B : built h um u).
  Hypothesis (F : flatten h (rp_p2u r) (create_reverse_map (rp_p2u r)) u = Ok (g, c_log c)).
  Local Notation attr := (node_attr h shp dflt (c_log c)).
  Hypothesis (MC : merge_connections irnode_eqb attr g1 (collect_connections m "") (rp_p2u r) (create_reverse_map (rp_p2u r))
    = Ok (c_graph c, c_p2n c, c_u2n c, c_conns c)).
  Context (rep1 : irnode -> irnode).
  Hypothesis (H1 : rep1_ok h shp dflt um m c g g1 rep1).
  Context (rep2 : irnode -> irnode).
  Hypothesis (H2 : rep2_ok c g1 rep2).
  Local Notation occ := (occurs h um).
  Local Notation call := (called h um m).
  Context (rank : list string -> nat -> nat).
  Hypothesis (K : ranking h um m rank).

  Definition nrank (x : irnode) : nat := match x with NObj p o => rank p o | NModel _ _ => 0 end.

  Lemma rank_rep p o : occ p o -> nrank (rep rep1 rep2 (NObj p o)) = rank p o.
  Proof.
    intros Ho.
    assert (D : operation h o \/ variable h o \/ ~ declared_object h o).
    { destruct (nth_error h o) as [ob|] eqn:E; [|right; right; intros (ob & E' & _); congruence]. destruct (is_op ob) eqn:O; [left|right; left]; exists ob; auto. }
    destruct D as [O|[V|ND]].
    - erewrite rep_op; try eassumption. reflexivity.
    - destruct (@var_kind h shp um m WF p o Ho V) as [[_ ND]|(k & pn & Hc)]; [erewrite rep_fix; try eassumption; reflexivity|].
      pose proof H1 as (_ & _ & _ & _ & RC & _). destruct (RC p k o pn Ho Hc) as (p1 & k1 & o1 & E1 & Ho1 & Hc1 & Fx1).
      rewrite (k_promoted _ _ _ _ K p k o p1 k1 o1 pn Ho Ho1 Hc Hc1). unfold rep. rewrite E1. erewrite rep2_cget; try eassumption.
      destruct (cget irnode_eqb (c_conns c) (NObj p1 o1)) as [s|] eqn:Cg; [|reflexivity].
      eapply cget_spec in Cg; try eassumption. edestruct conn_in as (p0 & a & b & Hd & Ds & Dt); try exact Cg; try eassumption.
      edestruct denotes_called as (ps & os & ks & pns & vs & Es & Hos & Hcs & _ & Rs & _); try exact Ds; try eassumption.
      edestruct denotes_called as (pt & ot & kt & pnt & vt & Et & Hot & Hct & _ & Rt & _); try exact Dt; try eassumption. injection Et as <- <-. subst s. cbn.
      eapply (k_connected _ _ _ _ K); [exact Hd|exact Rs|exact Rt|exact Hos|exact Hot|exact Hcs|exact Hct].
    - erewrite rep_fix; try eassumption. reflexivity.
  Qed.
  Lemma rank_edge a b : edge (c_graph c) a b -> nrank a < nrank b.
  Proof.
    intros He. eapply Q12 in He; try eassumption. destruct He as (a' & b' & He & <- & <-). eapply flat_edge in He; try eassumption.
    destruct He as (p & x & y & -> & -> & Hf & ins & outs & decls & subs & A & Hx & Hy).
    assert (Ox : occ p x) by (exists ins, outs, decls, subs; auto). assert (Oy : occ p y) by (exists ins, outs, decls, subs; auto).
    rewrite (rank_rep p x Ox), (rank_rep p y Oy). destruct (f_alternates WF x y Hf) as [[Vx O]|[O Vy]].
    - apply (k_argument _ _ _ _ K p y x Oy O). eapply reads_flows_op; eassumption.
    - apply (k_result _ _ _ _ K p x y Ox). eapply flows_into_var; eassumption.
  Qed.
  Lemma acyclic : ~ has_cycle (c_graph c).
  Proof.
    assert (G : forall a b, clos_trans irnode (edge (c_graph c)) a b -> nrank a < nrank b).
    { intros a b H. induction H as [a b He|a b d _ IH1 _ IH2]; [apply rank_edge, He|lia]. }
    intros (v & Hv). apply G in Hv. lia.
  Qed.
  Lemma sorted_exists : exists l, flat_sorted_nodes irnode_eqb (c_graph c) = Ok l.
  Proof. apply (proj1 (@sort_iff _ irnode_eqb irnode_eqb_spec (c_graph c) (proj1 H2))). exact acyclic. Qed.
End Acyclic.

(** The graph passes succeed, in whatever order the sets are visited. *)
Lemma passes_accept h shp dflt um m r u rank : well_formed h um m shp -> resolve m None = Ok r -> built h um u ->
  (forall p a b, declared_conn m p a b -> connection_ok h shp um m p a b) -> targets_distinct m -> ranking h um m rank ->
  exists g log, flatten h (rp_p2u r) (create_reverse_map (rp_p2u r)) u = Ok (g, log) /\
    (exists g1, merge_auto irnode_eqb (node_attr h shp dflt log) g = Ok g1) /\
    wf g /\ no_var_var_edge (node_attr h shp dflt log) g /\
    forall g1, merge_auto_any irnode_eqb (node_attr h shp dflt log) g g1 ->
    exists g2 p2n u2n conns order,
      merge_connections irnode_eqb (node_attr h shp dflt log) g1 (collect_connections m "") (rp_p2u r) (create_reverse_map (rp_p2u r)) = Ok (g2, p2n, u2n, conns) /\
      flat_sorted_nodes irnode_eqb g2 = Ok order.
Proof.
  intros WF R B AC AT K. pose proof (f_named WF) as W.
  assert (MO : exists mp, maps_of m = Ok mp) by (unfold maps_of; rewrite R; cbn [bind]; eauto). destruct MO as (mp & MO).
  pose proof (acceptable_targets h shp um m mp W MO AC) as TI.
  destruct (@end_to_end h shp dflt um m r u (f_hierarchy WF) W R (f_inputs WF) B (f_uses_own WF) (f_chosen WF) (f_alternates WF) (f_op_names WF))
    as (g & log & g0 & _ & F & M & _).
  exists g, log. split; [exact F|]. split; [eauto|].
  split; [apply (@flatten_spec _ _ _ _ _ _ (built_ug_ok (f_inputs WF) B) F)|].
  split; [exact (@flat_no_var_var h shp dflt um m r u (f_hierarchy WF) W (f_inputs WF) B g log F (f_alternates WF) (f_op_names WF))|].
  intros g1 M1. set (c0 := Compiled [] [] [] [] None [] log empty_graph [] [] [] []).
  destruct (@rep1_exists h shp dflt um m c0 WF r u g g1 R B F M1) as (rep1 & H1).
  destruct (@merge_accepted h shp dflt um m c0 WF r u g g1 R B F rep1 H1 AC AT) as (g2 & p2n & u2n & conns & MC).
  set (c1 := Compiled [] [] [] [] None [] log g2 p2n u2n conns []).
  assert (H1' : rep1_ok h shp dflt um m c1 g g1 rep1) by exact H1.
  destruct (@rep2_exists h shp dflt um m c1 WF TI r u g g1 R B F MC rep1 H1') as (rep2 & H2).
  destruct (@sorted_exists h shp dflt um m c1 WF TI r u g g1 R B F MC rep1 H1' rep2 H2 rank K) as (l & S).
  exists g2, p2n, u2n, conns, l. split; [exact MC|exact S].
Qed.

Theorem acceptable_compiles h shp dflt um m : well_formed h um m shp -> acceptable h shp um m -> exists c, compile h shp dflt um m = Ok c.
Proof.
  intros WF [US SA VP AC AT AD ACs AO (rank & K)]. pose proof (f_named WF) as W.
  destruct (resolve_complete m None W US SA VP) as (r & R).
  assert (MO : exists mp, maps_of m = Ok mp) by (unfold maps_of; rewrite R; cbn [bind]; eauto). destruct MO as (mp & MO).
  destruct (proj2 (connections_accepted m mp W MO)) as (cs & CS).
  { intros p a b Hd. destruct (AC _ _ _ Hd) as (pa & pb & Ra & Rb & _). eauto. }
  destruct (proj2 (opt_accepted m_dvs m mp W MO) AD) as (dvs & DV). destruct (proj2 (opt_accepted m_cons m mp W MO) ACs) as (csts & CT).
  destruct (objective_accepted m mp W MO AO) as (ob & OB).
  destruct (@construct_all_ok h (f_no_dangling WF) um (well_formed_buildable _ _ _ _ WF) []) as (u & B).
  destruct (passes_accept h shp dflt um m r u rank WF R (built_self _ _ B) AC AT K) as (g & log & F & (g1 & M) & _ & _ & P).
  destruct (P g1 (@merge_auto_any_self _ _ _ _ _ M)) as (g2 & p2n & u2n & conns & l & MC & S).
  unfold compile. rewrite R. cbn [bind]. cbv zeta. rewrite CS. cbn [bind]. unfold rep_design_variables, rep_constraints. rewrite MO. cbn [bind].
  rewrite DV. cbn [bind]. rewrite OB. cbn [bind]. rewrite CT. cbn [bind]. rewrite B. cbn [bind]. rewrite F. cbn [bind fst snd]. rewrite M. cbn [bind].
  rewrite MC. cbn [bind]. rewrite S. cbn [bind]. eauto.
Qed.
