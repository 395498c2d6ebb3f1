(** Dependence of values (DependSpec) in a compiled model. *)
From Verif Require Import PyBase NamesModel PromotionsModel PromotionsSpec PromotionsProofs HierModel HierSpec Digraph TopoModel TopoSpec FlatModel ExprModel UnflatModel UnflatSpec UnflatProofs2
  FlattenModel FlattenSpec CompileModel CompileSpec CompileProofs CompileProofs2 CompileProofs3 IterModel IterSpec IterProofs LookupModel LookupProofs DependSpec.
From Coq Require Import Relation_Operators Operators_Properties.

Section D.
  Context (it : iteration) (h : list obj) (shp : nat -> shape) (dflt : nat -> bool) (um : umodel) (m : model) (c : compiled).
  Context (L : lawful it) (WF : well_formed h um m shp) (TI : inputs_not_targets h um m) (H : compile_in it h shp dflt um m = Ok c).
  Local Notation occ := (occurs h um). Local Notation call := (called h um m).
  Local Notation nod := (node_of h c).

  Lemma d_share (C : list string -> nat -> Prop) :
    (forall p k o p' k' o' pn, occ p o -> occ p' o' -> call p k o pn -> call p' k' o' pn -> C p o -> C p' o') ->
    (forall p0 a b pa pb p k o p' k' o', declared_conn m p0 a b -> resolves_to m (dotted p0 a) pa -> resolves_to m (dotted p0 b) pb ->
       occ p o -> occ p' o' -> call p k o pa -> call p' k' o' pb -> C p o -> C p' o') ->
    forall p o p' o', occ p o -> variable h o -> nod p o = NObj p' o' -> C p' o' -> C p o.
  Proof.
    destruct (@compile_in_compiles _ _ _ _ _ _ _ L H) as (c0 & (r & u & g & g1 & R & B & _ & _ & F & M & MC & SO & _) & S).
    destruct (@rep1_exists h shp dflt um m c0 WF r u g g1 R B F M) as (rep1 & H1).
    destruct (@rep2_exists h shp dflt um m c0 WF TI r u g g1 R B F MC rep1 H1) as (rep2 & H2).
    intros S2 S3 p o p' o' Ho Vo E. rewrite <- (node_of_same h p o S) in E. eapply share_ind; eassumption.
  Qed.
  Lemma d_kept p o : occ p o -> variable h o -> exists p' o', nod p o = NObj p' o' /\ occ p' o' /\ variable h o' /\ nod p' o' = NObj p' o' /\
    ((exists pn, call p' KInput o' pn) \/ (exists a, occ p' a /\ writes h a o') \/ (exists pn, call p' KDeclared o' pn /\ unsupplied h um m pn)).
  Proof.
    destruct (@compile_in_compiles _ _ _ _ _ _ _ L H) as (c0 & (r & u & g & g1 & R & B & _ & _ & F & M & MC & SO & _) & S).
    destruct (@rep1_exists h shp dflt um m c0 WF r u g g1 R B F M) as (rep1 & H1).
    destruct (@rep2_exists h shp dflt um m c0 WF TI r u g g1 R B F MC rep1 H1) as (rep2 & H2).
    intros Ho Vo. edestruct kept_variable as (p' & o' & E & Ho' & V' & F' & K); try exact Ho; try exact Vo; try eassumption.
    exists p', o'. rewrite <- (node_of_same h p o S), <- (node_of_same h p' o' S). auto.
  Qed.
  Lemma d_grounded (C : list string -> nat -> Prop) :
    (forall p o pn, occ p o -> call p KInput o pn -> C p o) ->
    (forall p o pn, occ p o -> call p KDeclared o pn -> unsupplied h um m pn -> C p o) ->
    (forall p a v, occ p a -> operation h a -> writes h a v -> (forall d, reads h a d -> occ p d -> C p d) -> C p v) ->
    (forall p k o p' k' o' pn, occ p o -> occ p' o' -> call p k o pn -> call p' k' o' pn -> C p o -> C p' o') ->
    (forall p0 a b pa pb p k o p' k' o', declared_conn m p0 a b -> resolves_to m (dotted p0 a) pa -> resolves_to m (dotted p0 b) pb ->
       occ p o -> occ p' o' -> call p k o pa -> call p' k' o' pb -> C p o -> C p' o') ->
    forall p o, occ p o -> variable h o -> C p o.
  Proof.
    destruct (@compile_in_compiles _ _ _ _ _ _ _ L H) as (c0 & (r & u & g & g1 & R & B & _ & _ & F & M & MC & SO & _) & S).
    destruct (@rep1_exists h shp dflt um m c0 WF r u g g1 R B F M) as (rep1 & H1).
    destruct (@rep2_exists h shp dflt um m c0 WF TI r u g g1 R B F MC rep1 H1) as (rep2 & H2).
    intros K1 K2 K3 K4 K5 p o Ho Vo. eapply grounded; eassumption.
  Qed.
  Lemma d_edge a b : edge (c_graph c) a b ->
    (exists p o v, occ p o /\ writes h o v /\ occ p v /\ a = NObj p o /\ b = nod p v) \/
    (exists p o d, occ p o /\ operation h o /\ reads h o d /\ occ p d /\ variable h d /\ b = NObj p o /\ a = nod p d).
  Proof.
    destruct (@compile_in_compiles _ _ _ _ _ _ _ L H) as (c0 & (r & u & g & g1 & R & B & _ & _ & F & M & MC & SO & _) & S).
    destruct (@rep1_exists h shp dflt um m c0 WF r u g g1 R B F M) as (rep1 & H1).
    destruct (@rep2_exists h shp dflt um m c0 WF TI r u g g1 R B F MC rep1 H1) as (rep2 & H2).
    rewrite <- (sp_graph S). intros He. edestruct edge_cases as [(p & o & v & A1 & A2 & A3 & A4 & A5)|(p & o & d & A1 & A2 & A3 & A4 & A5 & A6 & A7)]; try exact He; try eassumption.
    - left. exists p, o, v. rewrite <- (node_of_same h p v S). auto.
    - right. exists p, o, d. rewrite <- (node_of_same h p d S). auto 10.
  Qed.
  Lemma d_order : (forall x, node (c_graph c) x -> exists p o, x = NObj p o /\ occ p o) /\
    (forall p o, occ p o -> operation h o -> node (c_graph c) (NObj p o)) /\
    (forall p o d, occ p o -> operation h o -> reads h o d -> edge (c_graph c) (nod p d) (NObj p o)) /\
    (forall p o v, occ p o -> writes h o v -> edge (c_graph c) (NObj p o) (nod p v)).
  Proof.
    destruct (@compile_in_compiles _ _ _ _ _ _ _ L H) as (c0 & K & S). destruct (compiles_order _ _ _ _ _ _ WF TI K) as (_ & O1 & O2 & O3 & _ & O5 & O6 & _).
    rewrite <- (sp_graph S). split; [|split; [|split]].
    - intros x Hx. apply O2, O1, Hx.
    - intros p o Ho O. apply O1, O3; assumption.
    - intros p o d Ho O Hr. rewrite <- (node_of_same h p d S). apply O5; eauto.
    - intros p o v Ho Hw. rewrite <- (node_of_same h p v S). apply O6; [exact Ho| |eauto]. destruct Hw as (ob & E & Op & _). exists ob. auto.
  Qed.
  Lemma d_same_name p k o p' k' o' n : occ p o -> occ p' o' -> call p k o n -> call p' k' o' n -> nod p o = nod p' o'.
  Proof.
    intros Ho Ho' Hc Hc'. pose proof (proj2 (node_under_iff it h shp dflt um m c L WF TI H n (nod p o))) as A. pose proof (proj2 (node_under_iff it h shp dflt um m c L WF TI H n (nod p' o'))) as B.
    rewrite A in B by eauto 6. assert (X : Some (nod p o) = Some (nod p' o')) by (apply B; eauto 6). congruence.
  Qed.
  Lemma d_connected p0 a b pa pb p k o p' k' o' : declared_conn m p0 a b -> resolves_to m (dotted p0 a) pa -> resolves_to m (dotted p0 b) pb ->
    occ p o -> occ p' o' -> call p k o pa -> call p' k' o' pb -> nod p' o' = nod p o.
  Proof.
    intros Hd Ra Rb Ho Ho' Hc Hc'. destruct (@compile_in_compiles _ _ _ _ _ _ _ L H) as (c0 & K & S). rewrite <- (node_of_same h p o S), <- (node_of_same h p' o' S).
    destruct K as (r & u & g & g1 & R & B & _ & _ & F & M & MC & SO & _).
    destruct (@rep1_exists h shp dflt um m c0 WF r u g g1 R B F M) as (rep1 & H1).
    destruct (@rep2_exists h shp dflt um m c0 WF TI r u g g1 R B F MC rep1 H1) as (rep2 & H2).
    edestruct conn_of as (t & s & Hi & Ds & Dt); try exact Hd; try eassumption.
    assert (E1 : node_of h c0 p o = rep rep1 rep2 (NObj p o)) by (eapply node_of_rep; try eassumption; eapply called_var; eassumption).
    assert (E2 : node_of h c0 p' o' = rep rep1 rep2 (NObj p' o')) by (eapply node_of_rep; try eassumption; eapply called_var; eassumption).
    rewrite E1, E2. unfold rep. assert (E3 : rep1 (NObj p o) = s) by (eapply same_rep1; try exact Ho; try exact Hc; try exact Ra; try exact Ds; eassumption).
    assert (E4 : rep1 (NObj p' o') = t) by (eapply same_rep1; try exact Ho'; try exact Hc'; try exact Rb; try exact Dt; eassumption).
    rewrite E3, E4. destruct H2 as (_ & _ & C2 & _). destruct (C2 _ _ Hi) as (-> & -> & _). reflexivity.
  Qed.
  Lemma input_occ p o pn : call p KInput o pn -> occ p o.
  Proof. intros (x & q & (_ & ins & outs & decls & subs & A & Hi) & _). exists ins, outs, decls, subs. auto. Qed.

  Lemma needed_arg p a d : occ p a -> operation h a -> reads h a d -> occ p d.
  Proof.
    intros Ho O Hr. destruct (op_needed h shp um m WF p a Ho O) as (ins & outs & decls & subs & A & Hn). exists ins, outs, decls, subs. split; [exact A|]. right. eapply needed_dep; eassumption.
  Qed.
  (** ** Paths *)
  Definition leafn (x : irnode) : Prop := node (c_graph c) x /\ forall y, ~ edge (c_graph c) y x.
  Local Notation reach := (clos_refl_trans irnode (edge (c_graph c))).
  Lemma not_written_leaf p o : occ p o -> variable h o -> nod p o = NObj p o -> (forall a, ~ writes h a o) -> leafn (NObj p o).
  Proof.
    intros Ho Vo E NW. split; [rewrite <- E; apply (node_of_in_graph it h shp dflt um m c L WF TI H); assumption|].
    intros y He. apply d_edge in He. destruct He as [(p' & a & v & Ha & Hw & Hv & -> & E')|(p' & a & d & _ & O & _ & _ & _ & E' & _)].
    - assert (K : nod p' v = NObj p' v).
      { eapply node_of_source; try eassumption; [apply out_var, (f_outputs WF _ _ Hw)|]. intros D. pose proof (f_outputs WF _ _ Hw) as K.
        pose proof (kinds_excl h v KOutput KDeclared K D). discriminate. }
      rewrite K in E'. injection E' as <- <-. exact (NW a Hw).
    - injection E' as <- <-. exact (op_not_var h o O Vo).
  Qed.
  Lemma depends_occurs p o pn : depends h um m p o pn -> occ p o /\ variable h o.
  Proof.
    intros D. destruct D as [p o pn Hc|p o pn Ho Hc _|p o d v pn Ho _ Hw _|p k o p' k' o' n pn _ Ho _ Hc _|p0 a b pa pb p k o p' k' o' pn _ _ _ _ Ho _ Hc _].
    - split; [eapply input_occ; eassumption|eapply called_var; eassumption].
    - split; [exact Ho|eapply called_var; eassumption].
    - destruct (@compile_in_compiles _ _ _ _ _ _ _ L H) as (c0 & (r & u & g & g1 & R & B & _ & _ & F & M & MC & SO & _) & S).
      split; [eapply res_edge; eassumption|apply out_var, (f_outputs WF _ _ Hw)].
    - split; [exact Ho|eapply called_var; eassumption].
    - split; [exact Ho|eapply called_var; eassumption].
  Qed.
  Lemma depends_reach p o pn : depends h um m p o pn -> exists p1 k1 o1, leafn (NObj p1 o1) /\ call p1 k1 o1 pn /\ reach (NObj p1 o1) (nod p o).
  Proof.
    intros D. induction D as [p o pn Hc|p o pn Ho Hc U|p o d v pn Ho Hr Hw D IH|p k o p' k' o' n pn Ho Ho' Hc Hc' D IH|p0 a b pa pb p k o p' k' o' pn Hd Ra Rb Ho Ho' Hc Hc' D IH].
    - assert (Ho : occ p o) by (eapply input_occ; eassumption). assert (Vo : variable h o) by (eapply called_var; eassumption).
      assert (E : nod p o = NObj p o) by (eapply node_of_source; try eassumption; eapply (not_declared h shp um m WF KInput); [discriminate|exact Hc]).
      exists p, KInput, o. split; [|split; [exact Hc|rewrite E; apply rt_refl]]. apply not_written_leaf; [exact Ho|exact Vo|exact E|].
      intros a Hw. pose proof (f_outputs WF _ _ Hw) as K. pose proof (kinds_excl h o KOutput KInput K (called_kind h shp um m WF _ _ _ _ Hc)). discriminate.
    - destruct (@compile_in_compiles _ _ _ _ _ _ _ L H) as (c0 & K & S). destruct U as [U1 U2].
      destruct (compiles_kept _ _ _ _ _ _ _ _ _ WF TI K Ho Hc) as (p' & o' & E & Ho' & Hc' & _); [intros p' k' o' _; apply U1|exact U2|].
      rewrite (node_of_same h p o S) in E. exists p', KDeclared, o'. split; [|split; [exact Hc'|rewrite E; apply rt_refl]].
      apply not_written_leaf; [exact Ho'|eapply called_var; eassumption|rewrite <- E; eapply d_same_name; eassumption|].
      intros a Hw. pose proof (f_outputs WF _ _ Hw) as K'. pose proof (kinds_excl h o' KOutput KDeclared K' (called_kind h shp um m WF _ _ _ _ Hc')). discriminate.
    - destruct IH as (p1 & k1 & o1 & A & B & C). exists p1, k1, o1. split; [exact A|]. split; [exact B|]. destruct d_order as (_ & _ & O3 & O4).
      assert (O : operation h o) by (destruct Hw as (ob & E & Op & _); exists ob; auto).
      apply rt_trans with (y := nod p d); [exact C|]. apply rt_trans with (y := NObj p o); apply rt_step; [apply O3|apply O4]; assumption.
    - rewrite <- (d_same_name p k o p' k' o' n); assumption.
    - rewrite (d_connected p0 a b pa pb p k o p' k' o'); assumption.
  Qed.
  Lemma depends_share p o p' o' pn : occ p o -> variable h o -> nod p o = NObj p' o' -> depends h um m p' o' pn -> depends h um m p o pn.
  Proof.
    intros Ho Vo E. apply (d_share (fun p o => depends h um m p o pn)) with (p' := p') (o' := o'); [| |exact Ho|exact Vo|exact E].
    - intros p1 k1 o1 p2 k2 o2 n H1 H2 H3 H4. exact (dep_promoted _ _ _ p1 k1 o1 p2 k2 o2 n pn H1 H2 H3 H4).
    - intros p0 a b pa pb p1 k1 o1 p2 k2 o2 H1 H2 H3 H4 H5 H6 H7. exact (dep_connected _ _ _ p0 a b pa pb p1 k1 o1 p2 k2 o2 pn H1 H2 H3 H4 H5 H6 H7).
  Qed.
  Lemma reach_depends p1 k1 o1 pn : leafn (NObj p1 o1) -> call p1 k1 o1 pn -> forall y, reach (NObj p1 o1) y ->
    (forall p o, occ p o -> variable h o -> nod p o = y -> depends h um m p o pn) /\
    (forall p a v, y = NObj p a -> occ p a -> writes h a v -> depends h um m p v pn).
  Proof.
    intros [Hn Hl] Hc y Hr. apply clos_rt_rtn1 in Hr. induction Hr as [|z y He Hr [IH1 IH2]].
    - assert (Vo : variable h o1) by (eapply called_var; eassumption). destruct d_order as (D1 & _ & _ & D4). destruct (D1 _ Hn) as (p' & o' & E & Ho). injection E as <- <-.
      split; [|intros p a v E _ Hw; injection E as <- <-; exfalso; apply (op_not_var h o1); [destruct Hw as (ob & E & Op & _); exists ob; auto|exact Vo]].
      intros p o Hop Vop E. apply (depends_share p o p1 o1 pn Hop Vop E). destruct (d_kept p o Hop Vop) as (p' & o' & E' & _ & _ & _ & K).
      rewrite E in E'. injection E' as <- <-. destruct K as [(pn' & Hc')|[(a & Ha & Hw)|(pn' & Hc' & U)]].
      + pose proof (kinds_excl h o1 k1 KInput (called_kind h shp um m WF _ _ _ _ Hc) (called_kind h shp um m WF _ _ _ _ Hc')) as ->. apply dep_input, Hc.
      + exfalso. apply (Hl (NObj p1 a)). pose proof (D4 p1 a o1 Ha Hw) as He. rewrite (node_of_source it h shp dflt um m c p1 o1) in He; try assumption.
        intros D. pose proof (kinds_excl h o1 KOutput KDeclared (f_outputs WF _ _ Hw) D). discriminate.
      + pose proof (kinds_excl h o1 k1 KDeclared (called_kind h shp um m WF _ _ _ _ Hc) (called_kind h shp um m WF _ _ _ _ Hc')) as ->.
        apply dep_free; [exact Ho|exact Hc|]. assert (pn' = pn) as <-; [|exact U].
        destruct Hc as (x & q & Hm & Hq & ->), Hc' as (x' & q' & Hm' & Hq' & ->). pose proof Hm as (Nx & _). pose proof Hm' as (Nx' & _).
        pose proof (named_fun Nx Nx') as <-. rewrite (promoted_ns_fun _ _ _ _ _ (f_named WF) Hq Hq'). reflexivity.
    - apply d_edge in He. destruct He as [(p & a & v & Ha & Hw & Hv & -> & ->)|(p & a & d & Ha & O & Hrd & Hd & Vd & -> & ->)].
      + assert (Vv : variable h v) by apply out_var, (f_outputs WF _ _ Hw).
        assert (K : nod p v = NObj p v).
        { eapply node_of_source; try eassumption. intros D. pose proof (kinds_excl h v KOutput KDeclared (f_outputs WF _ _ Hw) D). discriminate. }
        pose proof (IH2 p a v eq_refl Ha Hw) as D. rewrite K. split.
        * intros p' o' Ho' Vo' E. exact (depends_share p' o' p v pn Ho' Vo' E D).
        * intros p' a' v' E _ Hw'. injection E as <- <-. exfalso. apply (op_not_var h v); [destruct Hw' as (ob & E & Op & _); exists ob; auto|exact Vv].
      + pose proof (IH1 p d Hd Vd eq_refl) as D. split.
        * intros p' o' Ho' Vo' E. exfalso. destruct (d_kept p' o' Ho' Vo') as (p2 & o2 & E2 & _ & V2 & _). rewrite E in E2. injection E2 as <- <-. exact (op_not_var h a O V2).
        * intros p' a' v E _ Hw. injection E as <- <-. exact (dep_operation h um m p a d v pn Ha Hrd Hw D).
  Qed.

  (** ** Values *)
  Lemma depends_agree {V} (apply : nat -> list V -> nat -> V) init init' val val' : solves h um m apply init val -> solves h um m apply init' val' ->
    forall p o, occ p o -> variable h o -> (forall pn, depends h um m p o pn -> init pn = init' pn) -> val p o = val' p o.
  Proof.
    intros [S1 S2 S3 S4 S5] [T1 T2 T3 T4 T5]. apply (d_grounded (fun p o => (forall pn, depends h um m p o pn -> init pn = init' pn) -> val p o = val' p o)).
    - intros p o pn Ho Hc A. rewrite (S4 _ _ _ Hc), (T4 _ _ _ Hc). apply A, dep_input, Hc.
    - intros p o pn Ho Hc [U1 U2] A. rewrite (S5 p o pn), (T5 p o pn) by assumption. apply A, dep_free; [assumption..|split; assumption].
    - intros p a v Ha O Hw IH A. pose proof Hw as (ob & E & Oo & Hv). apply In_nth_error in Hv. destruct Hv as (k & Hk).
      rewrite (S1 p a ob k v Ha E Oo Hk), (T1 p a ob k v Ha E Oo Hk). f_equal. apply map_ext_in. intros d Hd. assert (Hr : reads h a d) by (exists ob; auto).
      apply (IH d Hr); [eapply needed_arg; eassumption|]. intros pn D. apply A. exact (dep_operation h um m p a d v pn Ha Hr Hw D).
    - intros p k o p' k' o' pn Ho Ho' Hc Hc' IH A. rewrite <- (S2 p k o p' k' o' pn), <- (T2 p k o p' k' o' pn) by assumption. apply IH. intros n D. apply A. eapply dep_promoted; [| |exact Hc|exact Hc'|]; assumption.
    - intros p0 a b pa pb p k o p' k' o' Hd Ra Rb Ho Ho' Hc Hc' IH A. rewrite (S3 p0 a b pa pb p k o p' k' o'), (T3 p0 a b pa pb p k o p' k' o') by assumption.
      apply IH. intros n D. apply A. eapply dep_connected; [exact Hd|exact Ra|exact Rb| | |exact Hc|exact Hc'|]; assumption.
  Qed.
  (** Marking the value supplied for [pn] and passing marks on. *)
  Definition mark_op (_ : nat) (args : list bool) (_ : nat) : bool := existsb (fun b => b) args.
  Lemma mark_exact pn val : solves h um m mark_op (String.eqb pn) val -> forall p o, occ p o -> variable h o -> (val p o = true <-> depends h um m p o pn).
  Proof.
    intros [S1 S2 S3 S4 S5] p o Ho Vo. split.
    - revert p o Ho Vo. apply (d_grounded (fun p o => val p o = true -> depends h um m p o pn)).
      + intros p o n Ho Hc. rewrite (S4 _ _ _ Hc). intros E. apply String.eqb_eq in E. subst n. apply dep_input, Hc.
      + intros p o n Ho Hc U. rewrite (S5 p o n) by (assumption || apply U). intros E. apply String.eqb_eq in E. subst n. apply dep_free; assumption.
      + intros p a v Ha O Hw IH. pose proof Hw as (ob & E & Oo & Hv). apply In_nth_error in Hv. destruct Hv as (k & Hk). rewrite (S1 p a ob k v Ha E Oo Hk). unfold mark_op.
        intros X. apply existsb_exists in X. destruct X as (x & Hx & ->). apply in_map_iff in Hx. destruct Hx as (d & Ed & Hd). assert (Hr : reads h a d) by (exists ob; auto).
        eapply dep_operation; [exact Ha|exact Hr|exact Hw|]. apply (IH d Hr); [eapply needed_arg; eassumption|exact Ed].
      + intros p k o p' k' o' n Ho Ho' Hc Hc' IH. rewrite <- (S2 p k o p' k' o' n) by assumption. intros E. eapply dep_promoted; [exact Ho|exact Ho'|exact Hc|exact Hc'|auto].
      + intros p0 a b pa pb p k o p' k' o' Hd Ra Rb Ho Ho' Hc Hc' IH. rewrite (S3 p0 a b pa pb p k o p' k' o') by assumption. intros E. eapply dep_connected; [exact Hd|exact Ra|exact Rb|exact Ho|exact Ho'|exact Hc|exact Hc'|auto].
    - intros D. clear Ho Vo. induction D as [p o pn Hc|p o pn Ho Hc U|p o d v pn Ho Hr Hw D IH|p k o p' k' o' n pn Ho Ho' Hc Hc' D IH|p0 a b pa pb p k o p' k' o' pn Hd Ra Rb Ho Ho' Hc Hc' D IH].
      + rewrite (S4 _ _ _ Hc). apply String.eqb_refl.
      + rewrite (S5 p o pn) by (assumption || apply U). apply String.eqb_refl.
      + pose proof Hw as (ob & E & Oo & Hv). apply In_nth_error in Hv. destruct Hv as (k & Hk). rewrite (S1 p o ob k v Ho E Oo Hk). apply existsb_exists. exists true. split; [|reflexivity].
        rewrite <- IH by assumption. apply in_map. destruct Hr as (ob' & E' & Hr). congruence.
      + rewrite <- (S2 p k o p' k' o' n) by assumption. apply IH; assumption.
      + rewrite (S3 p0 a b pa pb p k o p' k' o') by assumption. apply IH; assumption.
  Qed.
End D.
