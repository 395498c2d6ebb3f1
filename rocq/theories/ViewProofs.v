(** Queries on a compiled model. *)
From Verif Require Import PyBase NamesModel PromotionsModel PromotionsSpec PromotionsProofs HierModel HierSpec Digraph TopoModel TopoSpec FlatModel ExprModel UnflatModel UnflatSpec UnflatProofs UnflatProofs2
  FlattenModel FlattenSpec CompileModel CompileSpec ExecProofs CompileProofs CompileProofs2 CompileProofs3 IterModel IterSpec IterProofs LookupModel LookupProofs DependSpec DependProofs.
From Verif Require QueryModel QuerySpec.
From Verif Require Import ViewModel.
From Coq Require Import Relation_Operators Operators_Properties.

Section Numbers.
  Context (h : list obj) (shp : nat -> list nat) (dflt : nat -> bool) (c : compiled).
  Context (W : wf (c_graph c)).
  Local Notation g := (c_graph c).
  Local Notation num := (number c).
  Local Notation vw := (view h shp dflt c).
  Lemma num_inj x y : node g x -> node g y -> num x = num y -> x = y.
  Proof.
    intros Hx Hy. unfold number. destruct (position x (g_nodes g)) as [k|] eqn:Ex; [|apply position_none in Ex; contradiction].
    destruct (position y (g_nodes g)) as [k'|] eqn:Ey; [|apply position_none in Ey; contradiction]. intros ->. apply position_nth in Ex, Ey. congruence.
  Qed.
  Lemma view_nodes n : node (QueryModel.graph vw) n <-> exists x, node g x /\ n = num x.
  Proof.
    unfold node, QueryModel.graph. cbn. rewrite map_map. cbn. rewrite in_map_iff. split; intros (x & A & B); exists x; auto.
  Qed.
  Lemma view_edges a b : edge (QueryModel.graph vw) a b <-> exists x y, edge g x y /\ a = num x /\ b = num y.
  Proof.
    unfold edge, QueryModel.graph. cbn. rewrite in_map_iff. split.
    - intros ([x y] & E & Hi). cbn in E. injection E as <- <-. eauto.
    - intros (x & y & Hi & -> & ->). exists (x, y). auto.
  Qed.
  Lemma view_edge x y : node g x -> node g y -> (edge (QueryModel.graph vw) (num x) (num y) <-> edge g x y).
  Proof.
    intros Hx Hy. rewrite view_edges. split; [|eauto]. intros (x' & y' & He & E1 & E2). pose proof (wf_ends _ W _ _ He) as [Nx Ny].
    apply num_inj in E1; [|assumption..]. apply num_inj in E2; [|assumption..]. congruence.
  Qed.
  Lemma NoDup_map_in {A B} (f : A -> B) l : (forall x y, In x l -> In y l -> f x = f y -> x = y) -> NoDup l -> NoDup (map f l).
  Proof.
    intros I N. induction N as [|a l Ha N IH]; [constructor|]. cbn. constructor.
    - intros Hi. apply in_map_iff in Hi. destruct Hi as (y & E & Hy). apply Ha. rewrite <- (I y a); [exact Hy|right; exact Hy|left; reflexivity|exact E].
    - apply IH. intros x y Hx Hy. apply I; right; assumption.
  Qed.
  Lemma view_wf : QuerySpec.well_formed vw.
  Proof.
    split.
    - intros a b He. apply view_edges in He. destruct He as (x & y & He & -> & ->). pose proof (wf_ends _ W _ _ He) as [Nx Ny]. split; apply view_nodes; eauto.
    - unfold QueryModel.graph. cbn. rewrite map_map. cbn. apply NoDup_map_in; [intros x y; apply num_inj|apply (wf_nodes _ W)].
    - unfold QueryModel.graph. cbn. apply NoDup_map_in; [|apply (wf_edges _ W)]. intros [x y] [x' y'] H1 H2 E. cbn in E. injection E as E1 E2.
      pose proof (wf_ends _ W _ _ H1) as [N1 N2]. pose proof (wf_ends _ W _ _ H2) as [N3 N4]. apply num_inj in E1; [|assumption..]. apply num_inj in E2; [|assumption..]. congruence.
  Qed.
  Lemma view_leaf x : node g x -> (QuerySpec.leaf vw (num x) <-> forall y, ~ edge g y x).
  Proof.
    intros Hx. split.
    - intros [_ Hl] y He. pose proof (wf_ends _ W _ _ He) as [Ny _]. apply (Hl (num y)). apply view_edge; assumption.
    - intros Hl. split; [apply view_nodes; eauto|]. intros n He. pose proof (wf_ends _ view_wf _ _ He) as [Nn _]. apply view_nodes in Nn. destruct Nn as (y & Hy & ->).
      apply view_edge in He; [|assumption..]. exact (Hl y He).
  Qed.
  Lemma view_path x y : node g x -> node g y -> (QuerySpec.path vw (num x) (num y) <-> clos_trans irnode (edge g) x y).
  Proof.
    intros Hx Hy. split.
    - intros HP. unfold QuerySpec.path in HP. apply clos_trans_t1n in HP. remember (num x) as a eqn:Ea. remember (num y) as b eqn:Eb. revert x Hx Ea. induction HP as [a b He|a n b He HP IH]; intros x Hx ->.
      + subst b. apply t_step, view_edge; assumption.
      + pose proof (wf_ends _ view_wf _ _ He) as [_ Nn]. apply view_nodes in Nn. destruct Nn as (z & Hz & ->). apply view_edge in He; [|assumption..].
        apply t_trans with (y := z); [apply t_step, He|]. apply IH; auto.
    - intros HP. induction HP as [x y He|x y z H1 IH1 H2 IH2].
      + apply t_step, view_edge; assumption.
      + assert (Ny : node g y). { clear - W H1. induction H1; [eapply wf_ends; eassumption|]. assumption. }
        apply t_trans with (y := num y); [apply IH1|apply IH2]; assumption.
  Qed.
  Lemma view_has x k : node g x -> (QuerySpec.has_node vw (num x) k <-> k = view_node h shp dflt c x).
  Proof.
    intros Hx. unfold QuerySpec.has_node. cbn. rewrite in_map_iff. split.
    - intros (y & E & Hy). injection E as E <-. apply num_inj in E; [congruence|assumption..].
    - intros ->. exists x. auto.
  Qed.
  Lemma view_named x n : node g x -> (QuerySpec.named vw (num x) n <->
    n = match node_attr h shp dflt (c_log c) x with NVar v => va_pname v | NOp _ => match x with NObj _ o => match nth_error h o with Some ob => ob_name ob | None => EmptyString end | NModel _ _ => EmptyString end end).
  Proof.
    intros Hx. unfold QuerySpec.named. split.
    - intros (k & Hk & ->). apply view_has in Hk; [|exact Hx]. subst k. unfold view_node. destruct (node_attr h shp dflt (c_log c) x); reflexivity.
    - intros ->. eexists. split; [apply view_has; [exact Hx|reflexivity]|]. unfold view_node. destruct (node_attr h shp dflt (c_log c) x); reflexivity.
  Qed.
  Lemma view_final x : node g x -> (QuerySpec.final_output vw (num x) <->
    exists v, node_attr h shp dflt (c_log c) x = NVar v /\ va_class v = COutput /\ va_auto v = false /\ forall y, ~ edge g x y).
  Proof.
    intros Hx. unfold QuerySpec.final_output. split.
    - intros (v & Hk & O & A & U). apply view_has in Hk; [|exact Hx]. unfold view_node in Hk. destruct (node_attr h shp dflt (c_log c) x) as [v'|]; [|discriminate]. injection Hk as ->. cbn in *.
      exists v'. split; [reflexivity|]. split; [destruct (va_class v'); congruence|]. split; [exact A|]. intros y He. apply (U (num y)). apply view_edge; auto. apply (wf_ends _ W _ _ He).
    - intros (v & E & O & A & U). eexists. split; [apply view_has; [exact Hx|]; unfold view_node; rewrite E; reflexivity|]. cbn. rewrite O. split; [reflexivity|]. split; [exact A|].
      intros n He. pose proof (wf_ends _ view_wf _ _ He) as [_ Nn]. apply view_nodes in Nn. destruct Nn as (y & Hy & ->). apply view_edge in He; [|assumption..]. exact (U y He).
  Qed.
End Numbers.

Section Compiled.
  Context (it : iteration) (h : list obj) (shp : nat -> shape) (dflt : nat -> bool) (um : umodel) (m : model) (c : compiled).
  Context (L : lawful it) (WF : well_formed h um m shp) (TI : inputs_not_targets h um m) (H : compile_in it h shp dflt um m = Ok c).
  Local Notation occ := (occurs h um). Local Notation call := (called h um m).
  Local Notation attr := (node_attr h shp dflt (c_log c)).

  Lemma v_wf : wf (c_graph c).
  Proof.
    destruct (@compile_in_compiles _ _ _ _ _ _ _ L H) as (c0 & (r & u & g & g1 & R & B & _ & _ & F & M & MC & SO & _) & S).
    destruct (@rep1_exists h shp dflt um m c0 WF r u g g1 R B F M) as (rep1 & H1).
    destruct (@rep2_exists h shp dflt um m c0 WF TI r u g g1 R B F MC rep1 H1) as (rep2 & H2). rewrite <- (sp_graph S). apply H2.
  Qed.
  Lemma v_attr p k o pn : occ p o -> call p k o pn -> exists v, attr (NObj p o) = NVar v /\ va_pname v = pn /\ va_auto v = false /\
    va_class v = match k with KInput => CInput | KOutput => COutput | KDeclared => CDeclared end.
  Proof.
    destruct (@compile_in_compiles _ _ _ _ _ _ _ L H) as (c0 & (r & u & g & g1 & R & B & _ & _ & F & M & MC & SO & _) & S).
    intros Ho Hc. rewrite <- (sp_log S). eapply called_attr; eassumption.
  Qed.
  (** A node of the compiled graph that holds a variable with a chosen name. *)
  Lemma v_named x v : node (c_graph c) x -> attr x = NVar v -> va_auto v = false -> exists p o k, x = NObj p o /\ occ p o /\ call p k o (va_pname v).
  Proof.
    intros Hx A NA. destruct (d_order it h shp dflt um m c L WF TI H) as (O1 & _). destruct (O1 x Hx) as (p & o & -> & Ho). clear O1.
    destruct (@compile_in_compiles _ _ _ _ _ _ _ L H) as (c0 & (r & u & g & g1 & R & B & _ & _ & F & M & MC & SO & _) & S).
    rewrite <- (sp_log S) in A. eapply named_called; try eassumption. eapply flat_node; eassumption.
  Qed.
  Lemma v_feeds p v p' d : occ p v -> variable h v -> ~ declared_object h v -> occ p' d -> variable h d ->
    (node_of h c p v = node_of h c p' d <-> feeds h um m p v p' d).
  Proof.
    intros A1 A2 A3 A4 A5. destruct (@compile_in_compiles _ _ _ _ _ _ _ L H) as (c0 & K & S). rewrite <- (node_of_same h p v S), <- (node_of_same h p' d S).
    eapply compiles_feeds; eassumption.
  Qed.
  Lemma called_fun p k o pn k' pn' : call p k o pn -> call p k' o pn' -> k = k' /\ pn = pn'.
  Proof.
    intros Hc Hc'. split; [eapply (kinds_excl h o); eapply called_kind; eassumption|].
    destruct Hc as (x & q & Hm & Hq & ->), Hc' as (x' & q' & Hm' & Hq' & ->). pose proof Hm as (Nx & _). pose proof Hm' as (Nx' & _).
    pose proof (named_fun Nx Nx') as <-. rewrite (promoted_ns_fun _ _ _ _ _ (f_named WF) Hq Hq'). reflexivity.
  Qed.
  Lemma v_unused p o : occ p o -> output_object h o -> ((forall y, ~ edge (c_graph c) (NObj p o) y) <-> unused h um m p o).
  Proof.
    intros Ho K. assert (Vo : variable h o) by (apply out_var, K). assert (ND : ~ declared_object h o) by (intros D; pose proof (kinds_excl h o KOutput KDeclared K D); discriminate).
    assert (E : node_of h c p o = NObj p o) by (eapply node_of_source; eassumption). destruct (d_order it h shp dflt um m c L WF TI H) as (_ & _ & O3 & _). split.
    - intros U p' a d Ha O Hr Hf. apply (U (NObj p' a)). rewrite <- E.
      assert (Hd : occ p' d) by (eapply needed_arg; eassumption). assert (Vd : variable h d) by (eapply arg_variable; eassumption).
      apply (v_feeds p o p' d Ho Vo ND Hd Vd) in Hf. rewrite Hf. apply O3; assumption.
    - intros U y He. apply (d_edge it h shp dflt um m c L WF TI H) in He. destruct He as [(p' & a & v & Ha & Hw & _ & E' & _)|(p' & a & d & Ha & O & Hr & Hd & Vd & _ & E')].
      + injection E' as <- <-. apply (op_not_var h o); [destruct Hw as (ob & Eo & Op & _); exists ob; auto|exact Vo].
      + apply (U p' a d Ha O Hr). apply (v_feeds p o p' d Ho Vo ND Hd Vd). congruence.
  Qed.
End Compiled.
