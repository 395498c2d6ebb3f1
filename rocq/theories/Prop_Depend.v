(** Property theorems C106 and C107: on which supplied values a value depends, and what
    influences reports. *)
From Verif Require Import PyBase NamesModel PromotionsModel PromotionsSpec HierModel HierSpec Digraph TopoModel TopoSpec FlatModel ExprModel UnflatModel UnflatSpec
  FlattenModel FlattenSpec CompileModel CompileSpec CompileProofs Prop_Compile IterModel IterSpec IterProofs Prop_Iter LookupModel LookupProofs DependSpec DependProofs.
From Verif Require QueryModel QuerySpec Prop_Query.
From Verif Require Import ViewModel ViewProofs.
From Coq Require Import Relation_Operators Operators_Properties.
Local Open Scope string_scope.
Local Open Scope list_scope.

(** C106: the value of a variable is fixed by the values supplied for the names it depends on. *)
Theorem c106_values : forall V it h shp dflt um m c (apply : nat -> list V -> nat -> V) init init' val val',
  lawful it -> well_formed h um m shp -> inputs_not_targets h um m -> compile_in it h shp dflt um m = Ok c ->
  solves h um m apply init val -> solves h um m apply init' val' ->
  forall p o, occurs h um p o -> variable h o -> (forall pn, depends h um m p o pn -> init pn = init' pn) -> val p o = val' p o.
Proof. intros. eapply depends_agree; eassumption. Qed.
Print Assumptions c106_values.

(** C106: and by no fewer: a variable depends on a name exactly when there are operations for which
    changing the value supplied for this name, and no other, changes the variable. *)
Theorem c106_exact : forall it h shp dflt um m c,
  lawful it -> well_formed h um m shp -> inputs_not_targets h um m -> compile_in it h shp dflt um m = Ok c ->
  forall p o pn, occurs h um p o -> variable h o ->
    (depends h um m p o pn <->
     exists (V : Type) (apply : nat -> list V -> nat -> V) init init' val val',
       solves h um m apply init val /\ solves h um m apply init' val' /\ (forall n, n <> pn -> init n = init' n) /\ val p o <> val' p o).
Proof.
  intros it h shp dflt um m c L WF TI H p o pn Ho Vo.
  pose proof (in_solves it h shp dflt um m c L WF TI H bool mark_op (String.eqb pn)) as S1.
  pose proof (mark_exact it h shp dflt um m c L WF TI H pn _ S1 p o Ho Vo) as ME. split.
  - intros D. pose proof (in_solves it h shp dflt um m c L WF TI H bool mark_op (fun _ => false)) as S2.
    eexists bool, mark_op, (String.eqb pn), (fun _ => false), _, _. split; [exact S1|]. split; [exact S2|]. split; [intros n N; apply String.eqb_neq; congruence|].
    rewrite (proj2 ME D). intros X. symmetry in X. revert X.
    match goal with |- ?v p o = true -> False => set (w := v) in * end. clearbody w. revert p o Ho Vo ME D.
    assert (Z : forall p o, occurs h um p o -> variable h o -> w p o = true -> False); [|intros; eauto].
    destruct S2 as [T1 T2 T3 T4 T5]. apply (d_grounded it h shp dflt um m c L WF TI H (fun p o => w p o = true -> False)).
    + intros p o n Ho Hc. rewrite (T4 _ _ _ Hc). discriminate.
    + intros p o n Ho Hc [U1 U2]. rewrite (T5 p o n) by assumption. discriminate.
    + intros p a v Ha O Hw IH. pose proof Hw as (ob & E & Oo & Hv). apply In_nth_error in Hv. destruct Hv as (k & Hk). rewrite (T1 p a ob k v Ha E Oo Hk). unfold mark_op.
      intros X. apply existsb_exists in X. destruct X as (x & Hx & ->). apply in_map_iff in Hx. destruct Hx as (d & Ed & Hd). assert (Hr : reads h a d) by (exists ob; auto).
      apply (IH d Hr); [eapply needed_arg; eassumption|exact Ed].
    + intros p k o p' k' o' n Ho Ho' Hc Hc' IH. rewrite <- (T2 p k o p' k' o' n) by assumption. exact IH.
    + intros p0 a b pa pb p k o p' k' o' Hd Ra Rb Ho Ho' Hc Hc' IH. rewrite (T3 p0 a b pa pb p k o p' k' o') by assumption. exact IH.
  - intros (V & apply & init & init' & val & val' & A1 & A2 & A3 & A4).
    match type of S1 with solves _ _ _ _ _ ?v => destruct (v p o) eqn:E end; [apply ME; reflexivity|]. exfalso. apply A4.
    eapply c106_values; try eassumption. intros n D. apply A3. intros ->. apply ME in D. discriminate.
Qed.
Print Assumptions c106_exact.

(** C106: the compiled graph shows these dependences: a variable depends on a name exactly when a
    path leads from a node without predecessors that has this name to the node of the variable. *)
Theorem c106_graph : forall it h shp dflt um m c,
  lawful it -> well_formed h um m shp -> inputs_not_targets h um m -> compile_in it h shp dflt um m = Ok c ->
  forall p o pn, occurs h um p o -> variable h o ->
    (depends h um m p o pn <->
     exists p1 k1 o1, node (c_graph c) (NObj p1 o1) /\ (forall y, ~ edge (c_graph c) y (NObj p1 o1)) /\ called h um m p1 k1 o1 pn /\
       clos_refl_trans irnode (edge (c_graph c)) (NObj p1 o1) (node_of h c p o)).
Proof.
  intros it h shp dflt um m c L WF TI H p o pn Ho Vo. split.
  - intros D. destruct (depends_reach it h shp dflt um m c L WF TI H p o pn D) as (p1 & k1 & o1 & [A1 A2] & A3 & A4). exists p1, k1, o1. auto.
  - intros (p1 & k1 & o1 & A1 & A2 & A3 & A4). destruct (reach_depends it h shp dflt um m c L WF TI H p1 k1 o1 pn (conj A1 A2) A3 _ A4) as [G _]. apply G; auto.
Qed.
Print Assumptions c106_graph.

(** C107: when every operation has an argument, influences tells for the name of a supplied value
    exactly the promoted names of the registered outputs that depend on it and that no operation
    uses. *)
Theorem c107_influences : forall it h shp dflt um m c,
  lawful it -> well_formed h um m shp -> inputs_not_targets h um m -> compile_in it h shp dflt um m = Ok c ->
  (forall o, operation h o -> exists d, reads h o d) ->
  forall a b,
    (exists l, dget (snd (QueryModel.influences (view h shp dflt c))) a = Some l /\ In b l) <->
    exists p o, called h um m p KOutput o b /\ unused h um m p o /\ depends h um m p o a.
Proof.
  intros it h shp dflt um m c L WF TI H AR a b. pose proof (v_wf it h shp dflt um m c L WF TI H) as W.
  destruct (Prop_Query.c69_inputs_to_outputs (view_wf h shp dflt c W)) as (_ & _ & Q). etransitivity; [apply Q|]. clear Q. split.
  - intros (n & k & Hl & Hf & Hp & Hn & Hk).
    pose proof (proj1 (view_nodes h shp dflt c n) (proj1 Hl)) as (x & Hx & ->).
    assert (Ny : exists y, node (c_graph c) y /\ k = number c y).
    { apply (view_nodes h shp dflt c). destruct Hf as (v & Hv & _). unfold node, QueryModel.graph. cbn [g_nodes]. exact (in_map fst _ _ Hv). }
    destruct Ny as (y & Hy & ->). pose proof (proj1 (view_leaf h shp dflt c W x Hx) Hl) as Hl'. clear Hl. rename Hl' into Hl. apply (view_final h shp dflt c W y Hy) in Hf. apply (view_path h shp dflt c W x y Hx Hy) in Hp. apply (view_named h shp dflt c x a Hx) in Hn. apply (view_named h shp dflt c y b Hy) in Hk.
    destruct Hf as (v & Av & Cv & Nv & U). rewrite Av in Hk. subst b.
    destruct (v_named it h shp dflt um m c L WF TI H y v Hy Av Nv) as (p & o & k & -> & Ho & Hc).
    destruct (v_attr it h shp dflt um m c L WF H p k o _ Ho Hc) as (v' & Av' & _ & _ & Cv'). rewrite Av in Av'. injection Av' as <-. rewrite Cv in Cv'. destruct k; try discriminate.
    assert (Vo : variable h o) by (eapply called_variable; eassumption). pose proof (called_kind h shp um m WF _ _ _ _ Hc) as Ko.
    assert (E : node_of h c p o = NObj p o) by (eapply node_of_source; try eassumption; eapply (not_declared h shp um m WF KOutput); [discriminate|exact Hc]).
    exists p, o. split; [exact Hc|]. split; [apply (v_unused it h shp dflt um m c L WF TI H p o Ho Ko), U|].
    destruct (d_order it h shp dflt um m c L WF TI H) as (D1 & _ & D3 & D4). destruct (D1 x Hx) as (p1 & o1 & -> & Ho1).
    assert (V1 : variable h o1).
    { assert (Hz : exists z, edge (c_graph c) (NObj p1 o1) z) by (apply clos_trans_t1n in Hp; inversion Hp; eauto). destruct Hz as (z & Hz).
      apply (d_edge it h shp dflt um m c L WF TI H) in Hz. destruct Hz as [(p' & a0 & w & Ha & Hw & _ & E' & _)|(p' & a0 & d & _ & _ & _ & Hd & Vd & _ & E')].
      - injection E' as <- <-. exfalso. assert (O1 : operation h o1) by (destruct Hw as (ob & Eo & Op & _); exists ob; auto).
        destruct (AR o1 O1) as (d & Hr). apply (Hl (node_of h c p1 d)). apply D3; assumption.
      - destruct (d_kept it h shp dflt um m c L WF TI H p' d Hd Vd) as (p2 & o2 & E2 & _ & V2 & _). rewrite E2 in E'. injection E' as -> ->. exact V2. }
    assert (N1 : exists v1, node_attr h shp dflt (c_log c) (NObj p1 o1) = NVar v1 /\ va_auto v1 = false).
    { destruct (var_kind h shp um m WF p1 o1 Ho1 V1) as [[A1 _]|(k1 & pn1 & Hc1)].
      - exfalso. pose proof (f_generated WF p1 o1 Ho1 V1 A1) as K1. destruct (producer h shp um m WF p1 o1 Ho1 K1) as (a1 & Hw1 & Ha1).
        assert (E1 : node_of h c p1 o1 = NObj p1 o1) by (eapply node_of_source; try eassumption; intros D; pose proof (kinds_excl h o1 KOutput KDeclared K1 D); discriminate).
        apply (Hl (NObj p1 a1)). rewrite <- E1. apply D4; assumption.
      - destruct (v_attr it h shp dflt um m c L WF H p1 k1 o1 _ Ho1 Hc1) as (v1 & B1 & _ & B2 & _). eauto. }
    destruct N1 as (v1 & B1 & B2). rewrite B1 in Hn. subst a. destruct (v_named it h shp dflt um m c L WF TI H _ v1 Hx B1 B2) as (p2 & o2 & k2 & E2 & _ & Hc2). injection E2 as <- <-.
    apply (c106_graph it h shp dflt um m c L WF TI H p o _ Ho Vo). exists p1, k2, o1. split; [exact Hx|]. split; [exact Hl|]. split; [exact Hc2|]. rewrite E. clear - Hp. induction Hp as [x y He|x y z _ IH1 _ IH2]; [apply rt_step, He|eapply rt_trans; eassumption].
  - intros (p & o & Hc & U & D).
    assert (Ho : occurs h um p o) by (eapply called_occurs; [exact WF|exact Hc|discriminate]). assert (Vo : variable h o) by (eapply called_variable; eassumption).
    pose proof (called_kind h shp um m WF _ _ _ _ Hc) as Ko.
    assert (E : node_of h c p o = NObj p o) by (eapply node_of_source; try eassumption; eapply (not_declared h shp um m WF KOutput); [discriminate|exact Hc]).
    apply (c106_graph it h shp dflt um m c L WF TI H p o _ Ho Vo) in D. destruct D as (p1 & k1 & o1 & Hx & Hl & Hc1 & Hr). rewrite E in Hr.
    assert (Hy : node (c_graph c) (NObj p o)) by (rewrite <- E; eapply node_of_in_graph; eassumption).
    destruct (v_attr it h shp dflt um m c L WF H p _ o _ Ho Hc) as (v & Av & Pv & Nv & Cv). destruct (d_order it h shp dflt um m c L WF TI H) as (D1 & _ & D3 & D4).
    destruct (D1 _ Hx) as (p2 & o2 & E2 & Ho1). injection E2 as <- <-. destruct (v_attr it h shp dflt um m c L WF H p1 _ o1 _ Ho1 Hc1) as (v1 & Av1 & Pv1 & Nv1 & _).
    exists (number c (NObj p1 o1)), (number c (NObj p o)). split; [apply (view_leaf h shp dflt c W); assumption|].
    split; [apply (view_final h shp dflt c W _ Hy); exists v; split; [exact Av|]; split; [exact Cv|]; split; [exact Nv|]; apply (v_unused it h shp dflt um m c L WF TI H p o Ho Ko), U|].
    split; [|split; [apply (view_named h shp dflt c _ _ Hx); rewrite Av1; auto|apply (view_named h shp dflt c _ _ Hy); rewrite Av; auto]].
    apply (view_path h shp dflt c W _ _ Hx Hy). destruct (producer h shp um m WF p o Ho Ko) as (op & Hw & Hop). assert (F : edge (c_graph c) (NObj p op) (NObj p o)) by (rewrite <- E; apply D4; assumption).
    assert (Z : forall x y, clos_refl_trans irnode (edge (c_graph c)) x y -> x = y \/ clos_trans irnode (edge (c_graph c)) x y).
    { clear. intros x y Hr. induction Hr as [x y He|x|x y z _ [->|IH1] _ [<-|IH2]]; auto; right; [apply t_step, He|eapply t_trans; eassumption]. }
    destruct (Z _ _ Hr) as [E'|?]; [|assumption]. exfalso. rewrite E' in Hl. exact (Hl _ F).
Qed.
Print Assumptions c107_influences.
(** The hierarchy of Prop_Compile: v depends on the supplied x alone (through w, connected to z), and
    influences reports that, while z, which the connection uses, is not listed. *)
Lemma cx_arguments : forall o, operation cxh o -> exists d, reads cxh o d.
Proof. intros o O. apply cx_op in O. cbn in O. cases_in; subst; eexists; eexists; (split; [reflexivity|left; reflexivity]). Qed.
Example c106_nonvacuous : exists c, lawful backwards /\ well_formed cxh cxum cxm cxshp /\ inputs_not_targets cxh cxum cxm /\
  compile_in backwards cxh cxshp (fun _ => false) cxum cxm = Ok c /\ occurs cxh cxum [] 9 /\ variable cxh 9 /\
  depends cxh cxum cxm [] 9 "x" /\ ~ depends cxh cxum cxm [] 9 "y" /\ ~ depends cxh cxum cxm [] 9 "w".
Proof.
  let t := eval vm_compute in (compile_in backwards cxh cxshp (fun _ => false) cxum cxm) in match t with Ok ?c => exists c end.
  match goal with |- _ /\ _ /\ _ /\ ?e /\ _ => assert (H : e) by (vm_compute; reflexivity) end.
  assert (Vo : variable cxh 9) by (eexists; split; reflexivity).
  assert (Ho : occurs cxh cxum [] 9).
  { exists [0], [6; 9], [4; 7], [("A", UM [] [3] [1] [])]. split; [constructor|]. right. apply needed_leaf. cbn. auto. }
  split; [exact backwards_lawful|]. split; [exact cx_well_formed|]. split; [exact cx_not_target|]. split; [exact H|]. split; [exact Ho|]. split; [exact Vo|].
  pose proof (fun pn => mark_exact _ _ _ _ _ _ _ backwards_lawful cx_well_formed cx_not_target H pn _
    (in_solves _ _ _ _ _ _ _ backwards_lawful cx_well_formed cx_not_target H bool mark_op (String.eqb pn)) [] 9 Ho Vo) as M.
  split; [apply (M "x"); vm_compute; reflexivity|]. split; intros D; [apply (M "y") in D|apply (M "w") in D]; vm_compute in D; discriminate.
Qed.
Example c107_nonvacuous : exists c, lawful backwards /\ well_formed cxh cxum cxm cxshp /\ inputs_not_targets cxh cxum cxm /\
  compile_in backwards cxh cxshp (fun _ => false) cxum cxm = Ok c /\ (forall o, operation cxh o -> exists d, reads cxh o d) /\
  snd (QueryModel.influences (view cxh cxshp (fun _ => false) c)) = [("x", ["v"])].
Proof.
  let t := eval vm_compute in (compile_in backwards cxh cxshp (fun _ => false) cxum cxm) in match t with Ok ?c => exists c end.
  split; [exact backwards_lawful|]. split; [exact cx_well_formed|]. split; [exact cx_not_target|]. split; [vm_compute; reflexivity|]. split; [exact cx_arguments|]. vm_compute. reflexivity.
Qed.
