(** Property theorems C113: promotions and connections are interchangeable. *)
From Verif Require Import PyBase NamesModel PromotionsModel PromotionsSpec HierModel HierSpec Digraph TopoModel FlatModel ExprModel UnflatModel UnflatSpec
  FlattenModel FlattenSpec CompileModel CompileSpec WorldModel WorldSpec WorldSpec2 Prop_World IterModel IterSpec Prop_Iter DependSpec Prop_Extend WorldCheck ShareProofs
  LinkSpec LinkProofs LinkProofs2 LinkCheck.
Local Open Scope string_scope.
Local Open Scope list_scope.

(** C113, storage: two variables of a compiled hierarchy are kept in the same place exactly if
    promotions and connections, however many it takes, link them. *)
Theorem c113_storage : forall it h shp dflt um m c,
  lawful it -> well_formed h um m shp -> inputs_not_targets h um m -> compile_in it h shp dflt um m = Ok c ->
  forall p o p' o', occurs h um p o -> variable h o -> occurs h um p' o' -> variable h o' ->
    (node_of h c p o = node_of h c p' o' <-> linked h um m p o p' o').
Proof.
  intros it h shp dflt um m c L WF TI H p o p' o' Ho Vo Ho' Vo'. rewrite (same_node it h shp dflt um m c L WF TI H). tauto.
Qed.
Print Assumptions c113_storage.

(** C113, hierarchies: two hierarchies with the same models, variables and operations, whose
    promotions and connections link the same variables, compute the same values - whatever the
    promoted names are, as long as the same values are supplied for the inputs and for the variables
    left to be supplied. *)
Theorem c113_hierarchy : forall V it it' h shp dflt dflt' um m m' c c' (apply : nat -> list V -> nat -> V) init init',
  lawful it -> lawful it' -> well_formed h um m shp -> well_formed h um m' shp -> inputs_not_targets h um m -> inputs_not_targets h um m' ->
  compile_in it h shp dflt um m = Ok c -> compile_in it' h shp dflt' um m' = Ok c' ->
  (forall p o p' o', linked h um m p o p' o' <-> linked h um m' p o p' o') ->
  (forall p o n n', called h um m p KInput o n -> called h um m' p KInput o n' -> init n = init' n') ->
  (forall p o n n', occurs h um p o -> called h um m p KDeclared o n -> called h um m' p KDeclared o n' ->
     unsupplied h um m n -> unsupplied h um m' n' -> init n = init' n') ->
  forall p o, occurs h um p o -> variable h o -> result h shp dflt' apply init' c' p o = result h shp dflt apply init c p o.
Proof.
  intros V it it' h shp dflt dflt' um m m' c c' apply init init' L L' WF WF' TI TI' H H' EQ I1 I2.
  exact (linked_result it it' h shp dflt dflt' um m m' c c' L WF TI H L' WF' TI' H' EQ V apply init init' I1 I2).
Qed.
Print Assumptions c113_hierarchy.

(** C113, programs: so do two programs that differ only in what add promotes, in the connections
    and in the optimization problem. *)
Theorem c113_program : forall V it it' l l' shp dflt dflt' f f' k um m um' m' c c' (apply : nat -> list V -> nat -> V) init init',
  let h := w_heap (whistory l) in let h' := w_heap (whistory l') in
  lawful it -> lawful it' -> follows_rules l -> finished l -> follows_rules l' -> finished l' -> unlinked l = unlinked l' ->
  tree f (whistory l) shp k = Some (um, m) -> tree f' (whistory l') shp k = Some (um', m') ->
  inputs_not_targets h um m -> inputs_not_targets h' um' m' ->
  compile_in it h shp dflt um m = Ok c -> compile_in it' h' shp dflt' um' m' = Ok c' ->
  (forall p o p' o', linked h um m p o p' o' <-> linked h' um' m' p o p' o') ->
  (forall p o n n', called h um m p KInput o n -> called h' um' m' p KInput o n' -> init n = init' n') ->
  (forall p o n n', occurs h um p o -> called h um m p KDeclared o n -> called h' um' m' p KDeclared o n' ->
     unsupplied h um m n -> unsupplied h' um' m' n' -> init n = init' n') ->
  forall p o, occurs h um p o -> variable h o -> result h' shp dflt' apply init' c' p o = result h shp dflt apply init c p o.
Proof.
  intros V it it' l l' shp dflt dflt' f f' k um m um' m' c c' apply init init' h h' L L' FR FI FR' FI' U T T' TI TI' H H' EQ I1 I2.
  assert (WF : well_formed h um m shp) by (eapply c89_well_formed; eassumption). assert (WF' : well_formed h' um' m' shp) by (eapply c89_well_formed; eassumption).
  assert (Eu : um = um').
  { apply (unlinked_tree l l' shp (f + f') k um m um' m' U); [apply (tree_mono _ _ f); [|exact T]|apply (tree_mono _ _ f'); [|exact T']]; auto with arith. }
  assert (Eh : h = h') by (apply unlinked_heap, U). subst um'. clearbody h h'. subst h'.
  eapply c113_hierarchy with (it := it) (it' := it') (m := m) (m' := m'); eassumption.
Qed.
Print Assumptions c113_program.

(** The submodel A computes y from u; the main model feeds u and uses y: by sharing the names, or by
    two connections. *)
Definition pl_body (pr : promotes_t) : list wevent :=
  [WNew; WOn 0 (EInput "u"); WNew; WOn 1 (EDeclare "u"); WOn 1 (EApply [1] 1); WOn 1 (ERegister "y" 3); WAdd 0 (Some "A") pr 1;
   WOn 0 (EDeclare "y"); WOn 0 (EApply [4] 1); WOn 0 (ERegister "z" 6)].
Definition by_name : list wevent := pl_body None.
Definition by_connection : list wevent := pl_body (Some []) ++ [WConnect 0 "u" "A.u"; WConnect 0 "A.y" "y"].
Example c113_nonvacuous : exists um m m' c c', let h := w_heap (whistory by_name) in let h' := w_heap (whistory by_connection) in
  follows_rules by_name /\ finished by_name /\ follows_rules by_connection /\ finished by_connection /\ unlinked by_name = unlinked by_connection /\ h = h' /\
  tree 3 (whistory by_name) gsh 0 = Some (um, m) /\ tree 3 (whistory by_connection) gsh 0 = Some (um, m') /\ m <> m' /\
  inputs_not_targets h um m /\ inputs_not_targets h um m' /\
  compile_in insertion_order h gsh (fun _ => true) um m = Ok c /\ compile_in backwards h gsh (fun _ => true) um m' = Ok c' /\
  (forall p o p' o', linked h um m p o p' o' <-> linked h um m' p o p' o') /\
  linked h um m [] 0 ["A"] 1 /\ ~ linked h um m [] 0 ["A"] 3 /\
  result h gsh (fun _ => true) gf (fun _ => 100%N) c [] 6 = result h gsh (fun _ => true) gf (fun _ => 100%N) c' [] 6.
Proof.
  let t := eval vm_compute in (tree 3 (whistory by_name) gsh 0) in match t with Some (?um, ?m) =>
  let t' := eval vm_compute in (tree 3 (whistory by_connection) gsh 0) in match t' with Some (_, ?m') =>
  let s := eval vm_compute in (compile_in insertion_order (w_heap (whistory by_name)) gsh (fun _ => true) um m) in match s with Ok ?c =>
  let s' := eval vm_compute in (compile_in backwards (w_heap (whistory by_name)) gsh (fun _ => true) um m') in match s' with Ok ?c' => exists um, m, m', c, c' end end end end.
  intros h h'. assert (Eh : h = h') by (vm_compute; reflexivity).
  assert (F1 : follows_rules by_name) by (apply rules_check; vm_compute; reflexivity). assert (F2 : finished by_name) by (apply finished_check; vm_compute; reflexivity).
  assert (F3 : follows_rules by_connection) by (apply rules_check; vm_compute; reflexivity). assert (F4 : finished by_connection) by (apply finished_check; vm_compute; reflexivity).
  match goal with |- _ /\ _ /\ _ /\ _ /\ _ /\ _ /\ ?T /\ ?T' /\ _ /\ _ /\ _ /\ ?C /\ ?C' /\ _ =>
    assert (T1 : T) by (vm_compute; reflexivity); assert (T2 : T') by (vm_compute; reflexivity); assert (C1 : C) by (vm_compute; reflexivity); assert (C2 : C') by (vm_compute; reflexivity) end.
  pose proof (c89_well_formed _ _ _ _ _ _ F1 F2 T1) as W1. pose proof (c89_well_formed _ _ _ _ _ _ F3 F4 T2) as W2. fold h in W1. fold h' in W2. rewrite <- Eh in W2.
  pose proof (targets_check _ _ _ _ W1 eq_refl) as N1. pose proof (targets_check _ _ _ _ W2 eq_refl) as N2.
  do 4 (split; [assumption|]). split; [reflexivity|]. do 3 (split; [assumption|]). split; [discriminate|]. do 4 (split; [assumption|]).
  split; [eapply linked_check; try eassumption; try exact insertion_lawful; try exact backwards_lawful; vm_compute; reflexivity|].
  split; [|split; [|vm_compute; reflexivity]].
  - apply (same_node insertion_order h gsh (fun _ => true) _ _ _ insertion_lawful W1 N1 C1). split; [|split; [|split; [|split; [|vm_compute; reflexivity]]]].
    + exists [0], [6], [4], [("A", UM [] [3] [1] [])]. split; [constructor|]. left. left. reflexivity.
    + eexists. split; vm_compute; reflexivity.
    + exists [], [3], [1], []. split; [eapply um_step; [left; reflexivity|constructor]|]. right. eapply needed_dep; [eapply needed_dep; [apply needed_leaf; left; reflexivity|]|].
      * eexists. split; [vm_compute; reflexivity|]. left. reflexivity.
      * eexists. split; [vm_compute; reflexivity|]. left. reflexivity.
    + eexists. split; vm_compute; reflexivity.
  - intros K. apply (same_node insertion_order h gsh (fun _ => true) _ _ _ insertion_lawful W1 N1 C1) in K. destruct K as (_ & _ & _ & _ & E). vm_compute in E. discriminate E.
Qed.
