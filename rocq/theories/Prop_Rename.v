(** Property theorems C114: names do not matter. *)
From Verif Require Import PyBase NamesModel PromotionsModel PromotionsSpec HierModel HierSpec Digraph TopoModel FlatModel ExprModel UnflatModel UnflatSpec
  FlattenModel FlattenSpec CompileModel CompileSpec WorldModel WorldSpec WorldSpec2 Prop_World IterModel IterSpec Prop_Iter DependSpec Prop_Extend WorldCheck
  LinkSpec LinkProofs LinkCheck RenameSpec RenameProofs RenameProofs3 RenameCheck.
Local Open Scope string_scope.
Local Open Scope list_scope.

(** C114, hierarchies: two hierarchies that consist of the same objects and models, with other names
    of variables and submodels, and whose promotions and connections link the same variables, compute
    the same values, if the same values are supplied for corresponding inputs and corresponding
    variables left to be supplied. *)
Theorem c114_hierarchy : forall V it it' h h' shp shp' dflt dflt' um um' m m' c c' (apply : nat -> list V -> nat -> V) init init',
  lawful it -> lawful it' -> well_formed h um m shp -> well_formed h' um' m' shp' -> inputs_not_targets h um m -> inputs_not_targets h' um' m' ->
  compile_in it h shp dflt um m = Ok c -> compile_in it' h' shp' dflt' um' m' = Ok c' ->
  same_objects h h' -> same_models um um' ->
  (forall p q p' q' o o', same_place um um' p p' -> same_place um um' q q' -> (linked h um m p o q o' <-> linked h' um' m' p' o q' o')) ->
  (forall p p' o n n', same_place um um' p p' -> called h um m p KInput o n -> called h' um' m' p' KInput o n' -> init n = init' n') ->
  (forall p p' o n n', same_place um um' p p' -> occurs h um p o -> called h um m p KDeclared o n -> called h' um' m' p' KDeclared o n' ->
     unsupplied h um m n -> unsupplied h' um' m' n' -> init n = init' n') ->
  forall p p' o, same_place um um' p p' -> occurs h um p o -> variable h o -> result h' shp' dflt' apply init' c' p' o = result h shp dflt apply init c p o.
Proof.
  intros V it it' h h' shp shp' dflt dflt' um um' m m' c c' apply init init' L L' WF WF' TI TI' H H' SO SM EQ I1 I2.
  exact (rename_result it it' h h' shp shp' dflt dflt' um um' m m' c c' L WF TI H L' WF' TI' H' SO SM EQ V apply init init' I1 I2).
Qed.
Print Assumptions c114_hierarchy.

(** C114, programs that differ only in the names they give, what they promote, connect, and state as
    optimization problem, and none of whose names is rejected, build the same objects and models. *)
Theorem c114_same_objects : forall l l' shp shp' f f' k um m um' m',
  nameless l = nameless l' -> names_accepted l -> names_accepted l' ->
  same_objects (w_heap (whistory l)) (w_heap (whistory l')) /\
  (tree f (whistory l) shp k = Some (um, m) -> tree f' (whistory l') shp' k = Some (um', m') -> same_models um um').
Proof.
  intros l l' shp shp' f f' k um m um' m' Q A A'. pose proof (nameless_worlds l l' Q A A') as S. split; [apply S|]. intros T T'. eapply tree_same; eassumption.
Qed.
Print Assumptions c114_same_objects.

(** C114, programs: they compute the same values, if they link the same variables. *)
Theorem c114_program : forall V it it' l l' shp shp' dflt dflt' f f' k um m um' m' c c' (apply : nat -> list V -> nat -> V) init init',
  let h := w_heap (whistory l) in let h' := w_heap (whistory l') in
  lawful it -> lawful it' -> follows_rules l -> finished l -> follows_rules l' -> finished l' ->
  nameless l = nameless l' -> names_accepted l -> names_accepted l' ->
  tree f (whistory l) shp k = Some (um, m) -> tree f' (whistory l') shp' k = Some (um', m') ->
  inputs_not_targets h um m -> inputs_not_targets h' um' m' ->
  compile_in it h shp dflt um m = Ok c -> compile_in it' h' shp' dflt' um' m' = Ok c' ->
  (forall p q p' q' o o', same_place um um' p p' -> same_place um um' q q' -> (linked h um m p o q o' <-> linked h' um' m' p' o q' o')) ->
  (forall p p' o n n', same_place um um' p p' -> called h um m p KInput o n -> called h' um' m' p' KInput o n' -> init n = init' n') ->
  (forall p p' o n n', same_place um um' p p' -> occurs h um p o -> called h um m p KDeclared o n -> called h' um' m' p' KDeclared o n' ->
     unsupplied h um m n -> unsupplied h' um' m' n' -> init n = init' n') ->
  forall p p' o, same_place um um' p p' -> occurs h um p o -> variable h o -> result h' shp' dflt' apply init' c' p' o = result h shp dflt apply init c p o.
Proof.
  intros V it it' l l' shp shp' dflt dflt' f f' k um m um' m' c c' apply init init' h h' L L' FR FI FR' FI' Q A A' T T' TI TI' H H' EQ I1 I2.
  destruct (c114_same_objects l l' shp shp' f f' k um m um' m' Q A A') as [SO SM].
  eapply c114_hierarchy with (it := it) (it' := it') (m := m) (m' := m'); try eassumption; [eapply c89_well_formed; eassumption|eapply c89_well_formed; eassumption|exact (SM T T')].
Qed.
Print Assumptions c114_program.

(** The submodel computes y from u; the main model feeds u and uses y. *)
Definition rn (sub u v y z out : string) (pr : promotes_t) : list wevent :=
  [WNew; WOn 0 (EInput u); WNew; WOn 1 (EDeclare v); WOn 1 (EApply [1] 1); WOn 1 (ERegister y 3); WAdd 0 (Some sub) pr 1;
   WOn 0 (EDeclare z); WOn 0 (EApply [4] 1); WOn 0 (ERegister out 6)].
Definition rn1 : list wevent := rn "A" "u" "u" "y" "y" "z" None.
Definition rn2 : list wevent := rn "solver" "velocity" "airspeed" "drag" "pressure" "load" (Some []) ++ [WConnect 0 "velocity" "solver.airspeed"; WConnect 0 "solver.drag" "pressure"].
Example c114_nonvacuous : exists um um' m m' c c', let h := w_heap (whistory rn1) in let h' := w_heap (whistory rn2) in
  follows_rules rn1 /\ finished rn1 /\ follows_rules rn2 /\ finished rn2 /\ nameless rn1 = nameless rn2 /\ names_accepted rn1 /\ names_accepted rn2 /\ um <> um' /\
  tree 3 (whistory rn1) gsh 0 = Some (um, m) /\ tree 3 (whistory rn2) gsh 0 = Some (um', m') /\
  inputs_not_targets h um m /\ inputs_not_targets h' um' m' /\
  compile_in insertion_order h gsh (fun _ => true) um m = Ok c /\ compile_in backwards h' gsh (fun _ => true) um' m' = Ok c' /\
  (forall p q p' q' o o', same_place um um' p p' -> same_place um um' q q' -> (linked h um m p o q o' <-> linked h' um' m' p' o q' o')) /\
  same_place um um' ["A"] ["solver"] /\
  result h gsh (fun _ => true) gf (fun _ => 100%N) c [] 6 = 107%N /\ result h' gsh (fun _ => true) gf (fun _ => 100%N) c' [] 6 = 107%N.
Proof.
  let t := eval vm_compute in (tree 3 (whistory rn1) gsh 0) in match t with Some (?um, ?m) =>
  let t' := eval vm_compute in (tree 3 (whistory rn2) gsh 0) in match t' with Some (?um', ?m') =>
  let s := eval vm_compute in (compile_in insertion_order (w_heap (whistory rn1)) gsh (fun _ => true) um m) in match s with Ok ?c =>
  let s' := eval vm_compute in (compile_in backwards (w_heap (whistory rn2)) gsh (fun _ => true) um' m') in match s' with Ok ?c' => exists um, um', m, m', c, c' end end end end.
  intros h h'.
  assert (F1 : follows_rules rn1) by (apply rules_check; vm_compute; reflexivity). assert (F2 : finished rn1) by (apply finished_check; vm_compute; reflexivity).
  assert (F3 : follows_rules rn2) by (apply rules_check; vm_compute; reflexivity). assert (F4 : finished rn2) by (apply finished_check; vm_compute; reflexivity).
  assert (A1 : names_accepted rn1) by (apply accepted_check; vm_compute; reflexivity). assert (A2 : names_accepted rn2) by (apply accepted_check; vm_compute; reflexivity).
  match goal with |- _ /\ _ /\ _ /\ _ /\ _ /\ _ /\ _ /\ _ /\ ?T /\ ?T' /\ _ /\ _ /\ ?C /\ ?C' /\ _ =>
    assert (T1 : T) by (vm_compute; reflexivity); assert (T2 : T') by (vm_compute; reflexivity); assert (C1 : C) by (vm_compute; reflexivity); assert (C2 : C') by (vm_compute; reflexivity) end.
  pose proof (c89_well_formed _ _ _ _ _ _ F1 F2 T1) as W1. pose proof (c89_well_formed _ _ _ _ _ _ F3 F4 T2) as W2. fold h in W1. fold h' in W2.
  pose proof (targets_check _ _ _ _ W1 eq_refl) as N1. pose proof (targets_check _ _ _ _ W2 eq_refl) as N2.
  pose proof (nameless_worlds rn1 rn2 eq_refl A1 A2) as SW. pose proof (proj1 SW) as SO. pose proof (tree_same _ _ gsh gsh SW 3 3 0 _ _ _ _ T1 T2) as SM.
  do 4 (split; [assumption|]). split; [reflexivity|]. do 2 (split; [assumption|]). split; [discriminate|]. do 6 (split; [assumption|]).
  split; [eapply renamed_check; try eassumption; try exact insertion_lawful; try exact backwards_lawful; vm_compute; reflexivity|].
  split; [eapply sp_sub with (i := 0); [reflexivity|reflexivity|constructor]|]. split; vm_compute; reflexivity.
Qed.
