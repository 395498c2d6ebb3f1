(** Property theorems C115: a model may be reorganised. *)
From Verif Require Import PyBase NamesModel PromotionsModel PromotionsSpec HierModel HierSpec Digraph TopoModel FlatModel ExprModel UnflatModel UnflatSpec
  FlattenModel FlattenSpec CompileModel CompileSpec WorldModel WorldSpec WorldSpec2 Prop_World IterModel IterSpec Prop_Iter DependSpec Prop_Extend WorldCheck
  LinkSpec LinkProofs LinkCheck RefactorSpec RefactorProofs RefactorCheck.
Local Open Scope string_scope.
Local Open Scope list_scope.

(** C115, hierarchies: if every variable has a counterpart, linked variables have linked
    counterparts, every operation has one that does the same with counterparts of its arguments and
    results, and what is supplied has a counterpart for which the same value is supplied, then the
    value of every variable is the value of each of its counterparts. *)
Theorem c115_hierarchy : forall V it it' h h' shp shp' dflt dflt' um um' m m' c c' same_operation R (apply apply' : nat -> list V -> nat -> V) init init',
  lawful it -> lawful it' -> well_formed h um m shp -> well_formed h' um' m' shp' -> inputs_not_targets h um m -> inputs_not_targets h' um' m' ->
  compile_in it h shp dflt um m = Ok c -> compile_in it' h' shp' dflt' um' m' = Ok c' ->
  restructured h um m h' um' m' same_operation R ->
  (forall a a', same_operation a a' -> forall args k, apply a args k = apply' a' args k) ->
  (forall p o n, given h um m p o n -> exists p' o' n', R p o p' o' /\ given h' um' m' p' o' n' /\ init n = init' n') ->
  forall p o p' o', occurs h um p o -> variable h o -> R p o p' o' -> result h shp dflt apply init c p o = result h' shp' dflt' apply' init' c' p' o'.
Proof.
  intros V it it' h h' shp shp' dflt dflt' um um' m m' c c' same_operation R apply apply' init init' L L' WF WF' TI TI' H H' RS AP IN p o p' o' Ho Vo HR.
  eapply refactor_result with (it := it) (it' := it') (m := m) (m' := m'); eassumption.
Qed.
Print Assumptions c115_hierarchy.

(** C115, programs. *)
Theorem c115_program : forall V it it' l l' shp shp' dflt dflt' f f' k k' um um' m m' c c' same_operation R (apply apply' : nat -> list V -> nat -> V) init init',
  let h := w_heap (whistory l) in let h' := w_heap (whistory l') in
  lawful it -> lawful it' -> follows_rules l -> finished l -> follows_rules l' -> finished l' ->
  tree f (whistory l) shp k = Some (um, m) -> tree f' (whistory l') shp' k' = Some (um', m') ->
  inputs_not_targets h um m -> inputs_not_targets h' um' m' ->
  compile_in it h shp dflt um m = Ok c -> compile_in it' h' shp' dflt' um' m' = Ok c' ->
  restructured h um m h' um' m' same_operation R ->
  (forall a a', same_operation a a' -> forall args k, apply a args k = apply' a' args k) ->
  (forall p o n, given h um m p o n -> exists p' o' n', R p o p' o' /\ given h' um' m' p' o' n' /\ init n = init' n') ->
  forall p o p' o', occurs h um p o -> variable h o -> R p o p' o' -> result h shp dflt apply init c p o = result h' shp' dflt' apply' init' c' p' o'.
Proof.
  intros V it it' l l' shp shp' dflt dflt' f f' k k' um um' m m' c c' same_operation R apply apply' init init' h h' L L' FR FI FR' FI' T T' TI TI' H H' RS AP IN.
  eapply c115_hierarchy with (it := it) (it' := it'); try eassumption; eapply c89_well_formed; eassumption.
Qed.
Print Assumptions c115_program.

(** Moving an operation to a submodel: z = g(f(u)) in one model, and with f(u) computed by a
    submodel that promotes its variables. *)
Definition rf1 : list wevent := [WNew; WOn 0 (EInput "u"); WOn 0 (EApply [0] 1); WOn 0 (EApply [2] 1); WOn 0 (ERegister "z" 4)].
Definition rf2 : list wevent :=
  [WNew; WOn 0 (EInput "u"); WNew; WOn 1 (EDeclare "u"); WOn 1 (EApply [1] 1); WOn 1 (ERegister "y" 3); WAdd 0 (Some "A") None 1;
   WOn 0 (EDeclare "y"); WOn 0 (EApply [4] 1); WOn 0 (ERegister "z" 6)].
Definition rfl : list (vplace * vplace) :=
  [(([], 0), ([], 0)); (([], 0), (["A"], 1)); (([], 2), (["A"], 3)); (([], 2), ([], 4)); (([], 4), ([], 6))].
Definition rfs (a a' : nat) : bool := (Nat.eqb a 1 && Nat.eqb a' 2) || (Nat.eqb a 3 && Nat.eqb a' 5).
Definition rfa (a : nat) (args : list N) (k : nat) : N := (N.of_nat a + fold_left N.add args 0)%N.
Definition rfa' (a : nat) (args : list N) (k : nat) : N := rfa (if Nat.eqb a 2 then 1 else if Nat.eqb a 5 then 3 else a) args k.
(** Sharing an intermediate result: g(f(u)) and k(f(u)), with f(u) computed twice and once. *)
Definition rf3 : list wevent :=
  [WNew; WOn 0 (EInput "u"); WOn 0 (EApply [0] 1); WOn 0 (EApply [0] 1); WOn 0 (EApply [2] 1); WOn 0 (EApply [4] 1); WOn 0 (ERegister "y" 6); WOn 0 (ERegister "z" 8)].
Definition rf4 : list wevent :=
  [WNew; WOn 0 (EInput "u"); WOn 0 (EApply [0] 1); WOn 0 (EApply [2] 1); WOn 0 (EApply [2] 1); WOn 0 (ERegister "y" 4); WOn 0 (ERegister "z" 6)].
Definition rfl2 : list (vplace * vplace) := [(([], 0), ([], 0)); (([], 2), ([], 2)); (([], 4), ([], 2)); (([], 6), ([], 4)); (([], 8), ([], 6))].
Definition rfs2 (a a' : nat) : bool := (Nat.eqb a 1 && Nat.eqb a' 1) || (Nat.eqb a 3 && Nat.eqb a' 1) || (Nat.eqb a 5 && Nat.eqb a' 3) || (Nat.eqb a 7 && Nat.eqb a' 5).
Definition rfa2 (a : nat) (args : list N) (k : nat) : N := rfa' (if Nat.eqb a 3 then 1 else if Nat.eqb a 5 then 3 else if Nat.eqb a 7 then 5 else a) args k.

Example c115_nonvacuous : exists um um' m m' c c', let h := w_heap (whistory rf1) in let h' := w_heap (whistory rf2) in
  follows_rules rf1 /\ finished rf1 /\ follows_rules rf2 /\ finished rf2 /\
  tree 3 (whistory rf1) gsh 0 = Some (um, m) /\ tree 3 (whistory rf2) gsh 0 = Some (um', m') /\
  inputs_not_targets h um m /\ inputs_not_targets h' um' m' /\
  compile_in insertion_order h gsh (fun _ => true) um m = Ok c /\ compile_in backwards h' gsh (fun _ => true) um' m' = Ok c' /\
  restructured h um m h' um' m' (fun a a' => rfs a a' = true) (counterparts rfl) /\
  (forall a a', rfs a a' = true -> forall args k, rfa a args k = rfa' a' args k) /\
  (forall p o n, given h um m p o n -> exists p' o' n', counterparts rfl p o p' o' /\ given h' um' m' p' o' n' /\ 100%N = 100%N) /\
  result h gsh (fun _ => true) rfa (fun _ => 100%N) c [] 4 = 104%N /\ result h' gsh (fun _ => true) rfa' (fun _ => 100%N) c' [] 6 = 104%N.
Proof.
  let t := eval vm_compute in (tree 3 (whistory rf1) gsh 0) in match t with Some (?um, ?m) =>
  let t' := eval vm_compute in (tree 3 (whistory rf2) gsh 0) in match t' with Some (?um', ?m') =>
  let s := eval vm_compute in (compile_in insertion_order (w_heap (whistory rf1)) gsh (fun _ => true) um m) in match s with Ok ?c =>
  let s' := eval vm_compute in (compile_in backwards (w_heap (whistory rf2)) gsh (fun _ => true) um' m') in match s' with Ok ?c' => exists um, um', m, m', c, c' end end end end.
  intros h h'.
  assert (F1 : follows_rules rf1) by (apply rules_check; vm_compute; reflexivity). assert (F2 : finished rf1) by (apply finished_check; vm_compute; reflexivity).
  assert (F3 : follows_rules rf2) by (apply rules_check; vm_compute; reflexivity). assert (F4 : finished rf2) by (apply finished_check; vm_compute; reflexivity).
  match goal with |- _ /\ _ /\ _ /\ _ /\ ?T /\ ?T' /\ _ /\ _ /\ ?C /\ ?C' /\ _ =>
    assert (T1 : T) by (vm_compute; reflexivity); assert (T2 : T') by (vm_compute; reflexivity); assert (C1 : C) by (vm_compute; reflexivity); assert (C2 : C') by (vm_compute; reflexivity) end.
  pose proof (c89_well_formed _ _ _ _ _ _ F1 F2 T1) as W1. pose proof (c89_well_formed _ _ _ _ _ _ F3 F4 T2) as W2. fold h in W1. fold h' in W2.
  pose proof (targets_check _ _ _ _ W1 eq_refl) as N1. pose proof (targets_check _ _ _ _ W2 eq_refl) as N2.
  do 10 (split; [assumption|]).
  split; [eapply (restructured_check insertion_order backwards); try eassumption; [exact insertion_lawful|exact backwards_lawful|vm_compute; reflexivity|vm_compute; reflexivity]|].
  split; [|split; [|split; vm_compute; reflexivity]].
  - intros a a' E args k. unfold rfs in E. apply orb_true_iff in E. destruct E as [E|E]; apply andb_true_iff in E; destruct E as [E1 E2]; apply Nat.eqb_eq in E1, E2; subst; reflexivity.
  - intros p o n G. destruct (given_check insertion_order h h' gsh gsh (fun _ => true) _ _ _ _ _ rfl insertion_lawful W1 W2 N1 C1 eq_refl eq_refl p o n G) as (p' & o' & n' & A & B). eauto 6.
Qed.
Example c115_nonvacuous_shared : exists um um' m m' c c', let h := w_heap (whistory rf3) in let h' := w_heap (whistory rf4) in
  follows_rules rf3 /\ finished rf3 /\ follows_rules rf4 /\ finished rf4 /\
  tree 3 (whistory rf3) gsh 0 = Some (um, m) /\ tree 3 (whistory rf4) gsh 0 = Some (um', m') /\
  inputs_not_targets h um m /\ inputs_not_targets h' um' m' /\
  compile_in insertion_order h gsh (fun _ => true) um m = Ok c /\ compile_in backwards h' gsh (fun _ => true) um' m' = Ok c' /\
  restructured h um m h' um' m' (fun a a' => rfs2 a a' = true) (counterparts rfl2) /\
  (forall a a', rfs2 a a' = true -> forall args k, rfa2 a args k = rfa' a' args k) /\
  (forall p o n, given h um m p o n -> exists p' o' n', counterparts rfl2 p o p' o' /\ given h' um' m' p' o' n' /\ 100%N = 100%N) /\
  result h gsh (fun _ => true) rfa2 (fun _ => 100%N) c [] 6 = 104%N /\ result h' gsh (fun _ => true) rfa' (fun _ => 100%N) c' [] 4 = 104%N.
Proof.
  let t := eval vm_compute in (tree 3 (whistory rf3) gsh 0) in match t with Some (?um, ?m) =>
  let t' := eval vm_compute in (tree 3 (whistory rf4) gsh 0) in match t' with Some (?um', ?m') =>
  let s := eval vm_compute in (compile_in insertion_order (w_heap (whistory rf3)) gsh (fun _ => true) um m) in match s with Ok ?c =>
  let s' := eval vm_compute in (compile_in backwards (w_heap (whistory rf4)) gsh (fun _ => true) um' m') in match s' with Ok ?c' => exists um, um', m, m', c, c' end end end end.
  intros h h'.
  assert (F1 : follows_rules rf3) by (apply rules_check; vm_compute; reflexivity). assert (F2 : finished rf3) by (apply finished_check; vm_compute; reflexivity).
  assert (F3 : follows_rules rf4) by (apply rules_check; vm_compute; reflexivity). assert (F4 : finished rf4) by (apply finished_check; vm_compute; reflexivity).
  match goal with |- _ /\ _ /\ _ /\ _ /\ ?T /\ ?T' /\ _ /\ _ /\ ?C /\ ?C' /\ _ =>
    assert (T1 : T) by (vm_compute; reflexivity); assert (T2 : T') by (vm_compute; reflexivity); assert (C1 : C) by (vm_compute; reflexivity); assert (C2 : C') by (vm_compute; reflexivity) end.
  pose proof (c89_well_formed _ _ _ _ _ _ F1 F2 T1) as W1. pose proof (c89_well_formed _ _ _ _ _ _ F3 F4 T2) as W2. fold h in W1. fold h' in W2.
  pose proof (targets_check _ _ _ _ W1 eq_refl) as N1. pose proof (targets_check _ _ _ _ W2 eq_refl) as N2.
  do 10 (split; [assumption|]).
  split; [eapply (restructured_check insertion_order backwards); try eassumption; [exact insertion_lawful|exact backwards_lawful|vm_compute; reflexivity|vm_compute; reflexivity]|].
  split; [|split; [|split; vm_compute; reflexivity]].
  - intros a a' E args k. unfold rfs2 in E. repeat (apply orb_true_iff in E; destruct E as [E|E]); apply andb_true_iff in E; destruct E as [E1 E2]; apply Nat.eqb_eq in E1, E2; subst; reflexivity.
  - intros p o n G. destruct (given_check insertion_order h h' gsh gsh (fun _ => true) _ _ _ _ _ rfl2 insertion_lawful W1 W2 N1 C1 eq_refl eq_refl p o n G) as (p' & o' & n' & A & B). eauto 6.
Qed.
