(** Property theorems C111: the optimization problem does not change what a model computes. *)
From Verif Require Import PyBase NamesModel PromotionsModel PromotionsSpec PromotionsProofs HierModel HierSpec Digraph TopoModel FlatModel ExprModel UnflatModel UnflatSpec
  FlattenModel FlattenSpec CompileModel CompileSpec AcceptSpec WorldModel WorldSpec WorldSpec2 Prop_World IterModel IterSpec Prop_Iter Prop_Extend WorldCheck OptionSpec OptionProofs OptionProofs2.
Local Open Scope string_scope.
Local Open Scope list_scope.

(** C111, hierarchies: two compiled hierarchies that differ only in their design variables,
    constraints and objectives agree in all other attributes and in the values of all variables. *)
Theorem c111_hierarchy : forall it h shp dflt um m m' c c', plain m = plain m' ->
  compile_in it h shp dflt um m = Ok c -> compile_in it h shp dflt um m' = Ok c' ->
  same_but_problem c c' /\
  forall V (apply : nat -> list V -> nat -> V) init p o, result h shp dflt apply init c p o = result h shp dflt apply init c' p o.
Proof.
  intros it h shp dflt um m m' c c' E H H'. destruct (plain_compiles it h shp dflt um m c H) as (d & D & S & _). destruct (plain_compiles it h shp dflt um m' c' H') as (d' & D' & S' & _).
  assert (Q : same_but_problem c c'). { apply same_trans with d; [exact S|]. rewrite E, D' in D. injection D as <-. apply same_sym, S'. }
  split; [exact Q|]. intros V apply init p o. apply same_result, Q.
Qed.
Print Assumptions c111_hierarchy.

(** C111, acceptance: a hierarchy compiles if and only if it compiles without its optimization
    problem, its design variables name different variables, so do its constraints, and there is at
    most one objective, which names a variable. *)
Theorem c111_accepted : forall it h shp dflt um m, well_named m ->
  ((exists c, compile_in it h shp dflt um m = Ok c) <->
   (exists c', compile_in it h shp dflt um (plain m) = Ok c' /\ c_dvs c' = [] /\ c_objective c' = None /\ c_cons c' = []) /\ options_ok m m_dvs /\ options_ok m m_cons /\ objective_ok m).
Proof.
  intros it h shp dflt um m W. split.
  - intros (c & H). destruct (plain_compiles it h shp dflt um m c H) as (d & D & _ & Q). split; [eauto|]. exact (compiles_options it h shp dflt um m c W H).
  - intros ((c' & H & _) & A & B & C). exact (compiles_plain it h shp dflt um m c' W H A B C).
Qed.
Print Assumptions c111_accepted.

(** C111, programs: if two programs make the same calls except for add_design_variable,
    add_constraint and add_objective, then they build the same objects and the same models except
    for the optimization problem, and their compilations agree as above. *)
Theorem c111_program : forall l l' shp f k um m, without_problem l = without_problem l' -> tree f (whistory l) shp k = Some (um, m) ->
  w_heap (whistory l') = w_heap (whistory l) /\
  exists m', tree f (whistory l') shp k = Some (um, m') /\ plain m = plain m' /\
    forall it dflt c c', compile_in it (w_heap (whistory l)) shp dflt um m = Ok c -> compile_in it (w_heap (whistory l')) shp dflt um m' = Ok c' ->
      same_but_problem c c' /\
      forall V (apply : nat -> list V -> nat -> V) init p o,
        result (w_heap (whistory l')) shp dflt apply init c' p o = result (w_heap (whistory l)) shp dflt apply init c p o.
Proof.
  intros l l' shp f k um m E T. assert (B : bare_world (whistory l) = bare_world (whistory l')) by (rewrite !bare_history, E; reflexivity).
  assert (H : w_heap (whistory l') = w_heap (whistory l)) by exact (f_equal w_heap (eq_sym B)). split; [exact H|].
  pose proof (tree_bare (whistory l) shp f k) as T1. pose proof (tree_bare (whistory l') shp f k) as T2. rewrite <- B, T1, T in T2. cbn [option_map fst snd] in T2.
  destruct (tree f (whistory l') shp k) as [[um' m']|] eqn:T'; [|discriminate]. cbn [option_map fst snd] in T2. injection T2 as <- P. exists m'. split; [reflexivity|]. split; [exact P|].
  rewrite H. intros it dflt c c' C C'. destruct (c111_hierarchy it _ shp dflt um m m' c c' P C C') as [Q R]. split; [exact Q|]. intros. symmetry. apply R.
Qed.
Print Assumptions c111_program.

(** C111, acceptance of programs: a program compiles if and only if it compiles without these calls
    and what they declare is in order. *)
Theorem c111_program_accepted : forall it l shp dflt f k um m, follows_rules l -> finished l -> tree f (whistory l) shp k = Some (um, m) ->
  exists m', tree f (whistory (without_problem l)) shp k = Some (um, m') /\
  ((exists c, compile_in it (w_heap (whistory l)) shp dflt um m = Ok c) <->
   (exists c', compile_in it (w_heap (whistory (without_problem l))) shp dflt um m' = Ok c') /\ options_ok m m_dvs /\ options_ok m m_cons /\ objective_ok m).
Proof.
  intros it l shp dflt f k um m FR FI T. pose proof (c89_well_formed _ _ _ _ _ _ FR FI T) as WF. exists (plain m). rewrite <- bare_history, tree_bare, T. split; [reflexivity|]. cbn [bare_world w_heap].
  rewrite (c111_accepted it _ shp dflt um m (f_named WF)). split; intros ((c & H) & R); (split; [|exact R]); [destruct H; eauto|]. exists c. split; [exact H|].
  pose proof H as H'. apply compile_rest in H'. destruct H' as (r & cs & dvs & ob & csts & x & R1 & _ & D & O & C & _ & ->). rewrite plain_resolve in R1. destruct (resolve_maps m r R1) as (mp & M).
  destruct (plain_rep m mp M) as (D' & C' & O'). rewrite D in D'. rewrite C in C'. rewrite O in O'. injection D' as ->. injection C' as ->. injection O' as ->. destruct x as [[lg [[[g2 p2n] u2n] conns]] order]. auto.
Qed.
Print Assumptions c111_program_accepted.

(** A model with a design variable, a constraint and an objective, declared between its other calls. *)
Definition op : list wevent :=
  [WNew; WConstraint 0 "y"; WOn 0 (EInput "u"); WDesign 0 "u"; WNew; WOn 1 (EDeclare "u"); WOn 1 (EApply [1] 1); WOn 1 (ERegister "y" 3); WAdd 0 (Some "A") None 1; WObjective 1 "y"].
Definition op_u : umodel := UM [0] [] [] [("A", UM [] [3] [1] [])].
Definition op_m : model := Mdl [("u", [2])] [] [] [] ["u"] ["y"] None [("A", None, Mdl [] [("y", [2])] [("u", [2])] [] [] [] (Some "y") [])].
Example c111_nonvacuous : exists c c', follows_rules op /\ finished op /\ tree 3 (whistory op) gsh 0 = Some (op_u, op_m) /\ tree 3 (whistory (without_problem op)) gsh 0 = Some (op_u, plain op_m) /\
  without_problem op <> op /\ compile_in backwards (w_heap (whistory op)) gsh (fun _ => true) op_u op_m = Ok c /\ c_dvs c = [("u", ("", "u"))] /\ c_cons c = [("y", ("", "y"))] /\ c_objective c = Some "y" /\
  compile_in backwards (w_heap (whistory (without_problem op))) gsh (fun _ => true) op_u (plain op_m) = Ok c' /\ c_dvs c' = [] /\
  result (w_heap (whistory op)) gsh (fun _ => true) gf (fun _ => 100%N) c ["A"] 3 = 102%N /\ result (w_heap (whistory op)) gsh (fun _ => true) gf (fun _ => 100%N) c' ["A"] 3 = 102%N.
Proof.
  let t := eval vm_compute in (compile_in backwards (w_heap (whistory op)) gsh (fun _ => true) op_u op_m) in match t with Ok ?c =>
  let t' := eval vm_compute in (compile_in backwards (w_heap (whistory (without_problem op))) gsh (fun _ => true) op_u (plain op_m)) in match t' with Ok ?c' => exists c, c' end end.
  split; [apply rules_check; vm_compute; reflexivity|]. split; [apply finished_check; vm_compute; reflexivity|]. split; [vm_compute; reflexivity|]. split; [vm_compute; reflexivity|]. split; [discriminate|].
  repeat split; vm_compute; reflexivity.
Qed.
