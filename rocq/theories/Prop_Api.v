(** Property theorems C09 - C12, C45, C47. *)
From Verif Require Import PyBase NamesModel PromotionsModel ApiModel ApiSpec ApiProofs.
Local Open Scope string_scope.
Local Open Scope list_scope.

(** C09, the part that holds: after any history of calls (exceptions caught) registered
    outputs are distinct objects with distinct names, and a name accepted for an output
    belongs at that moment to no other output, input or declared variable. *)
Theorem c09_outputs_distinct_partial :
  forall l, NoDup (map (out_name (build l)) (s_outs (build l))) /\ NoDup (s_outs (build l)).
Proof. exact outputs_distinct. Qed.
Print Assumptions c09_outputs_distinct_partial.

Theorem c09_new_output_fresh_partial :
  forall l c s, s = build l -> snd (step s c) = Ok tt ->
  s_outs (fst (step s c)) = s_outs s \/
  exists o, s_outs (fst (step s c)) = s_outs s ++ [o] /\
    (forall o', In o' (s_outs s) -> out_name (fst (step s c)) o' = out_name s o') /\
    let n := out_name (fst (step s c)) o in
    ~ In n (map (out_name s) (s_outs s)) /\ ~ In n (map v_name (s_inputs s)) /\ ~ In n (map v_name (s_decls s)) /\
    check_banned_chars n = Ok tt.
Proof. exact registered_name_fresh. Qed.
Print Assumptions c09_new_output_fresh_partial.
Definition ex_hist : list call :=
  [CreateInput "x" [2] (VNum 3); DeclareVariable "d" [1] None; NewOutput [2] 1; RegisterOutput "y" (Some 0);
   CreateOutput "z" [2] (VNum 0); RegisterOutput "z" (Some 0); Add (Some "A") true 7 None; Add None true 8 None;
   Connect "y" "A.q"; AddObjective "y"; AddDesignVariable "x" (Some (BNum 0)) None;
   AddConstraint "z" (Some (BNum 0)) (Some (BArr [1; 2]%Z)) None].
Example c09_nonvacuous : map (out_name (build ex_hist)) (s_outs (build ex_hist)) = ["y"; "z"].
Proof. vm_compute; reflexivity. Qed.

(** C09 as stated fails: create_input and declare_variable do not look at the names in use. *)
Theorem c09_unique_names_refuted :
  (exists l, ~ NoDup (map v_name (s_inputs (build l))) /\ Forall (fun k => snd (step (build (firstn k l)) (nth k l (Connect "" ""))) = Ok tt) (seq 0 (length l))) /\
  (exists l n, In n (map (out_name (build l)) (s_outs (build l))) /\ In n (map v_name (s_inputs (build l))) /\ In n (map v_name (s_decls (build l))) /\
     Forall (fun k => snd (step (build (firstn k l)) (nth k l (Connect "" ""))) = Ok tt) (seq 0 (length l))).
Proof.
  split.
  - exists [CreateInput "x" [1] (VNum 1); CreateInput "x" [2] (VNum 1)]. split.
    + intros H. inversion H as [|a b N _]. apply N. left. reflexivity.
    + repeat constructor.
  - exists [CreateOutput "x" [1] (VNum 1); CreateInput "x" [2] (VNum 1); DeclareVariable "x" [3] None], "x".
    split; [left; reflexivity|]. split; [left; reflexivity|]. split; [left; reflexivity|]. repeat constructor.
Qed.
Print Assumptions c09_unique_names_refuted.

(** C10: a call that raises leaves the model as it was. *)
Theorem c10_rejected_call_no_effect :
  forall s c e, snd (step s c) = Err e -> same_data s (fst (step s c)).
Proof. exact rejected_same. Qed.
Print Assumptions c10_rejected_call_no_effect.
Example c10_nonvacuous :
  snd (step (build ex_hist) (CreateOutput "x" [2] (VNum 0))) = Err ValueError /\
  snd (step (build ex_hist) (AddConstraint "q" (Some (BNum 2)) (Some (BArr [3; 1]%Z)) None)) = Err ValueError.
Proof. split; vm_compute; reflexivity. Qed.

(** C11: optimisation data and connections of every reachable model. *)
Theorem c11_optimisation_data_consistent :
  forall l, let s := build l in
  (NoDup (dkeys (s_dvs s)) /\ incl (dkeys (s_dvs s)) (map v_name (s_inputs s))) /\
  NoDup (dkeys (s_cons s)) /\
  (forall n k lo hi, In (n, k) (s_cons s) -> k_lower k = Some lo -> k_upper k = Some hi -> nowhere_above lo hi) /\
  NoDup (s_conns s) /\ (forall a b, In (a, b) (s_conns s) -> a <> b).
Proof. exact opt_consistent. Qed.
Print Assumptions c11_optimisation_data_consistent.

Theorem c11_objective_never_changes :
  forall l l' n, s_obj (build l) = Some n -> s_obj (build (l ++ l')) = Some n.
Proof. exact obj_stable. Qed.
Print Assumptions c11_objective_never_changes.
Example c11_nonvacuous :
  s_obj (build ex_hist) = Some "y" /\ dkeys (s_dvs (build ex_hist)) = ["x"] /\ dkeys (s_cons (build ex_hist)) = ["z"] /\
  s_conns (build ex_hist) = [("y", "A.q")].
Proof. repeat split; vm_compute; reflexivity. Qed.

(** C12: submodels. *)
Theorem c12_explicit_names_distinct : forall l, NoDup (explicit_names (build l)).
Proof. exact explicit_nodup. Qed.
Print Assumptions c12_explicit_names_distinct.
Theorem c12_submodels_kept_in_order :
  forall l l', exists t, s_subs (build (l ++ l')) = s_subs (build l) ++ t.
Proof. exact subs_grow. Qed.
Print Assumptions c12_submodels_kept_in_order.
Theorem c12_add_recorded :
  forall s n m pr, snd (step s (Add n true m pr)) = Ok tt ->
  exists b, s_subs (fst (step s (Add n true m pr))) = s_subs s ++ [b] /\ sb_model b = m /\ sb_prom b = pr /\
    match n with
    | Some x => sb_name b = x /\ sb_auto b = false /\ ~ In x (map sb_name (s_subs s))
    | None => sb_auto b = true
    end.
Proof. exact add_effect. Qed.
Print Assumptions c12_add_recorded.
Theorem c12_only_add_changes_submodels :
  forall s c, (forall n im m pr, c <> Add n im m pr) -> s_subs (fst (step s c)) = s_subs s.
Proof. exact only_add_adds. Qed.
Print Assumptions c12_only_add_changes_submodels.
Example c12_nonvacuous :
  explicit_names (build ex_hist) = ["A"] /\ map sb_model (s_subs (build ex_hist)) = [7; 8] /\
  snd (step (build ex_hist) (Add (Some "A") true 9 None)) = Err KeyError.
Proof. repeat split; vm_compute; reflexivity. Qed.

(** C45: shape and value of created variables. *)
Theorem c45_create_input :
  forall s n sh v, snd (step s (CreateInput n sh v)) = Ok tt ->
  exists vi, s_inputs (fst (step s (CreateInput n sh v))) = s_inputs s ++ [vi] /\
    v_name vi = n /\ v_size vi = prod (v_shape vi) /\ val_ok sh v vi.
Proof. exact create_input_value. Qed.
Print Assumptions c45_create_input.
Theorem c45_declare_variable :
  forall s n sh ov, snd (step s (DeclareVariable n sh ov)) = Ok tt ->
  exists vi, s_decls (fst (step s (DeclareVariable n sh ov))) = s_decls s ++ [vi] /\
    v_name vi = n /\ v_size vi = prod (v_shape vi) /\
    v_default vi = (match ov with None => true | Some _ => false end) /\
    val_ok sh (match ov with None => VNum 1 | Some v => v end) vi.
Proof. exact declare_value. Qed.
Print Assumptions c45_declare_variable.
Theorem c45_create_output :
  forall s n sh v, snd (step s (CreateOutput n sh v)) = Ok tt ->
  exists vi, nth_error (s_heap (fst (step s (CreateOutput n sh v)))) (length (s_heap s)) = Some vi /\
    s_outs (fst (step s (CreateOutput n sh v))) = s_outs s ++ [length (s_heap s)] /\
    v_name vi = n /\ v_size vi = 1 /\ val_ok sh v vi.
Proof. exact create_output_value. Qed.
Print Assumptions c45_create_output.
Theorem c45_value_rejected :
  forall sh v, (exists e, (do v' <- check_default_val_type v; get_shape_val sh v' false) = Err e) <->
  v = VOther \/ (exists a, (v = VArr a \/ v = VList a) /\ sh <> [1] /\ a_shape a <> sh).
Proof. exact value_rejected. Qed.
Print Assumptions c45_value_rejected.
Example c45_nonvacuous :
  snd (step mst0 (CreateInput "x" [1] (VList (Arr [2; 2] [1; 2; 3; 4]%Z)))) = Ok tt /\
  snd (step mst0 (CreateOutput "x" [4] (VArr (Arr [2; 2] [1; 2; 3; 4]%Z)))) = Err ValueError.
Proof. split; vm_compute; reflexivity. Qed.

(** C47: the [size] attribute of an output made by create_output is always 1. *)
Theorem c47_size_attribute_refuted :
  exists s n sh v vi, snd (step s (CreateOutput n sh v)) = Ok tt /\
    nth_error (s_heap (fst (step s (CreateOutput n sh v)))) (length (s_heap s)) = Some vi /\
    v_shape vi = [2; 3] /\ v_size vi = 1.
Proof.
  exists mst0, "y", [2; 3], (VNum 0). eexists. repeat split; vm_compute; reflexivity.
Qed.
Print Assumptions c47_size_attribute_refuted.
