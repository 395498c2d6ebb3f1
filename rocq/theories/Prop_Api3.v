(** Property theorems C96: the names csdl chooses by itself. *)
From Verif Require Import PyBase NamesModel PromotionsModel ApiModel ApiSpec ApiSpec2 ApiSpec3 ApiProofs3.
Local Open Scope string_scope.
Local Open Scope list_scope.

(** C96: the name of the result of an expression is the id of the number of objects
    constructed before it, in the whole history; the object holds what the expression gave. *)
Theorem c96_expression_names :
  forall l sh k n, constructed l n ->
    exists x, gen_hex_name (n + k) = Some x /\
      s_heap (build (l ++ [NewOutput sh k])) = s_heap (build l) ++ [VInfo x sh None (prod sh) false].
Proof. exact unnamed_output. Qed.
Print Assumptions c96_expression_names.

(** ... and the name of an unnamed submodel is the id that follows. *)
Theorem c96_submodel_names :
  forall l m pr n, constructed l n ->
    exists x, gen_hex_name (n + 1) = Some x /\
      s_subs (build (l ++ [Add None true m pr])) = s_subs (build l) ++ [Subm x true pr m].
Proof. exact unnamed_submodel. Qed.
Print Assumptions c96_submodel_names.

(** Every history has constructed exactly one number of objects, so the names are determined. *)
Theorem c96_names_determined :
  forall l, exists n, forall k, constructed l k <-> k = n.
Proof. intros l. exists (s_count (build l)). intros k. rewrite count_iff. split; congruence. Qed.
Print Assumptions c96_names_determined.

(** C96: the objects made by [print_var] and [create_output]. *)
Theorem c96_print_object :
  forall s o v, nth_error (s_heap s) o = Some v -> snd (step s (PrintVar o)) = Ok tt ->
    s_heap (fst (step s (PrintVar o))) =
      s_heap s ++ [VInfo (v_name v ++ "_print")%string (v_shape v) None (prod (v_shape v)) false].
Proof. exact print_object. Qed.
Print Assumptions c96_print_object.
Theorem c96_created_object :
  forall s n sh v, snd (step s (CreateOutput n sh v)) = Ok tt ->
    exists x, s_heap (fst (step s (CreateOutput n sh v))) = s_heap s ++ [x] /\ v_name x = n /\ v_default x = false.
Proof. exact created_object. Qed.
Print Assumptions c96_created_object.

(** A rejected value still uses up an id; a rejected name does not. *)
Definition ex_hist3 : list call :=
  [CreateInput "x" [2] (VNum 3); CreateInput "x" [3] (VArr (Arr [2] [1; 2]%Z)); CreateInput "a.b" [1] (VNum 0);
   NewOutput [2] 1; RegisterOutput "y" (Some 0); PrintVar 0; Add None true 4 None].
Example c96_nonvacuous :
  constructed ex_hist3 7 /\ map sb_name (s_subs (build ex_hist3)) = ["_0007"] /\
  map v_name (s_heap (build (ex_hist3 ++ [NewOutput [5] 1]))) = ["y"; "y_print"; "_0008"].
Proof. rewrite count_iff. split; [|split]; vm_compute; reflexivity. Qed.
