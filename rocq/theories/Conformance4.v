(** Agreement of the model with the test suite of the repository, fourth part: implicit
    operations.  The programs of csdl/examples/ex_implicit.py, ex_implicit_expose.py and
    ex_bracketed_search.py (and csdl/examples/models) line by line as scripts; the model that
    defines the residuals is the object the script builds, and the calls of the factory are
    those of the example.  csdl/tests/test_implicit.py, test_implicit_expose.py and
    test_bracketed_search.py expect every one of them to be accepted and read the values of the
    states and the exposed variables afterwards. *)
From Coq Require Import QArith.Qcanon.
From Verif Require Import PyBase NamesModel PromotionsModel ExprModel WorldModel ArithModel ArithSpec Rationals ScriptModel ScriptSpec
  ApiModel ImplicitModel FactoryModel Conformance3.
Local Open Scope nat_scope.
Local Open Scope string_scope.
Local Open Scope list_scope.

(** The model with number [k] after a script, as model.py:954-966 reads it. *)
Definition internal (ls : list line) (k : nat) : imodel :=
  let s := prun (assemble ls) in
  match nth_error (w_models (p_world s)) k with
  | None => IModel [] (fun _ => []) [] [] []
  | Some m => IModel (p_heap s) (p_shape s) (wm_ins m) (wm_decls m) (wm_outs m)
  end.
(** The set of variables the dictionaries of model.py:1067-1123 give, in a fixed order. *)
Definition names_among (m : imodel) (universe : list string) (d : dict (list nat)) : list (string * list string) :=
  map (fun e => (fst e, filter (fun n => smem n (map (name_of (im_heap m)) (snd e))) universe)) d.
Definition outcome (ls : list line) (p : parent) (cs : list FactoryModel.call) (args : list (string * shape)) (expose : list string) :=
  let m := internal ls 0 in
  let universe := map (name_of (im_heap m)) (im_decls m) in
  let (p', r) := apply m p (fold_left do_call cs fac0) args expose [] in
  (p_outs p', do x <- r; match x with (mp, st, outs) =>
     Ok (st, outs, names_among m universe (out_in mp), names_among m universe (exp_in mp)) end).
Definition decl (n : string) (s : shape) : line := call (WOn 0 (EDeclare n)) s.
Definition new_model : line := call WNew [].

(** models/quadratic_function.py: y = a * x**2 + b * x + c; expose: t = a + b + c *)
Definition quadratic (s : shape) : list line :=
  [new_model; decl "a" s; decl "b" s; decl "c" s; decl "x" s;
   binl 0 OpPow 4 (lit 2); bin 0 OpMul 1 5; bin 0 OpMul 2 4; bin 0 OpAdd 6 7; bin 0 OpAdd 8 3; Conformance3.register 0 "y" 9].
Definition quadratic_expose : list line :=
  quadratic [1] ++ [bin 0 OpAdd 1 2; bin 0 OpAdd 11 3; Conformance3.register 0 "t" 12].
Definition abc (s : shape) : list (string * shape) := [("a", s); ("b", s); ("c", s)].
Definition newton : list FactoryModel.call := [SetNonlinear NeedsLinear; SetLinear true].
Definition abc_parent : parent := Parent [] ["a"; "b"; "c"] [].

Definition one : pyval := VNum 1.

(** test_implicit_nonlinear *)
Example test_apply_nonlinear : outcome (quadratic [1]) abc_parent (DeclareState "x" "y" None one :: newton) (abc [1]) [] =
  ([("x", [1])], Ok (Solved [] NeedsLinear true, [("x", [1])], [("x", ["a"; "b"; "c"; "x"])], [])).
Proof. vm_compute. reflexivity. Qed.
(** test_implicit_nonlinear_with_expose *)
Example test_apply_nonlinear_expose :
  outcome quadratic_expose abc_parent (DeclareState "x" "y" None one :: newton) (abc [1]) ["t"] =
  ([("x", [1]); ("t", [1])],
   Ok (Solved [] NeedsLinear true, [("x", [1]); ("t", [1])], [("x", ["a"; "b"; "c"; "x"])], [("t", ["a"; "b"; "c"])])).
Proof. vm_compute. reflexivity. Qed.

(** models/fixed_point.py: x - ((x + 3 - x**4) / 2)**(1 / 4), and x - 0.5 * x *)
Definition fixed_point2 (x : string) : list line :=
  [new_model; decl x [1]; binl 0 OpAdd 1 (lit 3); binl 0 OpPow 1 (lit 4); bin 0 OpSub 2 3; binl 0 OpDiv 4 (lit 2);
   binl 0 OpPow 5 (Num (qd 1 4)); bin 0 OpSub 1 6; Conformance3.register 0 "r" 7].
Definition fixed_point2_expose (x : string) : list line :=
  fixed_point2 x ++ [binl 0 OpPow 1 (lit 2); Conformance3.register 0 "t2" 9].
Definition fixed_point3 (x : string) : list line :=
  [new_model; decl x [1]; lbin 0 OpMul (Num (qd 1 2)) 1; bin 0 OpSub 1 2; Conformance3.register 0 "r" 3].
Definition block_gs : list FactoryModel.call := [SetNonlinear OtherSolver].
(** test_fixed_point_iteration: three operations, one after the other; the parent already has
    the results of the earlier ones *)
Example test_fixed_point_2 :
  outcome (fixed_point2 "b") (Parent [] [] [("a", [1])]) (DeclareState "b" "r" None one :: block_gs) [] [] =
  ([("a", [1]); ("b", [1])], Ok (Solved [] OtherSolver false, [("b", [1])], [("b", ["b"])], [])).
Proof. vm_compute. reflexivity. Qed.
Example test_fixed_point_3 :
  outcome (fixed_point3 "c") (Parent [] [] [("a", [1]); ("b", [1])]) (DeclareState "c" "r" None one :: block_gs) [] [] =
  ([("a", [1]); ("b", [1]); ("c", [1])], Ok (Solved [] OtherSolver false, [("c", [1])], [("c", ["c"])], [])).
Proof. vm_compute. reflexivity. Qed.
Example test_fixed_point_expose :
  outcome (fixed_point2_expose "b") (Parent [] [] []) (DeclareState "b" "r" None one :: block_gs) [] ["t2"] =
  ([("b", [1]); ("t2", [1])], Ok (Solved [] OtherSolver false, [("b", [1]); ("t2", [1])], [("b", ["b"])], [("t2", ["b"])])).
Proof. vm_compute. reflexivity. Qed.

(** models/quadratic_wih_extra_term.py: z = a * y**2 + b * y + c - r, with the exposed t3 and t4
    of ex_implicit_expose_with_subsystems_with_expose.py *)
Definition extra_term (s : shape) : list line :=
  [new_model; decl "a" s; decl "b" s; decl "c" s; decl "r" s; decl "y" s;
   binl 0 OpPow 5 (lit 2); bin 0 OpMul 1 6; bin 0 OpMul 2 5; bin 0 OpAdd 7 8; bin 0 OpAdd 9 3; bin 0 OpSub 10 4;
   Conformance3.register 0 "z" 11].
Definition extra_term_expose : list line :=
  extra_term [1] ++ [bin 0 OpAdd 1 2; bin 0 OpAdd 13 3; bin 0 OpSub 14 4; Conformance3.register 0 "t3" 15;
                     binl 0 OpPow 5 (lit 2); Conformance3.register 0 "t4" 17].
Definition abcr (s : shape) : list (string * shape) := [("a", s); ("b", s); ("c", s); ("r", s)].
(** test_implicit_nonlinear_with_subsystems_in_residual *)
Example test_with_subsystems :
  outcome (extra_term [1]) (Parent ["b"] ["r"; "c"] [("a", [1])]) (DeclareState "y" "z" None one :: newton) (abcr [1]) [] =
  ([("a", [1]); ("y", [1])], Ok (Solved [] NeedsLinear true, [("y", [1])], [("y", ["a"; "b"; "c"; "r"; "y"])], [])).
Proof. vm_compute. reflexivity. Qed.
Example test_with_subsystems_expose :
  outcome extra_term_expose (Parent ["b"] ["r"; "c"] [("a", [1]); ("t2", [1])]) (DeclareState "y" "z" None one :: newton) (abcr [1]) ["t3"; "t4"] =
  ([("a", [1]); ("t2", [1]); ("y", [1]); ("t3", [1]); ("t4", [1])],
   Ok (Solved [] NeedsLinear true, [("y", [1]); ("t3", [1]); ("t4", [1])], [("y", ["a"; "b"; "c"; "r"; "y"])],
       [("t3", ["a"; "b"; "c"; "r"]); ("t4", ["y"])])).
Proof. vm_compute. reflexivity. Qed.

(** models/circle_parabola.py: rx = x**2 + (y - r)**2 - r**2, ry = a * y**2 + b * y + c *)
Definition circle : list line :=
  [new_model; decl "r" [1]; decl "a" [1]; decl "b" [1]; decl "c" [1]; decl "x" [1]; decl "y" [1];
   binl 0 OpPow 5 (lit 2); bin 0 OpSub 6 1; binl 0 OpPow 8 (lit 2); bin 0 OpAdd 7 9; binl 0 OpPow 1 (lit 2); bin 0 OpSub 10 11;
   Conformance3.register 0 "rx" 12;
   binl 0 OpPow 6 (lit 2); bin 0 OpMul 2 14; bin 0 OpMul 3 6; bin 0 OpAdd 15 16; bin 0 OpAdd 17 4; Conformance3.register 0 "ry" 18].
Definition circle_expose : list line :=
  circle ++ [bin 0 OpAdd 2 3; bin 0 OpAdd 20 4; Conformance3.register 0 "t1" 21; binl 0 OpPow 5 (lit 2); Conformance3.register 0 "t2" 23;
             lbin 0 OpMul (lit 2) 6; Conformance3.register 0 "t3" 25; bin 0 OpAdd 5 6; Conformance3.register 0 "t4" 27].
Definition rabc : list (string * shape) := [("r", [1]); ("a", [1]); ("b", [1]); ("c", [1])].
Definition both_states : list FactoryModel.call := DeclareState "x" "rx" None one :: DeclareState "y" "ry" None one :: newton.
(** test_multiple_residuals, test_multiple_residuals_with_expose *)
Example test_multiple_residuals :
  outcome circle (Parent [] ["r"; "a"; "b"; "c"] []) both_states rabc [] =
  ([("x", [1]); ("y", [1])],
   Ok (Solved [] NeedsLinear true, [("x", [1]); ("y", [1])], [("x", ["r"; "x"; "y"]); ("y", ["a"; "b"; "c"; "y"])], [])).
Proof. vm_compute. reflexivity. Qed.
Example test_multiple_residuals_expose :
  outcome circle_expose (Parent [] ["r"; "a"; "b"; "c"] []) both_states rabc ["t1"; "t2"; "t3"; "t4"] =
  let outs := [("x", [1]); ("y", [1]); ("t1", [1]); ("t2", [1]); ("t3", [1]); ("t4", [1])] in
  (outs, Ok (Solved [] NeedsLinear true, outs, [("x", ["r"; "x"; "y"]); ("y", ["a"; "b"; "c"; "y"])],
             [("t1", ["a"; "b"; "c"]); ("t2", ["x"]); ("t3", ["y"]); ("t4", ["x"; "y"])])).
Proof. vm_compute. reflexivity. Qed.

(** test_bracketed_search.py: brackets that are numbers, arrays and variables *)
Example test_bracketed_scalar :
  outcome (quadratic [1]) abc_parent [DeclareState "x" "y" (Some [BNumber; BNumber]) one] (abc [1]) [] =
  ([("x", [1])], Ok (Bracketed [("x", [BNumber; BNumber])], [("x", [1])], [("x", ["a"; "b"; "c"; "x"])], [])).
Proof. vm_compute. reflexivity. Qed.
Example test_bracketed_array :
  outcome (quadratic [2]) abc_parent [DeclareState "x" "y" (Some [BShape [2]; BShape [2]]) one] (abc [2]) [] =
  ([("x", [2])], Ok (Bracketed [("x", [BShape [2]; BShape [2]])], [("x", [2])], [("x", ["a"; "b"; "c"; "x"])], [])).
Proof. vm_compute. reflexivity. Qed.
Example test_bracketed_array_subsystems :
  outcome (extra_term [2]) (Parent [] ["b"; "c"; "r"] [("ap", [1]); ("a", [2])])
    (DeclareState "y" "z" (Some [BShape [2]; BShape [2]]) one :: block_gs) (abcr [2]) [] =
  ([("ap", [1]); ("a", [2]); ("y", [2])],
   Ok (Bracketed [("y", [BShape [2]; BShape [2]])], [("y", [2])], [("y", ["a"; "b"; "c"; "r"; "y"])], [])).
Proof. vm_compute. reflexivity. Qed.

(** The examples with one change each, which model.py:1004-1065 rejects: a missing argument name,
    a wrong shape, a residual without the state, Newton without a linear solver. *)
Example changed_examples :
  snd (outcome (quadratic [1]) abc_parent (DeclareState "x" "y" None one :: newton) [("a", [1]); ("d", [1])] []) = Err ValueError /\
  snd (outcome (quadratic [1]) abc_parent (DeclareState "x" "y" None one :: newton) (abc [2]) []) = Err ValueError /\
  snd (outcome circle (Parent [] [] []) (DeclareState "x" "ry" None one :: newton) rabc []) = Err ValueError /\
  snd (outcome (quadratic [1]) abc_parent [DeclareState "x" "y" None one; SetNonlinear NeedsLinear] (abc [1]) []) = Err ValueError.
Proof. vm_compute. repeat split. Qed.
