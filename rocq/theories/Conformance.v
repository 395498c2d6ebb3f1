(** Agreement of the model with the test suite of the repository: the programs of
    csdl/examples/ex_connections.py and ex_promotions.py, transcribed as calls of WorldModel,
    compile to what csdl/tests/test_connections.py and test_promotions.py expect, an error of
    the given class or the given values. *)
From Verif Require Import PyBase NamesModel PromotionsModel Digraph FlatModel ExprModel UnflatModel FlattenModel CompileModel CompileSpec WorldModel.
From Coq Require Import QArith.
Local Open Scope string_scope.
Local Open Scope nat_scope.
Local Open Scope list_scope.

(** What the operations of the programs compute, on flat arrays. *)
Inductive fn := FNone | FAdd | FSub | FMul | FAddC (c : Q) | FMulC (c : Q) | FConcat.
Definition map2 (f : Q -> Q -> Q) (a b : list Q) : list Q := map (fun p => f (fst p) (snd p)) (combine a b).
Definition fn_apply (f : fn) (args : list (list Q)) : list Q :=
  match f, args with
  | FAdd, [a; b] => map2 Qplus a b
  | FSub, [a; b] => map2 Qminus a b
  | FMul, [a; b] => map2 Qmult a b
  | FAddC c, [a] => map (fun x => x + c)%Q a
  | FMulC c, [a] => map (fun x => x * c)%Q a
  | FConcat, _ => concat args
  | _, _ => []
  end.

(** A program: its calls, and for each object, in the order of creation, its shape, its
    default value and (operations) its meaning. *)
Record example := Example_ { x_calls : list wevent; x_shapes : list shape; x_values : list (list Q); x_fns : list fn }.
Definition x_shp (x : example) (o : nat) : shape := nth o (x_shapes x) [].

(** Compile the first model. *)
Definition outcome (x : example) : res compiled :=
  match tree 20 (whistory (x_calls x)) (x_shp x) 0 with
  | Some (um, m) => compile (w_heap (whistory (x_calls x))) (x_shp x) (fun _ => true) um m
  | None => Err RuntimeError
  end.
(** Run it: every node starts with the value of its own object. *)
Definition final (x : example) (c : compiled) : irnode -> list Q :=
  fold_left (exec (w_heap (whistory (x_calls x))) (fun o args _ => fn_apply (nth o (x_fns x) FNone) args) c) (c_order c)
    (fun n => match n with NObj _ o => nth o (x_values x) [] | NModel _ _ => [] end).
(** sim[name]. *)
Definition by_name (x : example) (c : compiled) (n : string) : option (list Q) :=
  let node := match dget (c_u2n c) n with Some v => Some v | None => dget (c_p2n c) n end in
  match node with
  | None => None
  | Some v => Some (final x c (match cget irnode_eqb (c_conns c) v with Some s => s | None => v end))
  end.
Fixpoint qs_eqb (a b : list Q) : bool :=
  match a, b with [], [] => true | x :: a, y :: b => Qeq_bool x y && qs_eqb a b | _, _ => false end.
Definition gives (x : example) (expected : list (string * list Q)) : bool :=
  match outcome x with
  | Err _ => false
  | Ok c => forallb (fun e => match by_name x c (fst e) with Some v => qs_eqb v (snd e) | None => false end) expected
  end.

(** csdl/examples/ex_connections.py: ExampleConnectDifferentLevels *)
Definition co_levels : example := Example_
  [WNew;
   WOn 0 (EInput "a");
   WNew;
   WOn 1 (EDeclare "a");
   WOn 1 (EDeclare "b");
   WOn 1 (EApply [1; 2] 1);
   WOn 1 (ERegister "f" 4);
   WAdd 0 (Some "A") (Some []) 1;
   WOn 0 (EDeclare "f1");
   WOn 0 (EApply [0; 5] 1);
   WOn 0 (ERegister "y" 7);
   WConnect 0 "A.f" "f1"]
  [[1]; [1]; [1]; []; [1]; [1]; []; [1]]
  [[(1 # 1)]; [(3 # 1)]; [(1 # 1)]; []; []; [(1 # 1)]; []; []]
  [FNone; FNone; FNone; FAdd; FNone; FNone; FAdd; FNone].
Example co_levels_ok : gives co_levels [("y", [(5 # 1)])] = true.
Proof. vm_compute. reflexivity. Qed.

(** csdl/examples/ex_connections.py: ExampleConnectWithinSameModel *)
Definition co_same : example := Example_
  [WNew;
   WOn 0 (EInput "a");
   WOn 0 (EInput "b");
   WOn 0 (EApply [0; 1] 1);
   WOn 0 (EDeclare "f1");
   WOn 0 (EApply [3; 4] 1);
   WOn 0 (ERegister "y" 6);
   WConnect 0 "b" "f1"]
  [[1]; [1]; []; [1]; [1]; []; [1]]
  [[(1 # 1)]; [(2 # 1)]; []; []; [(1 # 1)]; []; []]
  [FNone; FNone; FAdd; FNone; FNone; FAdd; FNone].
Example co_same_ok : gives co_same [("y", [(5 # 1)])] = true.
Proof. vm_compute. reflexivity. Qed.

(** csdl/examples/ex_connections.py: ExampleConnectPromotedOutputToDeclared *)
Definition co_promoted : example := Example_
  [WNew;
   WOn 0 (EInput "a");
   WNew;
   WOn 1 (EDeclare "a");
   WOn 1 (EDeclare "b");
   WOn 1 (EApply [1; 2] 1);
   WOn 1 (ERegister "f" 4);
   WAdd 0 (Some "A") None 1;
   WOn 0 (EDeclare "f1");
   WOn 0 (EApply [0; 5] 1);
   WOn 0 (ERegister "y" 7);
   WConnect 0 "f" "f1"]
  [[1]; [1]; [1]; []; [1]; [1]; []; [1]]
  [[(1 # 1)]; [(3 # 1)]; [(1 # 1)]; []; []; [(1 # 1)]; []; []]
  [FNone; FNone; FNone; FAdd; FNone; FNone; FAdd; FNone].
Example co_promoted_ok : gives co_promoted [("y", [(3 # 1)])] = true.
Proof. vm_compute. reflexivity. Qed.

(** csdl/examples/ex_connections.py: ExampleNestedUnpromotedConnections *)
Definition co_nested : example := Example_
  [WNew;
   WOn 0 (EInput "a");
   WNew;
   WOn 1 (EInput "a1");
   WNew;
   WOn 2 (EInput "a2");
   WNew;
   WOn 3 (EInput "a3");
   WNew;
   WOn 4 (EInput "a4");
   WOn 4 (EApply [4] 1);
   WOn 4 (ERegister "b4" 6);
   WAdd 3 (Some "m4") (Some []) 4;
   WOn 3 (EDeclare "b4_connect");
   WOn 3 (EApply [3; 7] 1);
   WOn 3 (ERegister "b3" 9);
   WAdd 2 (Some "m3") (Some []) 3;
   WOn 2 (EDeclare "b3_connect");
   WOn 2 (EApply [2; 10] 1);
   WOn 2 (ERegister "b2" 12);
   WAdd 1 (Some "m2") (Some []) 2;
   WOn 1 (EDeclare "b2_connect");
   WOn 1 (EApply [1; 13] 1);
   WOn 1 (ERegister "b1" 15);
   WAdd 0 (Some "m1") (Some []) 1;
   WOn 0 (EDeclare "b1_connect");
   WConnect 0 "m1.b1" "b1_connect";
   WConnect 0 "m1.m2.b2" "m1.b2_connect";
   WConnect 0 "m1.m2.m3.b3" "m1.m2.b3_connect";
   WConnect 0 "m1.m2.m3.m4.b4" "m1.m2.m3.b4_connect";
   WOn 0 (EApply [0; 16] 1);
   WOn 0 (ERegister "y" 18)]
  [[1]; [1]; [1]; [1]; [1]; []; [1]; [1]; []; [1]; [1]; []; [1]; [1]; []; [1]; [1]; []; [1]]
  [[(1 # 1)]; [(1 # 1)]; [(1 # 1)]; [(1 # 1)]; [(1 # 1)]; []; []; [(1 # 1)]; []; []; [(1 # 1)]; []; []; [(1 # 1)]; []; []; [(1 # 1)]; []; []]
  [FNone; FNone; FNone; FNone; FNone; (FAddC (3 # 1)); FNone; FNone; FAdd; FNone; FNone; FAdd; FNone; FNone; FAdd; FNone; FNone; FAdd; FNone].
Example co_nested_ok : gives co_nested [("y", [(8 # 1)])] = true.
Proof. vm_compute. reflexivity. Qed.

(** csdl/examples/ex_connections.py: ErrorConnectingWrongArgOrder *)
Definition co_order : example := Example_
  [WNew;
   WOn 0 (EInput "a");
   WOn 0 (EDeclare "b1");
   WConnect 0 "b1" "a";
   WOn 0 (EApply [0; 1] 1);
   WOn 0 (ERegister "y" 3)]
  [[1]; [1]; []; [1]]
  [[(1 # 1)]; [(1 # 1)]; []; []]
  [FNone; FNone; FAdd; FNone].
Example co_order_ok : outcome co_order = Err ValueError.
Proof. vm_compute. reflexivity. Qed.

(** csdl/examples/ex_connections.py: ErrorConnectingTwoVariables *)
Definition co_two : example := Example_
  [WNew;
   WOn 0 (EInput "a");
   WOn 0 (EDeclare "b");
   WOn 0 (EApply [0; 1] 1);
   WOn 0 (ERegister "f" 3);
   WOn 0 (EDeclare "c");
   WOn 0 (EDeclare "d");
   WOn 0 (EApply [4; 5] 1);
   WOn 0 (ERegister "f2" 7);
   WConnect 0 "f" "c";
   WConnect 0 "a" "c"]
  [[1]; [1]; []; [1]; [1]; [1]; []; [1]]
  [[(3 # 1)]; [(1 # 1)]; []; []; [(1 # 1)]; [(1 # 1)]; []; []]
  [FNone; FNone; FAdd; FNone; FNone; FNone; FAdd; FNone].
Example co_two_ok : outcome co_two = Err KeyError.
Proof. vm_compute. reflexivity. Qed.

(** csdl/examples/ex_connections.py: ExampleConnectingVarsAcrossModels *)
Definition co_across : example := Example_
  [WNew;
   WOn 0 (EInput "a");
   WNew;
   WOn 1 (EDeclare "a1");
   WOn 1 (EApply [1] 1);
   WOn 1 (ERegister "b1" 3);
   WAdd 0 None None 1;
   WNew;
   WOn 2 (EDeclare "a2");
   WOn 2 (EApply [4] 1);
   WOn 2 (ERegister "b2" 6);
   WAdd 0 None None 2;
   WNew;
   WOn 3 (EDeclare "a3");
   WOn 3 (EDeclare "a4");
   WOn 3 (EApply [7; 8] 1);
   WOn 3 (ERegister "b3" 10);
   WAdd 0 None None 3;
   WOn 0 (EDeclare "b4");
   WOn 0 (EApply [11] 1);
   WOn 0 (ERegister "y" 13);
   WConnect 0 "a" "a1";
   WConnect 0 "b1" "a2";
   WConnect 0 "b1" "a3";
   WConnect 0 "b2" "a4";
   WConnect 0 "b3" "b4"]
  [[1]; [1]; []; [1]; [1]; []; [1]; [1]; [1]; []; [1]; [1]; []; [1]]
  [[(3 # 1)]; [(1 # 1)]; []; []; [(1 # 1)]; []; []; [(1 # 1)]; [(1 # 1)]; []; []; [(1 # 1)]; []; []]
  [FNone; FNone; (FAddC (3 # 1)); FNone; FNone; (FAddC (3 # 1)); FNone; FNone; FNone; FAdd; FNone; FNone; (FAddC (1 # 1)); FNone].
Example co_across_ok : gives co_across [("y", [(16 # 1)])] = true.
Proof. vm_compute. reflexivity. Qed.

(** csdl/examples/ex_connections.py: ExampleConnectingVarsInModels *)
Definition co_in : example := Example_
  [WNew;
   WNew;
   WAdd 0 None None 1;
   WOn 1 (EDeclare "a");
   WOn 1 (EInput "b");
   WOn 1 (EApply [0; 1] 1);
   WOn 1 (EDeclare "c");
   WOn 1 (EApply [3; 4] 1);
   WOn 1 (ERegister "y" 6);
   WConnect 1 "b" "c"]
  [[1]; [1]; []; [1]; [1]; []; [1]]
  [[(1 # 1)]; [(1 # 1)]; []; []; [(1 # 1)]; []; []]
  [FNone; FNone; FAdd; FNone; FNone; FAdd; FNone].
Example co_in_ok : gives co_in [("y", [(3 # 1)])] = true.
Proof. vm_compute. reflexivity. Qed.

(** csdl/examples/ex_connections.py: ErrorConnectingCyclicalVars *)
Definition co_cycle : example := Example_
  [WNew;
   WOn 0 (EInput "a");
   WNew;
   WOn 1 (EDeclare "a");
   WOn 1 (EDeclare "b");
   WOn 1 (EApply [1; 2] 1);
   WOn 1 (EApply [1; 4] 1);
   WOn 1 (ERegister "y" 6);
   WAdd 0 None None 1;
   WConnect 0 "y" "b"]
  [[1]; [1]; [1]; []; [1]; []; [1]]
  [[(1 # 1)]; [(1 # 1)]; [(3 # 1)]; []; []; []; []]
  [FNone; FNone; FNone; FMul; FNone; FAdd; FNone].
Example co_cycle_ok : outcome co_cycle = Err KeyError.
Proof. vm_compute. reflexivity. Qed.

(** csdl/examples/ex_connections.py: ErrorTwoWayConnection *)
Definition co_two_way : example := Example_
  [WNew;
   WNew;
   WOn 1 (EDeclare "a");
   WOn 1 (EDeclare "b");
   WOn 1 (EApply [0; 1] 1);
   WOn 1 (EApply [0; 3] 1);
   WOn 1 (ERegister "y" 5);
   WAdd 0 (Some "model") (Some []) 1;
   WConnect 0 "model.a" "model.b";
   WConnect 0 "model.b" "model.a"]
  [[1]; [1]; []; [1]; []; [1]]
  [[(2 # 1)]; [(2 # 1)]; []; []; []; []]
  [FNone; FNone; FMul; FNone; FAdd; FNone].
Example co_two_way_ok : outcome co_two_way = Err ValueError.
Proof. vm_compute. reflexivity. Qed.

(** csdl/examples/ex_connections.py: ExampleValueOverwriteConnection *)
Definition co_overwrite : example := Example_
  [WNew;
   WNew;
   WOn 1 (EDeclare "a");
   WOn 1 (EDeclare "b");
   WOn 1 (EApply [0; 1] 1);
   WOn 1 (EApply [0; 3] 1);
   WOn 1 (ERegister "y" 5);
   WAdd 0 (Some "model") (Some []) 1;
   WOn 0 (EDeclare "d");
   WOn 0 (EApply [6] 1);
   WOn 0 (ERegister "f" 8);
   WConnect 0 "model.y" "d"]
  [[1]; [1]; []; [1]; []; [1]; [1]; []; [1]]
  [[(4 # 1)]; [(3 # 1)]; []; []; []; []; [(10 # 1)]; []; []]
  [FNone; FNone; FMul; FNone; FAdd; FNone; FNone; (FMulC (2 # 1)); FNone].
Example co_overwrite_ok : gives co_overwrite [("model.y", [(16 # 1)]); ("f", [(32 # 1)])] = true.
Proof. vm_compute. reflexivity. Qed.

(** csdl/examples/ex_connections.py: ErrorConnectDifferentShapes *)
Definition co_shapes : example := Example_
  [WNew;
   WOn 0 (EInput "d");
   WNew;
   WOn 1 (EDeclare "a");
   WOn 1 (EDeclare "b");
   WOn 1 (EApply [1; 2] 1);
   WOn 1 (EApply [1; 4] 1);
   WOn 1 (ERegister "y" 6);
   WAdd 0 (Some "model") (Some []) 1;
   WOn 0 (EDeclare "model.y");
   WOn 0 (EApply [7] 1);
   WOn 0 (ERegister "f" 9);
   WConnect 0 "d" "model.a"]
  [[2; 2]; [1]; [1]; []; [1]; []; [1]; [1]; []; [1]]
  [[(1 # 1); (1 # 1); (1 # 1); (1 # 1)]; [(4 # 1)]; [(3 # 1)]; []; []; []; []; [(1 # 1)]; []; []]
  [FNone; FNone; FNone; FMul; FNone; FAdd; FNone; FNone; (FAddC (2 # 1)); FNone].
Example co_shapes_ok : outcome co_shapes = Err ValueError.
Proof. vm_compute. reflexivity. Qed.

(** csdl/examples/ex_connections.py: ErrorConnectToNothing *)
Definition co_nothing : example := Example_
  [WNew;
   WNew;
   WOn 1 (EInput "a");
   WOn 1 (EDeclare "b");
   WOn 1 (EApply [0; 1] 1);
   WOn 1 (EApply [0; 3] 1);
   WOn 1 (ERegister "y" 5);
   WAdd 0 (Some "model") (Some []) 1;
   WOn 0 (EDeclare "model.a");
   WOn 0 (EApply [6] 1);
   WOn 0 (ERegister "f" 8);
   WConnect 0 "model.a" "c"]
  [[1]; [1]; []; [1]; []; [1]; [1]; []; [1]]
  [[(4 # 1)]; [(3 # 1)]; []; []; []; []; [(1 # 1)]; []; []]
  [FNone; FNone; FMul; FNone; FAdd; FNone; FNone; (FAddC (2 # 1)); FNone].
Example co_nothing_ok : outcome co_nothing = Err KeyError.
Proof. vm_compute. reflexivity. Qed.

(** csdl/examples/ex_connections.py: ExampleConnectCreateOutputs *)
Definition co_create : example := Example_
  [WNew;
   WOn 0 (EInput "a");
   WOn 0 (EDeclare "b");
   WOn 0 (ECreateOut "c");
   WOn 0 (EApply [1; 0] 1);
   WOn 0 (ESetitem 2 4);
   WOn 0 (ESetitem 2 0);
   WOn 0 (EDeclare "d");
   WOn 0 (EApply [6] 1);
   WOn 0 (ERegister "y" 8);
   WConnect 0 "a" "b";
   WConnect 0 "c" "d"]
  [[1]; [1]; [2]; []; [1]; []; [2]; []; [2]]
  [[(5 # 1)]; [(1 # 1)]; [(0 # 1); (0 # 1)]; []; []; []; [(1 # 1); (1 # 1)]; []; []]
  [FNone; FNone; FNone; FAdd; FNone; FConcat; FNone; (FAddC (1 # 1)); FNone].
Example co_create_ok : gives co_create [("y", [(11 # 1); (6 # 1)])] = true.
Proof. vm_compute. reflexivity. Qed.

(** csdl/examples/ex_connections.py: ErrorConnectCreateOutputs, the connection of different sizes *)
Definition co_create_error : example := Example_
  [WNew;
   WOn 0 (EInput "a");
   WOn 0 (EDeclare "b");
   WOn 0 (ECreateOut "c");
   WOn 0 (EApply [1; 0] 1);
   WOn 0 (ESetitem 2 4);
   WOn 0 (ESetitem 2 0);
   WOn 0 (EDeclare "d");
   WOn 0 (EApply [6] 1);
   WOn 0 (ERegister "f" 8);
   WConnect 0 "a" "b";
   WConnect 0 "c" "d"]
  [[1]; [1]; [2]; []; [1]; []; [1]; []; [1]]
  [[(5 # 1)]; [(1 # 1)]; [(0 # 1); (0 # 1)]; []; []; []; [(1 # 1)]; []; []]
  [FNone; FNone; FNone; FAdd; FNone; FConcat; FNone; (FAddC (1 # 1)); FNone].
Example co_create_error_ok : outcome co_create_error = Err ValueError.
Proof. vm_compute. reflexivity. Qed.

(** csdl/examples/ex_connections.py: ExampleConnectUnpromotedNames *)
Definition co_unpromoted : example := Example_
  [WNew;
   WOn 0 (EInput "a");
   WNew;
   WOn 1 (EDeclare "a");
   WOn 1 (EDeclare "b");
   WOn 1 (EApply [1; 2] 1);
   WOn 1 (ERegister "f" 4);
   WAdd 0 (Some "A") (Some []) 1;
   WOn 0 (EDeclare "f1");
   WOn 0 (EApply [0; 5] 1);
   WOn 0 (ERegister "y" 7);
   WConnect 0 "A.f" "f1"]
  [[1]; [1]; [1]; []; [1]; [1]; []; [1]]
  [[(1 # 1)]; [(3 # 1)]; [(1 # 1)]; []; []; [(1 # 1)]; []; []]
  [FNone; FNone; FNone; FAdd; FNone; FNone; FAdd; FNone].
Example co_unpromoted_ok : gives co_unpromoted [("f1", [(4 # 1)]); ("A.f", [(4 # 1)])] = true.
Proof. vm_compute. reflexivity. Qed.

(** csdl/examples/ex_connections.py: ExampleConnectUnpromotedNamesWithin *)
Definition co_within : example := Example_
  [WNew;
   WNew;
   WAdd 0 (Some "A") None 1;
   WOn 1 (EInput "c");
   WNew;
   WAdd 1 (Some "B") (Some []) 2;
   WOn 2 (EInput "a");
   WOn 2 (EInput "b");
   WOn 2 (EApply [1; 2] 1);
   WOn 2 (ERegister "f" 4);
   WOn 1 (EDeclare "d");
   WConnect 1 "B.f" "d";
   WOn 1 (EApply [0; 5] 1);
   WOn 1 (ERegister "f1" 7);
   WOn 0 (EDeclare "f1");
   WOn 0 (EInput "e");
   WOn 0 (EApply [9; 8] 1);
   WOn 0 (ERegister "y" 11)]
  [[1]; [1]; [1]; []; [1]; [1]; []; [1]; [1]; [1]; []; [1]]
  [[(1 # 1)]; [(1 # 1)]; [(1 # 1)]; []; []; [(1 # 1)]; []; []; [(1 # 1)]; [(1 # 1)]; []; []]
  [FNone; FNone; FNone; FAdd; FNone; FNone; FAdd; FNone; FNone; FNone; FAdd; FNone].
Example co_within_ok : gives co_within [("y", [(4 # 1)])] = true.
Proof. vm_compute. reflexivity. Qed.

(** csdl/examples/ex_promotions.py: ErrorPromotionShapeMismatch *)
Definition pr_shape : example := Example_
  [WNew;
   WOn 0 (EInput "a");
   WNew;
   WOn 1 (EDeclare "a");
   WOn 1 (EDeclare "b");
   WOn 1 (EApply [1; 2] 1);
   WOn 1 (ERegister "f" 4);
   WAdd 0 None None 1;
   WOn 0 (EDeclare "f");
   WOn 0 (EApply [5; 0] 1);
   WOn 0 (ERegister "y" 7)]
  [[2; 1]; [1]; [1]; []; [1]; [2; 1]; []; [2; 1]]
  [[(1 # 1); (1 # 1)]; [(3 # 1)]; [(1 # 1)]; []; []; [(1 # 1); (1 # 1)]; []; []]
  [FNone; FNone; FNone; FAdd; FNone; FNone; FAdd; FNone].
Example pr_shape_ok : outcome pr_shape = Err ValueError.
Proof. vm_compute. reflexivity. Qed.

(** csdl/examples/ex_promotions.py: ErrorWrongShapeTwoModels *)
Definition pr_shape_two : example := Example_
  [WNew;
   WOn 0 (EInput "a");
   WNew;
   WOn 1 (EDeclare "a");
   WOn 1 (EDeclare "b");
   WOn 1 (EApply [1; 2] 1);
   WOn 1 (ERegister "f" 4);
   WAdd 0 (Some "model") (Some ["a"; "b"; "f"]) 1;
   WNew;
   WOn 2 (EDeclare "f");
   WOn 2 (EDeclare "c");
   WOn 2 (EApply [5; 6] 1);
   WOn 2 (ERegister "d" 8);
   WAdd 0 (Some "model2") (Some ["f"; "c"; "d"]) 2;
   WOn 0 (EDeclare "d");
   WOn 0 (EApply [9; 0] 1);
   WOn 0 (ERegister "y" 11)]
  [[1]; [1]; [1]; []; [1]; [3]; [3]; []; [3]; [1]; []; [1]]
  [[(3 # 1)]; [(3 # 1)]; [(1 # 1)]; []; []; [(1 # 1); (1 # 1); (1 # 1)]; [(1 # 1); (1 # 1); (1 # 1)]; []; []; [(1 # 1)]; []; []]
  [FNone; FNone; FNone; FAdd; FNone; FNone; FNone; FSub; FNone; FNone; FAdd; FNone].
Example pr_shape_two_ok : outcome pr_shape_two = Err ValueError.
Proof. vm_compute. reflexivity. Qed.

(** csdl/examples/ex_promotions.py: ErrorCycle *)
Definition pr_cycle : example := Example_
  [WNew;
   WOn 0 (EInput "g");
   WOn 0 (EDeclare "f");
   WOn 0 (EApply [1; 0] 1);
   WOn 0 (ERegister "b" 3);
   WNew;
   WOn 1 (EDeclare "a");
   WOn 1 (EDeclare "b");
   WOn 1 (EApply [4; 5] 1);
   WOn 1 (ERegister "f" 7);
   WAdd 0 (Some "model") (Some ["a"; "b"; "f"]) 1;
   WOn 0 (EApply [0; 3] 1);
   WOn 0 (ERegister "y" 9)]
  [[1]; [1]; []; [1]; [1]; [1]; []; [1]; []; [1]]
  [[(3 # 1)]; [(1 # 1)]; []; []; [(3 # 1)]; [(1 # 1)]; []; []; []; []]
  [FNone; FNone; FAdd; FNone; FNone; FNone; FAdd; FNone; FAdd; FNone].
Example pr_cycle_ok : outcome pr_cycle = Err KeyError.
Proof. vm_compute. reflexivity. Qed.

(** csdl/examples/ex_promotions.py: ErrorCycleTwoModels *)
Definition pr_cycle_two : example := Example_
  [WNew;
   WNew;
   WOn 1 (EDeclare "a");
   WOn 1 (EDeclare "b");
   WOn 1 (EApply [0; 1] 1);
   WOn 1 (ERegister "f" 3);
   WAdd 0 (Some "model") (Some ["b"; "a"; "f"]) 1;
   WNew;
   WOn 2 (EDeclare "f");
   WOn 2 (EDeclare "c");
   WOn 2 (EApply [4; 5] 1);
   WOn 2 (ERegister "d" 7);
   WAdd 0 (Some "model2") (Some ["c"; "d"; "f"]) 2;
   WOn 0 (EDeclare "d");
   WOn 0 (EApply [8] 1);
   WOn 0 (ERegister "b" 10)]
  [[1]; [1]; []; [1]; [1]; [1]; []; [1]; [1]; []; [1]]
  [[(3 # 1)]; [(1 # 1)]; []; []; [(1 # 1)]; [(1 # 1)]; []; []; [(1 # 1)]; []; []]
  [FNone; FNone; FAdd; FNone; FNone; FNone; FSub; FNone; FNone; (FAddC (1 # 1)); FNone].
Example pr_cycle_two_ok : outcome pr_cycle_two = Err KeyError.
Proof. vm_compute. reflexivity. Qed.

(** csdl/examples/ex_promotions.py: ErrorInputs *)
Definition pr_inputs : example := Example_
  [WNew;
   WOn 0 (EInput "f");
   WNew;
   WOn 1 (EDeclare "a");
   WOn 1 (EDeclare "b");
   WOn 1 (EApply [1; 2] 1);
   WOn 1 (ERegister "f" 4);
   WAdd 0 (Some "model") (Some ["a"; "b"; "f"]) 1;
   WOn 0 (EApply [0] 1);
   WOn 0 (ERegister "y" 6)]
  [[1]; [1]; [1]; []; [1]; []; [1]]
  [[(3 # 1)]; [(3 # 1)]; [(1 # 1)]; []; []; []; []]
  [FNone; FNone; FNone; FAdd; FNone; (FAddC (1 # 1)); FNone].
Example pr_inputs_ok : outcome pr_inputs = Err KeyError.
Proof. vm_compute. reflexivity. Qed.

(** csdl/examples/ex_promotions.py: ErrorOutputs *)
Definition pr_outputs : example := Example_
  [WNew;
   WOn 0 (EInput "b");
   WOn 0 (EApply [0] 1);
   WOn 0 (ERegister "f" 2);
   WNew;
   WOn 1 (EDeclare "a");
   WOn 1 (EDeclare "b");
   WOn 1 (EApply [3; 4] 1);
   WOn 1 (ERegister "f" 6);
   WAdd 0 (Some "model") (Some ["a"; "b"; "f"]) 1]
  [[1]; []; [1]; [1]; [1]; []; [1]]
  [[(3 # 1)]; []; []; [(3 # 1)]; [(1 # 1)]; []; []]
  [FNone; (FAddC (1 # 1)); FNone; FNone; FNone; FAdd; FNone].
Example pr_outputs_ok : outcome pr_outputs = Err KeyError.
Proof. vm_compute. reflexivity. Qed.

(** csdl/examples/ex_promotions.py: ExampleManualPromotion *)
Definition pr_manual : example := Example_
  [WNew;
   WOn 0 (EDeclare "a");
   WNew;
   WOn 1 (EDeclare "a");
   WOn 1 (EDeclare "b");
   WOn 1 (EApply [1; 2] 1);
   WOn 1 (ERegister "f" 4);
   WAdd 0 (Some "addition") (Some ["a"; "f"]) 1;
   WOn 0 (EDeclare "f");
   WOn 0 (EApply [5; 0] 1);
   WOn 0 (ERegister "b" 7)]
  [[1]; [1]; [1]; []; [1]; [1]; []; [1]]
  [[(3 # 1)]; [(3 # 1)]; [(1 # 1)]; []; []; [(1 # 1)]; []; []]
  [FNone; FNone; FNone; FAdd; FNone; FNone; FAdd; FNone].
Example pr_manual_ok : gives pr_manual [("addition.b", [(1 # 1)]); ("b", [(7 # 1)]); ("f", [(4 # 1)])] = true.
Proof. vm_compute. reflexivity. Qed.

(** csdl/examples/ex_promotions.py: ErrorPartialPromotion *)
Definition pr_partial : example := Example_
  [WNew;
   WOn 0 (EInput "a");
   WOn 0 (EApply [0] 1);
   WOn 0 (ERegister "f" 2);
   WNew;
   WOn 1 (EDeclare "a");
   WOn 1 (EDeclare "b");
   WOn 1 (EApply [3; 4] 1);
   WOn 1 (ERegister "f" 6);
   WAdd 0 (Some "model") (Some ["a"; "b"; "f"]) 1]
  [[1]; []; [1]; [1]; [1]; []; [1]]
  [[(3 # 1)]; []; []; [(3 # 1)]; [(1 # 1)]; []; []]
  [FNone; (FAddC (1 # 1)); FNone; FNone; FNone; FAdd; FNone].
Example pr_partial_ok : outcome pr_partial = Err KeyError.
Proof. vm_compute. reflexivity. Qed.

(** csdl/examples/ex_promotions.py: ExampleAbsoluteRelativeName *)
Definition pr_absolute : example := Example_
  [WNew;
   WOn 0 (EInput "a");
   WNew;
   WOn 1 (EDeclare "a");
   WOn 1 (EDeclare "b");
   WOn 1 (EApply [1; 2] 1);
   WOn 1 (ERegister "f" 4);
   WAdd 0 (Some "model") (Some ["a"; "b"; "f"]) 1]
  [[1]; [1]; [1]; []; [1]]
  [[(3 # 1)]; [(3 # 1)]; [(1 # 1)]; []; []]
  [FNone; FNone; FNone; FAdd; FNone].
Example pr_absolute_ok : gives pr_absolute [("model.f", [(4 # 1)]); ("f", [(4 # 1)])] = true.
Proof. vm_compute. reflexivity. Qed.

(** csdl/examples/ex_promotions.py: ExampleSameIOUnpromoted *)
Definition pr_same : example := Example_
  [WNew;
   WOn 0 (EInput "a");
   WNew;
   WOn 1 (EDeclare "a");
   WOn 1 (EDeclare "b");
   WOn 1 (EApply [1; 2] 1);
   WOn 1 (ERegister "f" 4);
   WAdd 0 (Some "model") (Some ["a"; "b"]) 1;
   WOn 0 (EApply [0] 1);
   WOn 0 (ERegister "f" 6)]
  [[1]; [1]; [1]; []; [1]; []; [1]]
  [[(1 # 1)]; [(3 # 1)]; [(1 # 1)]; []; []; []; []]
  [FNone; FNone; FNone; FAdd; FNone; (FMulC (1 # 1)); FNone].
Example pr_same_ok : gives pr_same [("f", [(1 # 1)]); ("model.f", [(2 # 1)])] = true.
Proof. vm_compute. reflexivity. Qed.

(** csdl/examples/ex_promotions.py: ErrorTwoModelsPromoted *)
Definition pr_two : example := Example_
  [WNew;
   WNew;
   WOn 1 (EDeclare "a");
   WOn 1 (EDeclare "b");
   WOn 1 (EApply [0; 1] 1);
   WOn 1 (ERegister "f" 3);
   WAdd 0 (Some "model") (Some ["a"; "f"]) 1;
   WNew;
   WOn 2 (EDeclare "a");
   WOn 2 (EDeclare "b");
   WOn 2 (EApply [4; 5] 1);
   WOn 2 (ERegister "f" 7);
   WAdd 0 (Some "model2") (Some ["b"; "f"]) 2]
  [[1]; [1]; []; [1]; [1]; [1]; []; [1]]
  [[(3 # 1)]; [(1 # 1)]; []; []; [(3 # 1)]; [(1 # 1)]; []; []]
  [FNone; FNone; FAdd; FNone; FNone; FNone; FAdd; FNone].
Example pr_two_ok : outcome pr_two = Err KeyError.
Proof. vm_compute. reflexivity. Qed.

(** csdl/examples/ex_promotions.py: ExampleTwoModelsUnpromoted *)
Definition pr_two_unpromoted : example := Example_
  [WNew;
   WOn 0 (EInput "a");
   WNew;
   WOn 1 (EDeclare "a");
   WOn 1 (EDeclare "b");
   WOn 1 (EApply [1; 2] 1);
   WOn 1 (ERegister "f" 4);
   WAdd 0 (Some "model") (Some ["a"; "b"; "f"]) 1;
   WNew;
   WOn 2 (EDeclare "a");
   WOn 2 (EDeclare "b");
   WOn 2 (EApply [5; 6] 1);
   WOn 2 (ERegister "f" 8);
   WAdd 0 (Some "model2") (Some []) 2]
  [[1]; [1]; [1]; []; [1]; [1]; [1]; []; [1]]
  [[(2 # 1)]; [(3 # 1)]; [(1 # 1)]; []; []; [(3 # 1)]; [(1 # 1)]; []; []]
  [FNone; FNone; FNone; FAdd; FNone; FNone; FNone; FAdd; FNone].
Example pr_two_unpromoted_ok : gives pr_two_unpromoted [("f", [(3 # 1)]); ("model.f", [(3 # 1)]); ("model2.f", [(4 # 1)])] = true.
Proof. vm_compute. reflexivity. Qed.

(** csdl/examples/ex_promotions.py: ExampleUnconnectedVars *)
Definition pr_unconnected : example := Example_
  [WNew;
   WNew;
   WOn 1 (EDeclare "a");
   WOn 1 (EDeclare "b");
   WOn 1 (EApply [0; 1] 1);
   WOn 1 (ERegister "f" 3);
   WAdd 0 (Some "model") (Some []) 1;
   WOn 0 (EDeclare "f");
   WOn 0 (EApply [4] 1);
   WOn 0 (ERegister "y" 6)]
  [[1]; [1]; []; [1]; [1]; []; [1]]
  [[(3 # 1)]; [(1 # 1)]; []; []; [(1 # 1)]; []; []]
  [FNone; FNone; FAdd; FNone; FNone; (FAddC (1 # 1)); FNone].
Example pr_unconnected_ok : gives pr_unconnected [("y", [(2 # 1)])] = true.
Proof. vm_compute. reflexivity. Qed.

(** csdl/examples/ex_promotions.py: ExampleStackedModels *)
Definition pr_stacked : example := Example_
  [WNew;
   WOn 0 (EInput "a");
   WNew;
   WAdd 0 (Some "model1") None 1;
   WOn 1 (EInput "am");
   WNew;
   WAdd 1 (Some "model2") None 2;
   WOn 2 (EDeclare "a");
   WOn 2 (EApply [2] 1);
   WOn 2 (ERegister "bmm" 4);
   WOn 1 (EDeclare "bmm");
   WOn 1 (EApply [5; 1] 1);
   WOn 1 (ERegister "bm" 7);
   WOn 0 (EDeclare "bm");
   WOn 0 (EApply [8; 0] 1);
   WOn 0 (ERegister "b" 10)]
  [[1]; [1]; [1]; []; [1]; [1]; []; [1]; [1]; []; [1]]
  [[(3 # 1)]; [(2 # 1)]; [(1 # 1)]; []; []; [(1 # 1)]; []; []; [(1 # 1)]; []; []]
  [FNone; FNone; FNone; (FMulC (2 # 1)); FNone; FNone; FAdd; FNone; FNone; FAdd; FNone].
Example pr_stacked_ok : gives pr_stacked [("a", [(3 # 1)]); ("bmm", [(6 # 1)]); ("bm", [(8 # 1)]); ("b", [(11 # 1)])] = true.
Proof. vm_compute. reflexivity. Qed.

(** csdl/examples/ex_promotions.py: ExampleJumpedPromotion *)
Definition pr_jumped : example := Example_
  [WNew;
   WOn 0 (EInput "a");
   WNew;
   WOn 1 (EInput "am");
   WOn 1 (EApply [1] 1);
   WOn 1 (ERegister "bm" 3);
   WNew;
   WOn 2 (EInput "b");
   WAdd 1 (Some "model2") (Some ["b"]) 2;
   WAdd 0 (Some "model1") (Some ["b"]) 1;
   WOn 0 (EDeclare "b");
   WOn 0 (EApply [5; 0] 1);
   WOn 0 (ERegister "f" 7)]
  [[1]; [1]; []; [1]; [1]; [1]; []; [1]]
  [[(3 # 1)]; [(2 # 1)]; []; []; [(2 # 1)]; [(1 # 1)]; []; []]
  [FNone; FNone; (FMulC (2 # 1)); FNone; FNone; FNone; FAdd; FNone].
Example pr_jumped_ok : gives pr_jumped [("f", [(5 # 1)])] = true.
Proof. vm_compute. reflexivity. Qed.

(** csdl/examples/ex_promotions.py: ErrorPromoteUnpromoted *)
Definition pr_unpromoted : example := Example_
  [WNew;
   WOn 0 (EInput "a");
   WNew;
   WOn 1 (EInput "am");
   WOn 1 (EApply [1] 1);
   WOn 1 (ERegister "bm" 3);
   WNew;
   WOn 2 (EInput "b");
   WAdd 1 (Some "model2") (Some []) 2;
   WAdd 0 (Some "model1") (Some ["model2.b"]) 1;
   WOn 0 (EDeclare "b");
   WOn 0 (EApply [5; 0] 1);
   WOn 0 (ERegister "f" 7)]
  [[1]; [1]; []; [1]; [1]; [1]; []; [1]]
  [[(3 # 1)]; [(2 # 1)]; []; []; [(2 # 1)]; [(1 # 1)]; []; []]
  [FNone; FNone; (FMulC (2 # 1)); FNone; FNone; FNone; FAdd; FNone].
Example pr_unpromoted_ok : outcome pr_unpromoted = Err KeyError.
Proof. vm_compute. reflexivity. Qed.

(** csdl/examples/ex_promotions.py: ErrorPromoteNonexistant *)
Definition pr_nonexistent : example := Example_
  [WNew;
   WOn 0 (EDeclare "a");
   WNew;
   WOn 1 (EDeclare "a");
   WOn 1 (EDeclare "b");
   WOn 1 (EApply [1; 2] 1);
   WOn 1 (ERegister "f" 4);
   WAdd 0 (Some "addition") (Some ["a"; "f"; "c"]) 1;
   WOn 0 (EDeclare "f");
   WOn 0 (EApply [5; 0] 1);
   WOn 0 (ERegister "b" 7)]
  [[1]; [1]; [1]; []; [1]; [1]; []; [1]]
  [[(3 # 1)]; [(3 # 1)]; [(1 # 1)]; []; []; [(1 # 1)]; []; []]
  [FNone; FNone; FNone; FAdd; FNone; FNone; FAdd; FNone].
Example pr_nonexistent_ok : outcome pr_nonexistent = Err KeyError.
Proof. vm_compute. reflexivity. Qed.

(** csdl/examples/ex_promotions.py: ErrorPromoteAbsoluteName *)
Definition pr_absolute_name : example := Example_
  [WNew;
   WOn 0 (EDeclare "a");
   WNew;
   WOn 1 (EDeclare "a");
   WOn 1 (EDeclare "b");
   WOn 1 (EApply [1; 2] 1);
   WOn 1 (ERegister "f" 4);
   WAdd 0 (Some "addition") (Some ["addition.a"; "f"]) 1;
   WOn 0 (EDeclare "f");
   WOn 0 (EApply [5; 0] 1);
   WOn 0 (ERegister "b" 7)]
  [[1]; [1]; [1]; []; [1]; [1]; []; [1]]
  [[(3 # 1)]; [(3 # 1)]; [(1 # 1)]; []; []; [(1 # 1)]; []; []]
  [FNone; FNone; FNone; FAdd; FNone; FNone; FAdd; FNone].
Example pr_absolute_name_ok : outcome pr_absolute_name = Err KeyError.
Proof. vm_compute. reflexivity. Qed.

(** csdl/examples/ex_promotions.py: ExampleComplex *)
Definition pr_complex : example := Example_
  [WNew;
   WOn 0 (EInput "y");
   WNew;
   WAdd 0 (Some "hierarchical") None 1;
   WOn 1 (EInput "x0");
   WNew;
   WAdd 1 (Some "ModelB") (Some ["x0"; "x1"; "x4"]) 2;
   WNew;
   WAdd 1 (Some "ModelF") (Some []) 3;
   WOn 1 (EDeclare "x3");
   WOn 1 (EApply [2] 1);
   WOn 1 (ERegister "x3_out" 4);
   WOn 1 (EDeclare "x4");
   WOn 1 (EApply [5] 1);
   WOn 1 (ERegister "x4_out" 7);
   WOn 2 (EDeclare "x0");
   WNew;
   WAdd 2 (Some "ModelC") (Some ["x0"; "x4"]) 4;
   WNew;
   WAdd 2 (Some "ModelE") (Some ["x1"]) 5;
   WOn 2 (EDeclare "x1");
   WOn 2 (EApply [8; 9] 1);
   WOn 2 (ERegister "x2" 11);
   WOn 4 (EDeclare "x0");
   WNew;
   WAdd 4 (Some "ModelD") (Some ["x2"; "x4"]) 6;
   WOn 4 (EApply [12] 1);
   WOn 4 (ERegister "x1" 14);
   WOn 6 (EInput "x5");
   WOn 6 (EApply [15] 1);
   WOn 6 (ERegister "x2" 17);
   WOn 6 (EApply [15] 1);
   WOn 6 (ERegister "x4" 19);
   WOn 5 (EInput "x1");
   WOn 3 (EDeclare "x0");
   WNew;
   WAdd 3 (Some "ModelG") (Some ["x3"]) 7;
   WNew;
   WAdd 3 (Some "ModelH") (Some ["x3"]) 8;
   WOn 7 (EInput "x3");
   WOn 8 (EDeclare "x3");
   WOn 8 (EApply [23] 1);
   WOn 8 (ERegister "x3_out" 25)]
  [[1]; [1]; [1]; []; [1]; [1]; []; [1]; [1]; [1]; []; [1]; [1]; []; [1]; [1]; []; [1]; []; [1]; [1]; [1]; [1]; [1]; []; [1]]
  [[(1 # 1)]; [(3 # 1)]; [(1 # 1)]; []; []; [(1 # 1)]; []; []; [(1 # 1)]; [(1 # 1)]; []; []; [(1 # 1)]; []; []; [(7 # 1)]; []; []; []; []; [(3141 # 1000)]; [(1 # 1)]; [(1 # 100)]; [(1 # 1)]; []; []]
  [FNone; FNone; FNone; (FMulC (1 # 1)); FNone; FNone; (FMulC (1 # 1)); FNone; FNone; FNone; FAdd; FNone; FNone; (FAddC (2 # 1)); FNone; FNone; (FAddC (2 # 1)); FNone; (FAddC (3 # 1)); FNone; FNone; FNone; FNone; FNone; (FMulC (1 # 1)); FNone].
Example pr_complex_ok : gives pr_complex [("x3_out", [(1 # 1)]); ("x4_out", [(10 # 1)]); ("hierarchical.ModelB.x2", [(6141 # 1000)]); ("hierarchical.ModelB.ModelC.x1", [(5 # 1)]); ("hierarchical.ModelB.ModelC.x2", [(9 # 1)]); ("hierarchical.ModelF.x3", [(1 # 100)])] = true.
Proof. vm_compute. reflexivity. Qed.

(** csdl/examples/ex_promotions.py: ExampleParallelTargets *)
Definition pr_parallel : example := Example_
  [WNew;
   WOn 0 (EInput "a");
   WOn 0 (EInput "b");
   WNew;
   WOn 1 (EDeclare "a");
   WOn 1 (EDeclare "b");
   WOn 1 (EApply [2; 3] 1);
   WOn 1 (ERegister "f" 5);
   WAdd 0 (Some "addition1") (Some ["a"; "b"]) 1;
   WNew;
   WOn 2 (EDeclare "a");
   WOn 2 (EDeclare "b");
   WOn 2 (EApply [6; 7] 1);
   WOn 2 (ERegister "f" 9);
   WAdd 0 (Some "addition2") (Some ["a"; "b"]) 2;
   WNew;
   WOn 3 (EDeclare "a");
   WOn 3 (EDeclare "b");
   WOn 3 (EApply [10; 11] 1);
   WOn 3 (ERegister "f" 13);
   WAdd 0 (Some "addition3") (Some ["a"; "b"]) 3;
   WOn 0 (EDeclare "f1");
   WOn 0 (EDeclare "f2");
   WOn 0 (EDeclare "f3");
   WConnect 0 "addition1.f" "f1";
   WConnect 0 "addition2.f" "f2";
   WConnect 0 "addition3.f" "f3";
   WOn 0 (EApply [14; 15] 1);
   WOn 0 (EApply [18; 16] 1);
   WOn 0 (ERegister "f_out" 20)]
  [[1]; [1]; [1]; [1]; []; [1]; [1]; [1]; []; [1]; [1]; [1]; []; [1]; [1]; [1]; [1]; []; [1]; []; [1]]
  [[(2 # 1)]; [(3 # 1)]; [(3 # 1)]; [(1 # 1)]; []; []; [(3 # 1)]; [(1 # 1)]; []; []; [(3 # 1)]; [(1 # 1)]; []; []; [(1 # 1)]; [(1 # 1)]; [(1 # 1)]; []; []; []; []]
  [FNone; FNone; FNone; FNone; FAdd; FNone; FNone; FNone; FAdd; FNone; FNone; FNone; FAdd; FNone; FNone; FNone; FNone; FAdd; FNone; FAdd; FNone].
Example pr_parallel_ok : gives pr_parallel [("f_out", [(15 # 1)])] = true.
Proof. vm_compute. reflexivity. Qed.
