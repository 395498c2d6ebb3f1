(** Agreement of the model with the test suite of the repository, third part: whole programs.
    The models of csdl/examples/valid/ex_explicit_literals.py, ex_explicit_binary_operations.py,
    ex_explicit_no_registered_output.py, ex_explicit_with_subsystems.py,
    ex_indices_integer.py, ex_indices_one_dimensional.py and ex_indices_multidimensional.py,
    line by line as scripts, compiled and executed in the model; the values are those that
    csdl/tests/test_explicit.py and csdl/tests/test_indices.py check. *)
From Coq Require Import QArith.Qcanon.
From Verif Require Import PyBase NamesModel PromotionsModel ExprModel UnflatModel CompileModel CompileSpec WorldModel IndexModel ArithModel ArithSpec
  Rationals ScriptModel ScriptSpec.
Local Open Scope nat_scope.
Local Open Scope string_scope.
Local Open Scope list_scope.

Notation script := (list (scall rationals)).
(** Lines refer to the results of earlier lines by position. *)
Definition line := (nat -> nat) -> scall rationals.
Definition assemble (ls : list line) : script :=
  fst (fold_left (fun se (f : line) =>
    let c := f (fun i => nth i (snd se) 0) in
    (fst se ++ [c], snd se ++ [match c with CCall _ _ => length (p_heap (prun (fst se))) | _ => match returned (fst se) c with Some r => r | None => 0 end end]))
    ls ([], [])).
Definition call (e : wevent) (s : shape) : line := fun _ => CCall e s.
Definition register (k : nat) (n : string) (i : nat) : line := fun v => CCall (WOn k (ERegister n (v i))) [].
Definition lit (z : Z) : literal rationals := Num (q z).
Definition bin (k : nat) (o : binop) (i j : nat) : line := fun v => CArith k (SBin _ o (v i) (v j)).
Definition binl (k : nat) (o : binop) (i : nat) (l : literal rationals) : line := fun v => CArith k (SBinL o (v i) l).
Definition lbin (k : nat) (o : binop) (l : literal rationals) (i : nat) : line := fun v => CArith k (SLBin o l (v i)).
Definition get (k i : nat) (key : key) : line := fun v => CRead k (v i) key.
Definition put (k i : nat) (key : key) (j : nat) : line := fun v => CAssign k (v i) key (v j).

(** The variable with this name that was created by, or registered in, model [k]. *)
Definition find (s : pstate rationals) (k : nat) (n : string) : nat :=
  match nth_error (w_models (p_world s)) k with
  | None => 0
  | Some m => match filter (fun o => String.eqb (name_in (p_heap s) o) n) (wm_ins m ++ wm_outs m ++ wm_decls m) with o :: _ => o | [] => 0 end
  end.
Definition elements (s : pstate rationals) (o : nat) : nat := PyBase.prod (p_shape s o).
(** Compile model 0 and read the elements of some variables, given as model number, path and
    name, with the initial values [init]; elements never assigned are 0. *)
Definition values (ls : list line) (init : string -> nat -> rationals) (vs : list (nat * list string * string)) : res (list (list rationals)) :=
  let s := prun (assemble ls) in
  match tree 3 (p_world s) (p_shape s) 0 with
  | None => Err RuntimeError
  | Some (um, m) =>
    do c <- compile (p_heap s) (p_shape s) (fun _ => false) um m;
    let val := result (p_heap s) (p_shape s) (fun _ => false) (backend rationals s (fun _ _ _ _ => q 0) (fun _ _ => q 0)) init c in
    Ok (map (fun v => match v with (k, p, n) => let o := find s k n in map (val p o) (seq 0 (elements s o)) end) vs)
  end.
Definition main (n : string) : nat * list string * string := (0, [], n).
Definition table (l : list (string * (nat -> rationals))) (n : string) : nat -> rationals :=
  match dget l n with Some a => a | None => fun _ => q 1 end.
Definition const (z : Z) : nat -> rationals := fun _ => q z.
Definition arange (i : nat) : rationals := q (Z.of_nat i).
Definition qd (a b : Z) : rationals := (q a / q b)%Qc.

(** test_literals: y = -2 * x**2 + 4 * x + 3 *)
Definition literals : list line :=
  [call WNew []; call (WOn 0 (EDeclare "x")) [1]; binl 0 OpPow 1 (lit 2); lbin 0 OpMul (lit (-2)) 2; lbin 0 OpMul (lit 4) 1;
   bin 0 OpAdd 3 4; binl 0 OpAdd 5 (lit 3); register 0 "y" 6].
Example test_literals : values literals (table [("x", const 3)]) [main "y"] = Ok [[q (-3)]].
Proof. vm_compute. reflexivity. Qed.

(** test_simple_binary *)
Definition binary : list line :=
  [call WNew []; call (WOn 0 (EDeclare "x1")) [1]; call (WOn 0 (EDeclare "x2")) [1]; call (WOn 0 (EDeclare "x3")) [7];
   (* 4 *) binl 0 OpPow 1 (lit 2); lbin 0 OpMul (lit (-2)) 4; lbin 0 OpMul (lit 4) 2; bin 0 OpAdd 5 6; binl 0 OpAdd 7 (lit 3); register 0 "y1" 8;
   (* 10 *) bin 0 OpAdd 2 1; bin 0 OpSub 2 1; bin 0 OpMul 1 2; bin 0 OpDiv 1 2; binl 0 OpDiv 1 (lit 3); lbin 0 OpDiv (lit 2) 2;
   (* 16 *) binl 0 OpPow 2 (lit 2); binl 0 OpPow 1 (lit 2);
   register 0 "y2" 10; register 0 "y3" 11; register 0 "y4" 12; register 0 "y5" 13; register 0 "y6" 14; register 0 "y7" 15;
   register 0 "y8" 16; register 0 "y9" 17;
   (* 26 *) bin 0 OpAdd 8 15; register 0 "y10" 26; binl 0 OpPow 3 (lit 2); register 0 "y11" 28;
   (* 30 *) binl 0 OpPow 3 (@Arr rationals [7] (fun _ => q 2)); register 0 "y12" 30].
Example test_simple_binary :
  values binary (table [("x1", const 2); ("x2", const 3); ("x3", arange)])
    (map main ["y1"; "y2"; "y3"; "y4"; "y5"; "y6"; "y7"; "y8"; "y9"; "y10"; "y11"; "y12"]) =
  Ok [[q 7]; [q 5]; [q 1]; [q 6]; [qd 2 3]; [qd 2 3]; [qd 2 3]; [q 9]; [q 4]; [qd 23 3];
      map q [0; 1; 4; 9; 16; 25; 36]%Z; map q [0; 1; 4; 9; 16; 25; 36]%Z].
Proof. vm_compute. reflexivity. Qed.

(** test_no_registered_outputs *)
Definition no_registered : list line :=
  [call WNew []; call WNew []; call (WOn 1 (EDeclare "a")) [1]; call (WOn 1 (EInput "b")) [1]; bin 1 OpMul 2 3; register 1 "prod" 4;
   call (WAdd 0 (Some "sys") None 1) []; call (WOn 0 (EDeclare "x1")) [1]; call (WOn 0 (EDeclare "x2")) [1];
   bin 0 OpAdd 8 7; bin 0 OpSub 8 7; bin 0 OpMul 7 8; binl 0 OpPow 8 (lit 2)].
Example test_no_registered_outputs :
  values no_registered (table [("a", const 2); ("b", const 12)]) [(1, ["sys"], "prod")] = Ok [[q 24]].
Proof. vm_compute. reflexivity. Qed.

(** test_explicit_with_subsystems *)
Definition with_subsystems : list line :=
  [call WNew []; call (WOn 0 (EInput "x1")) [1]; binl 0 OpPow 1 (lit 2); call WNew [];
   (* 4 *) call (WOn 1 (EDeclare "x1")) [1]; call (WOn 1 (EInput "x2")) [1]; bin 1 OpMul 4 5; register 1 "prod" 6; call (WAdd 0 (Some "subsystem") None 1) [];
   (* 9 *) call (WOn 0 (EDeclare "x2")) [1]; bin 0 OpAdd 9 1; register 0 "y1" 10; bin 0 OpSub 9 1; register 0 "y2" 12;
   (* 14 *) bin 0 OpMul 1 9; register 0 "y3" 14; binl 0 OpPow 9 (lit 2); register 0 "y5" 16; bin 0 OpAdd 10 16; register 0 "y6" 18; register 0 "y4" 2].
Example test_explicit_with_subsystems :
  values with_subsystems (table [("x1", const 40); ("x2", const 12)])
    [main "x1"; (1, ["subsystem"], "x2"); main "y1"; main "y2"; main "y3"; (1, ["subsystem"], "prod"); main "y4"; main "y5"; main "y6"] =
  Ok [[q 40]; [q 12]; [q 52]; [q (-28)]; [q 480]; [q 480]; [q 1600]; [q 144]; [q 196]].
Proof. vm_compute. reflexivity. Qed.

(** test_one_dimensional_index_assignement, without the lines about csdl.expand *)
Definition sl (a b : option Z) : key := KeySlice (Slice a b None).
Definition one_dimensional : list line :=
  [call WNew []; call (WOn 0 (EDeclare "u")) [20]; call (WOn 0 (EDeclare "v")) [16]; call (WOn 0 (EDeclare "w")) [4];
   (* 4 *) call (WOn 0 (ECreateOut "x")) [20]; binl 0 OpAdd 1 (lit 1); lbin 0 OpMul (lit 2) 5; put 0 4 (sl (Some 0%Z) (Some 20%Z)) 6;
   (* 8 *) call (WOn 0 (ECreateOut "y")) [20]; binl 0 OpAdd 2 (lit 1); lbin 0 OpMul (lit 2) 9; put 0 8 (sl (Some 0%Z) (Some 16%Z)) 10;
   (* 12 *) binl 0 OpSub 3 (lit 3); put 0 8 (sl (Some 16%Z) (Some 20%Z)) 12;
   (* 14 *) get 0 4 (sl (Some 0%Z) (Some 5%Z)); register 0 "x0_5" 14; get 0 4 (sl (Some 3%Z) None); register 0 "x3_" 16;
   (* 18 *) get 0 4 (sl (Some 2%Z) (Some 4%Z)); register 0 "x2_4" 18; get 0 4 (KeyInt (-1)); register 0 "x_last" 20].
Definition xs : list rationals := map (fun i => q (2 * (Z.of_nat i + 1))) (seq 0 20).
Example test_one_dimensional :
  values one_dimensional (table [("u", arange); ("v", arange); ("w", fun i => q (16 + Z.of_nat i))]) (map main ["x"; "x0_5"; "x3_"; "x2_4"; "x_last"; "y"]) =
  Ok [xs; firstn 5 xs; skipn 3 xs; firstn 2 (skipn 2 xs); skipn 19 xs; firstn 16 xs ++ map q [13; 14; 15; 16]%Z].
Proof. vm_compute. reflexivity. Qed.

(** test_multidimensional_dimensional_index_assignement *)
Definition ks (a b : option Z) : kelem := KS (Slice a b None).
Definition multi : list line :=
  [call WNew []; call (WOn 0 (EDeclare "z")) [2; 3]; call (WOn 0 (ECreateOut "x")) [2; 3];
   put 0 2 (KeyTuple [ks (Some 0) (Some 2); ks (Some 0) (Some 3)]%Z) 1;
   (* 4 *) call (WOn 0 (EDeclare "p")) [5; 2; 3]; call (WOn 0 (ECreateOut "q")) [5; 2; 3];
   put 0 5 (KeyTuple [ks (Some 0) (Some 5); ks (Some 0) (Some 2); ks (Some 0) (Some 3)]%Z) 4;
   (* 7 *) get 0 4 (KeyTuple [KI 0; ks None None; ks None None]%Z); register 0 "r" 7; get 0 4 (KeyTuple [KI 0; KI (-1); KI 2]%Z); register 0 "r2" 9;
   (* 11 *) call (WOn 0 (EInput "vec")) [1; 20]; call (WOn 0 (ECreateOut "s")) [2; 20]; put 0 12 (KeyTuple [KI 0; ks None None]%Z) 11;
   (* 14 *) lbin 0 OpMul (lit 2) 11; put 0 12 (KeyTuple [KI 1; ks None None]%Z) 14;
   (* 16 *) call (WOn 0 (ECreateOut "t")) [5; 3; 3]; put 0 16 (KeyTuple [ks (Some 0) (Some 5); ks (Some 0) (Some (-1)); ks (Some 0) (Some 3)]%Z) 4].
Definition numbers_from (a n : nat) : list rationals := map (fun i => q (Z.of_nat i)) (seq a n).
Example test_multidimensional :
  values multi (table [("z", arange); ("p", arange); ("vec", arange)]) (map main ["x"; "q"; "r"; "r2"; "s"; "t"]) =
  Ok [numbers_from 0 6; numbers_from 0 30; numbers_from 0 6; [q 5];
      numbers_from 0 20 ++ map (fun i => q (2 * Z.of_nat i)) (seq 0 20);
      flat_map (fun i => numbers_from (6 * i) 6 ++ [q 0; q 0; q 0]) (seq 0 5)].
Proof. vm_compute. reflexivity. Qed.
Example test_multidimensional_shape :
  let s := prun (assemble multi) in (p_shape s (find s 0 "r"), p_shape s (find s 0 "r2")) = ([1; 2; 3], [1; 1; 1]).
Proof. vm_compute. reflexivity. Qed.

(** test_integer_index_assignement, with 22/7 in the place of pi *)
Definition integer : list line :=
  [call WNew []; call (WOn 0 (EDeclare "a")) [1]; call (WOn 0 (EDeclare "b")) [1]; call (WOn 0 (EDeclare "c")) [1]; call (WOn 0 (EDeclare "d")) [1];
   call (WOn 0 (EDeclare "e")) [1]; call (WOn 0 (EDeclare "f")) [1]; bin 0 OpAdd 5 6; call (WOn 0 (ECreateOut "x")) [7];
   put 0 8 (KeyInt 0) 1; put 0 8 (KeyInt 1) 2; put 0 8 (KeyInt 2) 3; put 0 8 (KeyInt 3) 4; put 0 8 (KeyInt 4) 5; put 0 8 (KeyInt 5) 6; put 0 8 (KeyInt 6) 7;
   (* 16 *) get 0 8 (KeyInt 0); register 0 "x0" 16; get 0 8 (KeyInt 6); register 0 "x6" 18; get 0 8 (KeyInt (-2)); register 0 "x_2" 20].
Example test_integer :
  values integer (table [("a", const 0); ("b", const 1); ("c", const 2); ("d", fun _ => qd 74 10); ("e", fun _ => qd 22 7); ("f", const 9)])
    (map main ["x"; "x0"; "x6"; "x_2"]) =
  Ok [[q 0; q 1; q 2; qd 74 10; qd 22 7; q 9; qd 85 7]; [q 0]; [qd 85 7]; [q 9]].
Proof. vm_compute. reflexivity. Qed.
