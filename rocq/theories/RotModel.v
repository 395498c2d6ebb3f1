(** Model of csdl/std/rotations/body/body_313.py: nine assignments to the elements of a
    concatenation. *)
From Verif Require Import PyBase PromotionsModel IndexModel ArithModel.
Set Implicit Arguments.

Section Rot.
  Context (N : numbers).
  Notation SBin := (SBin N). Notation SFun := (SFun N). Notation SNeg := (SNeg N).
  (** csdl/std/rotations/body/body_313.py:24-32: for each element in the order of the code, the
      operations in the order Python evaluates them; positions 0, 1, 2 are p, q, r, and position
      k is the result of operation k - 3. *)
  Definition element_code : list (Z * Z * list (stmt N)) := [
    (0%Z, 0%Z, [SFun Cos 0; SFun Cos 2; SBin OpMul 3 4; SFun Sin 0; SFun Cos 1; SBin OpMul 6 7; SFun Sin 2; SBin OpMul 8 9; SBin OpSub 5 10]);
    (0%Z, 1%Z, [SFun Cos 0; SFun Sin 2; SBin OpMul 3 4; SFun Sin 0; SFun Cos 1; SBin OpMul 6 7; SFun Cos 2; SBin OpMul 8 9; SBin OpAdd 5 10]);
    (0%Z, 2%Z, [SFun Sin 0; SFun Sin 1; SBin OpMul 3 4]);
    (1%Z, 0%Z, [SFun Sin 0; SNeg 3; SFun Cos 2; SBin OpMul 4 5; SFun Cos 0; SFun Cos 1; SBin OpMul 7 8; SFun Sin 2; SBin OpMul 9 10; SBin OpSub 6 11]);
    (1%Z, 1%Z, [SFun Sin 0; SNeg 3; SFun Sin 2; SBin OpMul 4 5; SFun Cos 0; SFun Cos 1; SBin OpMul 7 8; SFun Cos 2; SBin OpMul 9 10; SBin OpAdd 6 11]);
    (1%Z, 2%Z, [SFun Cos 0; SFun Sin 1; SBin OpMul 3 4]);
    (2%Z, 0%Z, [SFun Sin 1; SFun Sin 2; SBin OpMul 3 4]);
    (2%Z, 1%Z, [SFun Sin 1; SNeg 3; SFun Cos 2; SBin OpMul 4 5]);
    (2%Z, 2%Z, [SFun Cos 1])
  ].
  (** The state: the variables, and the concatenation [R] of shape [sh].  [name] gives the names
      of the variables. *)
  Fixpoint assign_elements (name : nat -> string) (sh : shape) (p q r : nat) (code : list (Z * Z * list (stmt N))) (st : store N) (c : concat_st)
    : store N * concat_st * res unit :=
    match code with
    | [] => (st, c, Ok tt)
    | (i, j, prog) :: rest =>
      match run st [p; q; r] prog with
      | Err e => (st, c, Err e)
      | Ok (st1, env) =>
        let x := last env p in
        match shape_of st1 x with
        | None => (st1, c, Err TypeError)
        | Some s =>
          match setitem sh c (KeyTuple [KI i; KI j]) (name x) s with
          | (c1, Ok _) => assign_elements name sh p q r rest st1 c1
          | (c1, Err e) => (st1, c1, Err e)
          end
        end
      end
    end.
  (** body_313(R, p, q, r): the argument [axes] is not used.  When an operation raises, the
      operations before it in the same expression stay recorded in the code; they are dropped
      here, since no variable refers to them. *)
  Definition body_313 (name : nat -> string) (sh : shape) (st : store N) (c : concat_st) (p q r : nat) :=
    assign_elements name sh p q r element_code st c.
End Rot.
