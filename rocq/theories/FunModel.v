(** Model of the functions of csdl/std that are built from operators and csdl.log. *)
From Verif Require Import PyBase PromotionsModel ArithModel.
Set Implicit Arguments.

Section Derived.
  Context (N : numbers).
  Definition two : literal N := Num (fadd N f1 f1).
  Definition one : literal N := Num f1.
  (** 0.5, and 1 / 2 *)
  Definition half : literal N := Num (fdiv N f1 (fadd N f1 f1)).
  Notation SBin := (SBin N). Notation SFun := (SFun N).

  Inductive derived := Arsinh | Arcosh | Artanh | Arcoth | Arsech | Arcsch.
  (** The operations in the order Python evaluates them; position 0 is the argument. *)
  Definition body (d : derived) : list (stmt N) :=
    match d with
    (* csdl/std/arsinh.py:4-5: log(x + (x**2 + 1)**0.5) *)
    | Arsinh => [SBinL OpPow 0 two; SBinL OpAdd 1 one; SBinL OpPow 2 half; SBin OpAdd 0 3; SFun Log 4]
    (* csdl/std/arcosh.py:4-5: log(x + (x**2 - 1)**0.5) *)
    | Arcosh => [SBinL OpPow 0 two; SBinL OpSub 1 one; SBinL OpPow 2 half; SBin OpAdd 0 3; SFun Log 4]
    (* csdl/std/artanh.py:4-5: 1 / 2 * log((1 + x) / (1 - x)) *)
    | Artanh => [SLBin OpAdd one 0; SLBin OpSub one 0; SBin OpDiv 1 2; SFun Log 3; SLBin OpMul half 4]
    (* csdl/std/arcoth.py:4-5: 1 / 2 * log((x + 1) / (x - 1)) *)
    | Arcoth => [SBinL OpAdd 0 one; SBinL OpSub 0 one; SBin OpDiv 1 2; SFun Log 3; SLBin OpMul half 4]
    (* csdl/std/arsech.py:4-5: log(1 + (1 - x**2)**0.5 / x) *)
    | Arsech => [SBinL OpPow 0 two; SLBin OpSub one 1; SBinL OpPow 2 half; SBin OpDiv 3 0; SLBin OpAdd one 4; SFun Log 5]
    (* csdl/std/arcsch.py:4-5: log(1 / x + (1 / x**2 + 1)**0.5) *)
    | Arcsch => [SLBin OpDiv one 0; SBinL OpPow 0 two; SLBin OpDiv one 2; SBinL OpAdd 3 one; SBinL OpPow 4 half; SBin OpAdd 1 5; SFun Log 6]
    end.
  (** The result; [arcsch] has no return statement. *)
  Definition call (d : derived) (st : store N) (x : nat) : res (store N * option nat) :=
    do r <- run st [x] (body d);
    Ok (fst r, match d with Arcsch => None | _ => Some (last (snd r) x) end).
End Derived.
