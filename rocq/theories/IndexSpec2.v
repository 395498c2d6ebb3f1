(** Specification vocabulary: keys that must be accepted. *)
From Verif Require Import PyBase PromotionsModel IndexModel IndexSpec.
Local Open Scope Z_scope.

(** A slice within an axis of length [n], written without a negative start, selecting at
    least one position; a missing start or stop is allowed for a positive step. *)
Definition ordinary (n : Z) (sl : pyslice) : Prop :=
  odef 1 (s_step sl) <> 0 /\
  match s_start sl with Some a => 0 <= a < n | None => 0 < odef 1 (s_step sl) end /\
  match s_stop sl with Some p => - n <= p <= n | None => 0 < odef 1 (s_step sl) end /\
  py_slice n sl <> [].

(** Components of a read that must be accepted: integers in range (from the front or from
    the back) and ordinary slices ... *)
Definition readable (n : nat) (e : kelem) : Prop :=
  match e with KI z => - Z.of_nat n <= z < Z.of_nat n | KS s => ordinary (Z.of_nat n) s | KX => False end.
(** ... and of an assignment, where integers count from the front only. *)
Definition writable (n : nat) (e : kelem) : Prop :=
  match e with KI z => 0 <= z < Z.of_nat n | KS s => ordinary (Z.of_nat n) s | KX => False end.

(** What Python says about slicing an axis of length [n]: the first position (a negative
    start counts from the end; a missing start or one outside the axis becomes the nearest
    end of the axis) ... *)
Definition from_end (n x : Z) : Z := if x <? 0 then x + n else x.
Definition first_position (n : Z) (sl : pyslice) : Z :=
  if 0 <? odef 1 (s_step sl)
  then match s_start sl with None => 0 | Some a => Z.max 0 (from_end n a) end
  else match s_start sl with None => n - 1 | Some a => Z.min (n - 1) (from_end n a) end.
(** ... and the positions before the stop, in the direction of the step. *)
Definition before_stop (n : Z) (sl : pyslice) (x : Z) : Prop :=
  match s_stop sl with
  | None => True
  | Some b => if 0 <? odef 1 (s_step sl) then x < from_end n b else from_end n b < x
  end.
