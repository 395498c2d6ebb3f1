(** Specification vocabulary for indexing. *)
From Verif Require Import PyBase PromotionsModel IndexModel.
Local Open Scope Z_scope.

(** All multi-indices of an array of the given shape, in row-major order: the element
    at flat position [f] of the flattened array has multi-index number [f]. *)
Definition all_indices (sh : shape) : list (list Z) :=
  cartesian (map (fun n => map Z.of_nat (seq 0 n)) sh).
Definition at_flat (sh : shape) (f : Z) (idx : list Z) : Prop :=
  0 <= f /\ nth_error (all_indices sh) (Z.to_nat f) = Some idx.

(** Positions an int or slice selects on an axis of length [n] in Python: an int
    selects one position and counts from the end when negative. *)
Definition selects (n : nat) (e : kelem) (l : list Z) : Prop :=
  match e with
  | KI z => (0 <= z < Z.of_nat n /\ l = [z]) \/ (z < 0 /\ 0 <= Z.of_nat n + z /\ l = [Z.of_nat n + z])
  | KS s => l = py_slice (Z.of_nat n) s
  | KX => False
  end.
(** The components of a key; an int or slice alone indexes a one-dimensional array. *)
Definition components (k : key) : list kelem :=
  match k with KeyInt z => [KI z] | KeySlice s => [KS s] | KeyTuple l => l | KeyOther => [KX] end.

Fixpoint all_selects (sh : shape) (es : list kelem) (ls : list (list Z)) : Prop :=
  match sh, es, ls with
  | [], [], [] => True
  | n :: sh', e :: es', l :: ls' => selects n e l /\ all_selects sh' es' ls'
  | _, _, _ => False
  end.

Definition no_other (k : key) : Prop := Forall (fun e => e <> KX) (components k).
