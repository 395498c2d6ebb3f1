(** B-splines: the recursion of Cox and de Boor over clamped uniform knots. *)
From Coq Require Import QArith List.
Import ListNotations.
Local Open Scope Q_scope.

(** Knot m for [cps] control points and splines of order [order]: 0 [order] times, 1 [order] times,
    and equally spaced between. *)
Definition knot (cps order m : nat) : Q :=
  if (m <? order)%nat then 0
  else if (m <? cps)%nat then inject_Z (Z.of_nat (m + 1 - order)) / inject_Z (Z.of_nat (cps + 1 - order))
  else 1.
(** A quotient that is 0 for equal knots. *)
Definition quotient (a b : Q) : Q := if Qeq_bool b 0 then 0 else a / b.
(** Basis function i of degree d; the last interval includes its end t = 1. *)
Fixpoint basis_function (k : nat -> Q) (cps : nat) (t : Q) (d i : nat) : Q :=
  match d with
  | O => if (Qle_bool (k i) t && negb (Qle_bool (k (i + 1)%nat) t)) || (Qeq_bool t 1 && Nat.eqb (i + 1) cps) then 1 else 0
  | S e => quotient (t - k i) (k (i + d)%nat - k i) * basis_function k cps t e i
           + quotient (k (i + d + 1)%nat - t) (k (i + d + 1)%nat - k (i + 1)%nat) * basis_function k cps t e (i + 1)
  end.
(** Point p of n equally spaced points from 0 to 1. *)
Definition point (n p : nat) : Q := if (n <=? 1)%nat then 0 else inject_Z (Z.of_nat p) / inject_Z (Z.of_nat (n - 1)).
Definition qsum (l : list Q) : Q := fold_right Qplus 0 l.
(** Element j of the dense row with the given data starting at column [start]. *)
Definition dense (start : Z) (data : list Q) (j : nat) : Q :=
  if (Z.of_nat j <? start)%Z then 0 else nth (Z.to_nat (Z.of_nat j - start)) data 0.
