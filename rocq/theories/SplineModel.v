(** Model of csdl/utils/get_bspline_mtx.py, with exact rational numbers instead of floating-point
    numbers.  Sizes are not negative. *)
From Coq Require Import QArith.
From Verif Require Import PyBase IndexModel HierModel.
Set Implicit Arguments.

(** Indexing of arrays by ints: negative ints count from the end (numpy; nothing of csdl). *)
Definition position (len : nat) (z : Z) : option nat :=
  if (0 <=? z)%Z then (if (z <? Z.of_nat len)%Z then Some (Z.to_nat z) else None)
  else if (- Z.of_nat len <=? z)%Z then Some (Z.to_nat (Z.of_nat len + z)) else None.
Definition aget {A} (l : list A) (z : Z) : res A :=
  match position (length l) z with
  | None => Err IndexError
  | Some p => match nth_error l p with Some a => Ok a | None => Err IndexError end
  end.
Fixpoint upd_at {A} (l : list A) (p : nat) (a : A) : list A :=
  match l, p with [], _ => [] | _ :: r, O => a :: r | b :: r, S p => b :: upd_at r p a end.
Definition aset {A} (l : list A) (z : Z) (a : A) : res (list A) :=
  match position (length l) z with None => Err IndexError | Some p => Ok (upd_at l p a) end.

Local Open Scope Q_scope.
Definition nq (n : nat) : Q := inject_Z (Z.of_nat n).
(** np.linspace(0, 1, n) *)
Definition linspace (n : nat) : list Q :=
  match n with O => [] | S O => [0] | S m => map (fun i => nq i / nq m) (seq 0 n) end.

(** csdl/utils/get_bspline_mtx.py:12-14.  For order 0 the assignment of a slice of a different length raises
    ValueError. *)
Definition knots_of (num_cp order : nat) : res (list Q) :=
  match order with
  | O => Err ValueError
  | S d => Ok (repeat 0 d ++ linspace (num_cp - order + 2) ++ repeat 1 d)
  end.

(** csdl/utils/get_bspline_mtx.py:27-32: the last interval that contains t. *)
Fixpoint find_interval (knots : list Q) (t : Q) (order : nat) (inds : list nat) (i0 : Z) : res Z :=
  match inds with
  | [] => Ok i0
  | ind :: r =>
    do a <- aget knots (Z.of_nat ind - 1);
    do b <- (if Qle_bool a t then aget knots (Z.of_nat ind) else Ok 0);
    find_interval knots t order r
      (if Qle_bool a t && negb (Qle_bool b t) then Z.of_nat ind - Z.of_nat order else i0)
  end.
Definition start_of (knots : list Q) (t : Q) (num_cp order : nat) : res Z :=
  do i0 <- find_interval knots t order (seq order (num_cp + 1 - order)) (-1);
  do last <- aget knots (-1);
  Ok (if Qeq_bool t last then Z.of_nat num_cp - Z.of_nat order else i0)%Z.

(** A for loop. *)
Fixpoint for_each {A S} (f : S -> A -> res S) (l : list A) (s : S) : res S :=
  match l with [] => Ok s | x :: r => do s' <- f s x; for_each f r s' end.

(** csdl/utils/get_bspline_mtx.py:49-53 and 58-62: new value of basis[j-1] from its old value. *)
Definition left_part (knots : list Q) (t : Q) (l n j : Z) (basis : list Q) : res (list Q) :=
  do a <- aget knots (n + l - 1); do b <- aget knots (n - 1);
  if Qeq_bool a b then aset basis (j - 1) 0
  else do c <- aget knots (n - 1); do d <- aget knots (n + l - 1);
       do x <- aget basis (j - 1); aset basis (j - 1) ((t - c) / (d - c) * x).
(** csdl/utils/get_bspline_mtx.py:54-56: the contribution of basis[j]; nothing is added for equal knots. *)
Definition right_part (knots : list Q) (t : Q) (l n j : Z) (basis : list Q) : res (list Q) :=
  do a <- aget knots (n + l); do b <- aget knots n;
  if Qeq_bool a b then Ok basis
  else do x <- aget basis j; do y <- aget basis (j - 1); aset basis (j - 1) (y + (a - t) / (a - b) * x).
(** csdl/utils/get_bspline_mtx.py:37-62 for one value of i = l + 1. *)
Definition raise_degree (knots : list Q) (t : Q) (i0 : Z) (order l : nat) (basis : list Q) : res (list Q) :=
  let zl := Z.of_nat l in
  let j1 := (Z.of_nat order - zl)%Z in
  let n := (i0 + j1)%Z in
  do a <- aget knots (n + zl); do b <- aget knots n;
  do b1 <- (if Qeq_bool a b then aset basis (j1 - 1) 0
            else do x <- aget basis j1; aset basis (j1 - 1) ((a - t) / (a - b) * x));
  do b2 <- for_each (fun bs j => do bs' <- left_part knots t zl (i0 + j) j bs; right_part knots t zl (i0 + j) j bs')
             (map (fun k => (j1 + 1 + Z.of_nat k)%Z) (seq 0 (l - 1))) b1;
  left_part knots t zl (i0 + Z.of_nat order) (Z.of_nat order) b2.

(** csdl/utils/get_bspline_mtx.py:24-66: for one t, the first column and the data of the row. *)
Definition spline_row (knots : list Q) (num_cp order : nat) (t : Q) : res (Z * list Q) :=
  do i0 <- start_of knots t num_cp order;
  do basis <- for_each (fun bs l => raise_degree knots t i0 order l bs) (seq 1 (order - 1)) (repeat 0 (order - 1) ++ [1]);
  Ok (i0, basis).
(** csdl/utils/get_bspline_mtx.py:9-73.  The result: for every point the first column and the data; the
    construction of the sparse matrix is not modelled. *)
Definition get_bspline_mtx (num_cp num_pt order : nat) : res (list (Z * list Q)) :=
  let order := Nat.min order num_cp in
  do knots <- knots_of num_cp order;
  mapM (spline_row knots num_cp order) (linspace num_pt).
