(** The real numbers as an instance of [numbers].  Outside of the domains of the functions
    (negative numbers with a fractional exponent, logarithms of numbers that are not positive,
    division by zero), where numpy gives NaN or infinity, the value is arbitrary. *)
From Coq Require Import Reals Lra Lia.
From Verif Require Import PyBase ArithModel.
Local Open Scope R_scope.

Definition reqb (x y : R) : bool := if Req_EM_T x y then true else false.
Definition rltb (x y : R) : bool := if Rlt_dec x y then true else false.
(** [x ** p]: repeated multiplication for integers, exp (p log x) for other exponents. *)
Definition rpow (x p : R) : R :=
  if Req_EM_T p (IZR (Int_part p)) then powerRZ x (Int_part p) else if Rlt_dec 0 x then Rpower x p else 0.
Definition rnp (f : npfun) (x : R) : R :=
  match f with
  | NpSin => sin x | NpCos => cos x | NpTan => tan x | NpSinh => sinh x | NpCosh => cosh x | NpTanh => tanh x
  | NpArcsin => asin x | NpArccos => acos x | NpArctan => atan x | NpExp => exp x | NpLog => ln x | NpLog10 => ln x / ln 10
  end.

Lemma Int_part_spec r z : r - 1 < IZR z <= r -> z = Int_part r.
Proof.
  intros [A B]. destruct (base_Int_part r) as [C D].
  assert (IZR z < IZR (Int_part r + 1)) by (rewrite plus_IZR; lra). assert (IZR (Int_part r) < IZR (z + 1)) by (rewrite plus_IZR; lra).
  apply lt_IZR in H. apply lt_IZR in H0. lia.
Qed.
Lemma Int_part_IZR z : Int_part (IZR z) = z.
Proof. symmetry. apply Int_part_spec. lra. Qed.
Lemma rpow_integer x z : rpow x (IZR z) = powerRZ x z.
Proof. unfold rpow. rewrite Int_part_IZR. destruct (Req_EM_T _ _); [reflexivity|contradiction]. Qed.
Lemma rpow_one x : rpow x 1 = x.
Proof. rewrite rpow_integer. apply powerRZ_1. Qed.
Lemma rpow_minus_one x : rpow x (- (1)) = / x.
Proof. change (- (1)) with (IZR (-1)). rewrite rpow_integer. unfold powerRZ. change (Pos.to_nat 1) with 1%nat. now rewrite pow_1. Qed.
Lemma rpow_two x : rpow x (1 + 1) = x * x.
Proof. replace (1 + 1) with (IZR 2) by lra. rewrite rpow_integer. unfold powerRZ. change (Pos.to_nat 2) with 2%nat. ring. Qed.
Lemma rpow_half x : 0 <= x -> rpow x (1 / (1 + 1)) = sqrt x.
Proof.
  intros H. unfold rpow. assert (E : Int_part (1 / (1 + 1)) = 0%Z) by (symmetry; apply Int_part_spec; lra). rewrite E.
  destruct (Req_EM_T _ _) as [K|_]; [exfalso; lra|]. destruct (Rlt_dec 0 x) as [P|P].
  - replace (1 / (1 + 1)) with (/ 2) by lra. now apply Rpower_sqrt.
  - replace x with 0 by lra. now rewrite sqrt_0.
Qed.
Lemma reqb_spec x y : reqb x y = true <-> x = y.
Proof. unfold reqb. destruct (Req_EM_T x y); split; congruence. Qed.
Lemma rltb_spec x y : rltb x y = true <-> x < y.
Proof. unfold rltb. destruct (Rlt_dec x y); split; congruence || tauto. Qed.
Lemma rltb_false x y : rltb x y = false <-> y <= x.
Proof. unfold rltb. destruct (Rlt_dec x y); split; try discriminate; intros; try reflexivity; lra. Qed.
Lemma rlt_irrefl x : rltb x x = false.
Proof. apply rltb_false. lra. Qed.
Lemma rlt_trans x y z : rltb x y = true -> rltb y z = true -> rltb x z = true.
Proof. rewrite !rltb_spec. lra. Qed.
Lemma rlt_total x y : rltb x y = false -> rltb y x = false -> x = y.
Proof. rewrite !rltb_false. lra. Qed.
Lemma r01 : rltb 0 1 = true.
Proof. apply rltb_spec. lra. Qed.
Lemma rlt_opp x y : rltb x y = rltb (- y) (- x).
Proof. apply eq_true_iff_eq. rewrite !rltb_spec. lra. Qed.

Definition reals : numbers :=
  {| num := R; f0 := 0; f1 := 1; fadd := Rplus; fmul := Rmult; fsub := Rminus; fopp := Ropp; fdiv := Rdiv; finv := Rinv;
     fpow := rpow; fnp := rnp; feqb := reqb; flt := rltb; num_field := Rfield; pow_one := rpow_one; pow_minus_one := rpow_minus_one;
     feqb_spec := reqb_spec; flt_irrefl := rlt_irrefl; flt_trans := rlt_trans; flt_total := rlt_total;
     zero_lt_one := r01; flt_opp := rlt_opp |}.
