(** The rationals as an instance of [numbers], for concrete examples. *)
From Coq Require Import QArith Qcanon Qfield Lia.
From Verif Require Import PyBase ArithModel.

Definition qltb (x y : Qc) : bool := negb (Qle_bool y x).
(** Integer powers; other exponents, and the numpy functions, are not needed. *)
Definition qpow (x p : Qc) : Qc := if Pos.eqb (Qden p) 1 then Q2Qc (Qpower x (Qnum p)) else 0%Qc.
Definition qeqb (x y : Qc) : bool := Qeq_bool x y.

Lemma qltb_spec x y : qltb x y = true <-> (x < y)%Qc.
Proof.
  unfold qltb, Qclt. rewrite negb_true_iff. split; intros H.
  - apply Qnot_le_lt. intros K. apply Qle_bool_iff in K. congruence.
  - destruct (Qle_bool y x) eqn:E; [|reflexivity]. apply Qle_bool_iff in E. exfalso. apply (Qlt_not_le _ _ H E).
Qed.
Lemma qpow_one x : qpow x 1%Qc = x.
Proof. unfold qpow. cbn. apply Qc_is_canon. cbn. rewrite Qred_correct. reflexivity. Qed.
Lemma qpow_minus_one x : qpow x (Qcopp 1%Qc) = (/ x)%Qc.
Proof. unfold qpow. cbn. apply Qc_is_canon. cbn. rewrite !Qred_correct. reflexivity. Qed.
Lemma qeqb_spec x y : qeqb x y = true <-> x = y.
Proof.
  unfold qeqb. rewrite Qeq_bool_iff. split; [apply Qc_is_canon|intros ->; reflexivity].
Qed.
Lemma qlt_irrefl x : qltb x x = false.
Proof. destruct (qltb x x) eqn:E; [|reflexivity]. apply qltb_spec in E. exfalso. exact (Qlt_irrefl _ E). Qed.
Lemma qlt_trans x y z : qltb x y = true -> qltb y z = true -> qltb x z = true.
Proof. rewrite !qltb_spec. unfold Qclt. apply Qlt_trans. Qed.
Lemma qlt_total x y : qltb x y = false -> qltb y x = false -> x = y.
Proof.
  unfold qltb. rewrite !negb_false_iff, !Qle_bool_iff. intros H K. apply Qc_is_canon. now apply Qle_antisym.
Qed.
Lemma qlt_opp x y : qltb x y = qltb (- y)%Qc (- x)%Qc.
Proof.
  apply eq_true_iff_eq. rewrite !qltb_spec. unfold Qclt.
  assert (E : forall z : Qc, (this (- z)%Qc == - this z)%Q) by (intros z; apply Qred_correct). rewrite !E. split; intros H.
  - now apply Qopp_lt_compat.
  - apply Qopp_lt_compat in H. now rewrite !Qopp_involutive in H.
Qed.

Definition rationals : numbers :=
  {| num := Qc; f0 := 0%Qc; f1 := 1%Qc; fadd := Qcplus; fmul := Qcmult; fsub := Qcminus; fopp := Qcopp; fdiv := Qcdiv; finv := Qcinv;
     fpow := qpow; fnp := fun _ x => x; feqb := qeqb; flt := qltb; num_field := Qcft; pow_one := qpow_one; pow_minus_one := qpow_minus_one;
     feqb_spec := qeqb_spec; flt_irrefl := qlt_irrefl; flt_trans := qlt_trans; flt_total := qlt_total;
     zero_lt_one := eq_refl; flt_opp := qlt_opp |}.
Definition q (n : Z) : rationals := Q2Qc (inject_Z n).
