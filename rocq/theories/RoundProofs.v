From Coq Require Import Lia ZArith.
From Verif Require Import PyBase NamesModel RoundSpec.
Local Open Scope N_scope.

Lemma pow2_pos e : 0 < 2 ^ e.
Proof. apply N.neq_0_lt_0, N.pow_nonzero. discriminate. Qed.

Lemma pow_split a b : a <= b -> exists c, 2 ^ b = c * 2 ^ a /\ 0 < c.
Proof. intros H. exists (2 ^ (b - a)). rewrite <- N.pow_add_r. split; [f_equal; lia|apply pow2_pos]. Qed.

(** Nothing representable lies strictly between two neighbours. *)
Lemma gap m e y : 2 ^ 52 <= m -> binary64 y -> y <= m * 2 ^ (N.succ e) \/ (m + 1) * 2 ^ (N.succ e) <= y.
Proof.
  intros Hm (m' & e' & Hm' & ->). destruct (N.le_gt_cases (N.succ e) e') as [L|L].
  - destruct (pow_split (N.succ e) e' L) as (c & -> & Hc). pose proof (pow2_pos (N.succ e)).
    rewrite N.mul_assoc. destruct (N.le_gt_cases (m' * c) m); [left|right]; apply N.mul_le_mono_r; lia.
  - left. assert (L' : e' <= e) by lia. destruct (pow_split e' e L') as (c & E & Hc).
    apply N.le_trans with (2 ^ 53 * 2 ^ e').
    + apply N.mul_le_mono_r. exact Hm'.
    + rewrite N.pow_succ_r', E. change (2 ^ 53) with (2 * 2 ^ 52). pose proof (pow2_pos e'). 
      replace (2 * 2 ^ 52 * 2 ^ e') with (2 ^ 52 * 2 * 1 * 2 ^ e') by lia.
      replace (m * (2 * (c * 2 ^ e'))) with (m * 2 * c * 2 ^ e') by lia.
      apply N.mul_le_mono_r. apply N.mul_le_mono; lia.
Qed.

Lemma rounding q : binary64 (round53 q) /\
  forall y, binary64 y -> distance q (round53 q) <= distance q y /\
    (distance q y = distance q (round53 q) -> y = round53 q \/ even_significand (round53 q)).
Proof.
  unfold round53. destruct (N.ltb_spec q (2 ^ 53)) as [Hq|Hq].
  - split; [exists q, 0; split; [lia|]; rewrite N.pow_0_r; lia|].
    intros y _. unfold distance. rewrite N.max_id, N.min_id. split; [lia|]. intros H. left. lia.
  - assert (Hl : 53 <= N.log2 q) by (change 53 with (N.log2 (2 ^ 53)); apply N.log2_le_mono; exact Hq).
    assert (E : exists e, N.log2 q - 52 = N.succ e) by (exists (N.log2 q - 53); lia). destruct E as [e E]. rewrite E.
    set (m := q / 2 ^ N.succ e). set (r := q mod 2 ^ N.succ e).
    assert (P : 0 < 2 ^ e) by apply pow2_pos.
    assert (S : 2 ^ N.succ e = 2 * 2 ^ e) by apply N.pow_succ_r'.
    assert (Q : q = m * 2 ^ N.succ e + r) by (unfold m, r; rewrite N.mul_comm; apply N.div_mod; lia).
    assert (R : r < 2 ^ N.succ e) by (apply N.mod_lt; lia).
    destruct (N.log2_spec q) as [L1 L2]; [lia|].
    assert (M1 : 2 ^ 52 <= m).
    { unfold m. apply N.div_le_lower_bound; [lia|]. rewrite <- N.pow_add_r. replace (N.succ e + 52) with (N.log2 q) by lia. exact L1. }
    assert (M2 : m < 2 ^ 53).
    { unfold m. apply N.div_lt_upper_bound; [lia|]. rewrite <- N.pow_add_r. replace (N.succ e + 53) with (N.succ (N.log2 q)) by lia. exact L2. }
    replace (N.succ e - 1) with e by lia.
    assert (B0 : binary64 (m * 2 ^ N.succ e)) by (exists m, (N.succ e); split; [lia|reflexivity]).
    assert (B1 : binary64 ((m + 1) * 2 ^ N.succ e)) by (exists (m + 1), (N.succ e); split; [lia|reflexivity]).
    assert (T : (m + 1) * 2 ^ N.succ e = m * 2 ^ N.succ e + 2 ^ N.succ e) by lia.
    assert (G : forall y, binary64 y -> y <= m * 2 ^ N.succ e \/ (m + 1) * 2 ^ N.succ e <= y) by (intros y; apply gap; exact M1).
    destruct (N.ltb_spec r (2 ^ e)) as [C|C].
    { split; [exact B0|]. intros y Hy. unfold distance. destruct (G y Hy); split; try lia; intros; left; lia. }
    destruct (N.ltb_spec (2 ^ e) r) as [D|D].
    { split; [exact B1|]. intros y Hy. unfold distance. destruct (G y Hy); split; try lia; intros; left; lia. }
    destruct (N.even m) eqn:Ev.
    { split; [exact B0|]. intros y Hy. split; [unfold distance; destruct (G y Hy); lia|]. intros _. right.
      exists m, (N.succ e). split; [lia|]. split; [reflexivity|]. apply N.even_spec. exact Ev. }
    { split; [exact B1|]. intros y Hy. split; [unfold distance; destruct (G y Hy); lia|]. intros _. right.
      exists (m + 1), (N.succ e). split; [lia|]. split; [reflexivity|]. apply N.even_spec. rewrite N.add_1_r, N.even_succ.
      rewrite <- N.negb_even, Ev. reflexivity. }
Qed.
