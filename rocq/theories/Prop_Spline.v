(** C85: matrices of B-splines. *)
From Coq Require Import QArith Lqa Lia.
From Verif Require Import PyBase IndexModel HierModel SplineModel SplineSpec SplineProofs.
Local Open Scope Q_scope.

Lemma mapM_all {A B} (f : A -> res B) (P : nat -> B -> Prop) (l : list A) : forall n,
  (forall p a, nth_error l p = Some a -> exists b, f a = Ok b /\ P (n + p)%nat b) ->
  exists bs, mapM f l = Ok bs /\ length bs = length l /\ forall p b, nth_error bs p = Some b -> P (n + p)%nat b.
Proof.
  induction l as [|a l IH]; intros n H; cbn.
  - exists []. repeat split. intros [|p] b Hb; discriminate.
  - destruct (H 0%nat a eq_refl) as (b & -> & Hb). destruct (IH (S n)) as (bs & -> & L & Hp).
    { intros p x Hx. destruct (H (S p) x Hx) as (y & E & Hy). exists y. split; [exact E|]. now rewrite Nat.add_succ_comm. }
    exists (b :: bs). cbn. split; [reflexivity|]. split; [now rewrite L|]. intros [|p] y Hy; cbn in Hy; [injection Hy as <-; exact Hb|].
    rewrite <- Nat.add_succ_comm. now apply Hp.
Qed.
Lemma qsum_sumf data f a : (forall m, (m < length data)%nat -> nth m data 0 == f (a + m)%nat) -> qsum data == sumf f a (length data).
Proof.
  revert a. induction data as [|x data IH]; intros a H; cbn; [reflexivity|].
  rewrite <- (IH (S a)). 2:{ intros m Hm. specialize (H (S m) ltac:(cbn; lia)). cbn in H. rewrite H, Nat.add_succ_comm. reflexivity. }
  specialize (H 0%nat ltac:(cbn; lia)). cbn in H. rewrite H, Nat.add_0_r. reflexivity.
Qed.

(** What a row for the parameter t must be. *)
Definition spline_row_spec (cps order : nat) (t : Q) (row : Z * list Q) : Prop :=
  let (start, data) := row in
  length data = order /\ (0 <= start)%Z /\ (start + Z.of_nat (length data) <= Z.of_nat cps)%Z /\
  (forall j, (j < cps)%nat -> dense start data j == basis_function (knot cps order) cps t (order - 1) j) /\
  Forall (fun x => 0 <= x) data /\ qsum data == 1.
Lemma row_meets cps order ks t : (1 <= order <= cps)%nat -> knots_of cps order = Ok ks -> 0 <= t -> t <= 1 ->
  exists row, spline_row ks cps order t = Ok row /\ spline_row_spec cps order t row /\
    (t == 0 -> forall j, (j < cps)%nat -> dense (fst row) (snd row) j == if Nat.eqb j 0 then 1 else 0) /\
    (t == 1 -> forall j, (j < cps)%nat -> dense (fst row) (snd row) j == if Nat.eqb (j + 1) cps then 1 else 0).
Proof.
  intros O1 Ek H0 H1. destruct (knots_ok cps order O1) as (ks' & Ek' & Kl & Kn). assert (ks' = ks) by congruence. subst ks'.
  destruct (row_ok cps order O1 ks Kl Kn t H0 H1) as (s & data & C & E & L & D). exists (Z.of_nat (s + 1 - order), data).
  split; [exact E|]. pose proof C as (Hs & K1 & K2).
  assert (Hi : t <= knot cps order (s + 1)) by (destruct K2 as [K2|[K2 ->]]; [lra|rewrite (knot_high cps order O1) by lia; lra]).
  assert (Gap : knot cps order s < knot cps order (s + 1)).
  { destruct K2 as [K2|[K2 ->]]; [lra|]. rewrite (knot_high cps order O1 (cps - 1 + 1)) by lia. apply knot_last_gap, O1. }
  pose proof (knot_mono cps order O1) as Mono.
  assert (De : forall j, (j < cps)%nat -> dense (Z.of_nat (s + 1 - order)) data j == bf (knot cps order) t s (order - 1) j).
  { intros j Hj. unfold dense. destruct (Z.ltb_spec (Z.of_nat j) (Z.of_nat (s + 1 - order))) as [B|B]; [rewrite bf_support by lia; reflexivity|].
    destruct (le_lt_dec order (j - (s + 1 - order))) as [G|G].
    - rewrite nth_overflow by lia. rewrite bf_support by lia. reflexivity.
    - replace (Z.to_nat (Z.of_nat j - Z.of_nat (s + 1 - order))) with (j - (s + 1 - order))%nat by lia. rewrite D by exact G.
      replace (s + 1 - order + (j - (s + 1 - order)))%nat with j by lia. reflexivity. }
  split; [|split].
  - unfold spline_row_spec. split; [exact L|]. split; [lia|]. split; [lia|]. split; [|split].
    + intros j Hj. rewrite De by exact Hj. symmetry. eapply chosen_basis; eauto.
    + apply Forall_forall. intros x Hx. apply (In_nth _ _ 0) in Hx as (m & Hm & <-). rewrite D by lia. now apply bf_nonneg.
    + rewrite (qsum_sumf data (bf (knot cps order) t s (order - 1)) (s + 1 - order)) by (intros m Hm; apply D; lia).
      rewrite L. pose proof (bf_sum (knot cps order) t s Mono Gap (order - 1) ltac:(lia)) as S1. replace (S (order - 1)) with order in S1 by lia. replace (s + 1 - order)%nat with (s - (order - 1))%nat by lia. exact S1.
  - cbn [fst snd]. intros T j Hj. rewrite De by exact Hj.
    assert (S0 : s = (order - 1)%nat).
    { destruct (le_lt_dec order s) as [G|G]; [|lia]. exfalso. destruct K2 as [K2|[K2 _]]; [|lra]. pose proof (Mono order s G) as M.
      assert (0 < knot cps order order).
      { unfold knot. destruct (Nat.ltb_spec order order); [lia|]. destruct (Nat.ltb_spec order cps); [|lra]. apply Qlt_shift_div_l; [apply (nq_pos (cps + 1 - order)); lia|].
        rewrite Qmult_0_l. apply (nq_pos (order + 1 - order)). lia. }
      lra. }
    rewrite bf_left; auto; [|lia|intros i Hi'; rewrite knot_low by lia; lra]. subst s. destruct (Nat.eqb_spec (j + (order - 1)) (order - 1)), (Nat.eqb_spec j 0); try lia; reflexivity.
  - cbn [fst snd]. intros T j Hj. rewrite De by exact Hj.
    assert (S1 : s = (cps - 1)%nat).
    { destruct K2 as [K2|[_ K2]]; [|exact K2]. exfalso. pose proof (Mono (s + 1)%nat cps ltac:(lia)) as M. rewrite (knot_high cps order O1 cps) in M by lia. lra. }
    rewrite bf_right; auto; [|intros i Hi'; rewrite knot_high by lia; lra]. subst s. destruct (Nat.eqb_spec j (cps - 1)), (Nat.eqb_spec (j + 1) cps); try lia; reflexivity.
Qed.

(** C85: get_bspline_mtx returns one row per point; row p holds the values of all basis functions
    of the given order (at most the number of control points) at point p; they are not negative
    and add up to 1. *)
Theorem c85_rows : forall cps pts order, (1 <= cps)%nat -> (1 <= order)%nat ->
  exists rows, get_bspline_mtx cps pts order = Ok rows /\ length rows = pts /\
    forall p row, nth_error rows p = Some row -> spline_row_spec cps (Nat.min order cps) (point pts p) row.
Proof.
  intros cps pts order Hc Ho. unfold get_bspline_mtx. set (k := Nat.min order cps). assert (O1 : (1 <= k <= cps)%nat) by lia.
  destruct (knots_ok cps k O1) as (ks & Ek & _). rewrite Ek. cbn [bind].
  destruct (mapM_all (spline_row ks cps k) (fun p row => spline_row_spec cps k (point pts p) row) (linspace pts) 0) as (rows & E & L & H).
  - intros p t Ht. pose proof (proj1 (nth_error_Some (linspace pts) p) ltac:(congruence)) as Lp. rewrite linspace_length in Lp.
    pose proof (linspace_nth pts p Lp) as E. rewrite (nth_error_nth _ _ _ Ht) in E. pose proof (point_range pts p Lp) as [P0 P1].
    destruct (row_meets cps k ks t O1 Ek ltac:(lra) ltac:(lra)) as (row & Er & Sp & _). exists row. split; [exact Er|].
    cbn [Nat.add]. destruct row as [st data]. destruct Sp as (A & B & C & D & F). repeat split; auto; try apply F.
    intros j Hj. rewrite D by exact Hj. clear - E. revert j. generalize (k - 1)%nat. induction n as [|n IH]; intros j; cbn [basis_function].
    + assert (X : forall q, Qle_bool q t = Qle_bool q (point pts p)). { intros q. apply Bool.eq_true_iff_eq. rewrite !Qle_bool_iff. rewrite E. reflexivity. }
      rewrite !X. assert (Y : Qeq_bool t 1 = Qeq_bool (point pts p) 1). { apply Bool.eq_true_iff_eq. rewrite !Qeq_bool_iff. rewrite E. reflexivity. } rewrite Y. reflexivity.
    + rewrite !quotient_div, !IH, E. reflexivity.
  - rewrite linspace_length in L. exists rows. split; [exact E|]. split; [exact L|]. exact H.
Qed.
Print Assumptions c85_rows.
(** C85: the curve starts at the first control point and ends at the last one. *)
Theorem c85_ends : forall cps pts order rows, (1 <= cps)%nat -> (1 <= order)%nat -> (2 <= pts)%nat -> get_bspline_mtx cps pts order = Ok rows ->
  (exists start data, nth_error rows 0 = Some (start, data) /\ forall j, (j < cps)%nat -> dense start data j == if Nat.eqb j 0 then 1 else 0) /\
  (exists start data, nth_error rows (pts - 1) = Some (start, data) /\ forall j, (j < cps)%nat -> dense start data j == if Nat.eqb (j + 1) cps then 1 else 0).
Proof.
  intros cps pts order rows Hc Ho Hp Eg. unfold get_bspline_mtx in Eg. set (k := Nat.min order cps) in Eg. assert (O1 : (1 <= k <= cps)%nat) by lia.
  destruct (knots_ok cps k O1) as (ks & Ek & _). rewrite Ek in Eg. cbn [bind] in Eg.
  destruct (mapM_all (spline_row ks cps k) (fun p row => exists t, t == point pts p /\ spline_row ks cps k t = Ok row) (linspace pts) 0) as (rows' & E & L & H).
  - intros p t Ht. pose proof (proj1 (nth_error_Some (linspace pts) p) ltac:(congruence)) as Lp. rewrite linspace_length in Lp.
    pose proof (linspace_nth pts p Lp) as E. rewrite (nth_error_nth _ _ _ Ht) in E. pose proof (point_range pts p Lp) as [P0 P1].
    destruct (row_meets cps k ks t O1 Ek ltac:(lra) ltac:(lra)) as (row & Er & _). exists row. split; [exact Er|]. eauto.
  - assert (rows' = rows) by congruence. subst rows'. rewrite linspace_length in L.
    assert (Row : forall p, (p < pts)%nat -> exists row t, nth_error rows p = Some row /\ t == point pts p /\ spline_row ks cps k t = Ok row).
    { intros p Lp. destruct (nth_error rows p) as [row|] eqn:En; [|apply nth_error_None in En; lia]. destruct (H p row En) as (t & Et & Er). eauto. }
    split.
    + destruct (Row 0%nat ltac:(lia)) as ([st data] & t & En & Et & Er). pose proof (point_range pts 0 ltac:(lia)) as [P0 P1].
      destruct (row_meets cps k ks t O1 Ek ltac:(lra) ltac:(lra)) as (row & Er' & _ & Z & _). assert (row = (st, data)) by congruence. subst row.
      exists st, data. split; [exact En|]. apply Z. rewrite Et. unfold point. destruct (Nat.leb_spec pts 1); [lia|]. reflexivity.
    + destruct (Row (pts - 1)%nat ltac:(lia)) as ([st data] & t & En & Et & Er). pose proof (point_range pts (pts - 1) ltac:(lia)) as [P0 P1].
      destruct (row_meets cps k ks t O1 Ek ltac:(lra) ltac:(lra)) as (row & Er' & _ & _ & Z). assert (row = (st, data)) by congruence. subst row.
      exists st, data. split; [exact En|]. apply Z. rewrite Et. unfold point. destruct (Nat.leb_spec pts 1); [lia|]. pose proof (nq_pos (pts - 1) ltac:(lia)). fold (nq (pts - 1)). field. lra.
Qed.
Print Assumptions c85_ends.
Theorem c85_rejected : forall cps pts order, cps = 0%nat \/ order = 0%nat -> get_bspline_mtx cps pts order = Err ValueError.
Proof. intros cps pts order H. unfold get_bspline_mtx. replace (Nat.min order cps) with 0%nat by lia. reflexivity. Qed.
Print Assumptions c85_rejected.
Example c85_example : match get_bspline_mtx 6 5 4 with
  | Ok rows => map (fun r => (fst r, map Qred (snd r))) rows =
      [(0%Z, [1; 0; 0; 0]); (0%Z, [1 # 64; 117 # 256; 117 # 256; 9 # 128]); (1%Z, [1 # 32; 15 # 32; 15 # 32; 1 # 32]);
       (2%Z, [9 # 128; 117 # 256; 117 # 256; 1 # 64]); (2%Z, [0; 0; 0; 1])]
  | Err _ => False end.
Proof. vm_compute. reflexivity. Qed.
