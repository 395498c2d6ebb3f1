(** Proofs about get_bspline_mtx. *)
From Coq Require Import QArith Lqa Lia.
From Verif Require Import PyBase IndexModel HierModel SplineModel SplineSpec.
Local Open Scope Q_scope.

Lemma quotient_div a b : quotient a b == a / b.
Proof.
  unfold quotient. destruct (Qeq_bool b 0) eqn:E; [|reflexivity]. apply Qeq_bool_iff in E. unfold Qdiv. rewrite E. change (/ 0) with 0. ring.
Qed.
Lemma div_zero a b : b == 0 -> a / b == 0.
Proof. intros E. unfold Qdiv. rewrite E. change (/ 0) with 0. ring. Qed.

(** ** The basis functions *)
Section Basis.
  Context (k : nat -> Q) (t : Q) (s : nat).
  Fixpoint bf (d i : nat) : Q :=
    match d with
    | O => if Nat.eqb i s then 1 else 0
    | S e => (t - k i) / (k (i + d)%nat - k i) * bf e i + (k (i + d + 1)%nat - t) / (k (i + d + 1)%nat - k (i + 1)%nat) * bf e (i + 1)
    end.
  Lemma bf_support d : forall i, (i + d < s)%nat \/ (s < i)%nat -> bf d i == 0.
  Proof.
    induction d as [|d IH]; intros i H; cbn [bf].
    - destruct (Nat.eqb_spec i s); [lia|reflexivity].
    - rewrite (IH i), (IH (i + 1)%nat) by lia. ring.
  Qed.
  Hypothesis Mono : forall a b, (a <= b)%nat -> k a <= k b.
  Hypothesis Lo : k s <= t.
  Hypothesis Hi : t <= k (s + 1)%nat.
  Hypothesis Gap : k s < k (s + 1)%nat.
  Lemma div_nonneg a b : 0 <= a -> 0 <= b -> 0 <= a / b.
  Proof. intros Ha Hb. unfold Qdiv. apply Qmult_le_0_compat; [exact Ha|]. apply Qinv_le_0_compat, Hb. Qed.
  Lemma bf_nonneg d : forall i, 0 <= bf d i.
  Proof.
    induction d as [|d IH]; intros i; cbn [bf]; [destruct (Nat.eqb i s); lra|].
    assert (A : 0 <= (t - k i) / (k (i + S d)%nat - k i) * bf d i).
    { destruct (le_lt_dec i s) as [L|L].
      - apply Qmult_le_0_compat; [|apply IH]. apply div_nonneg; [pose proof (Mono i s L); lra|]. pose proof (Mono i (i + S d) ltac:(lia)). lra.
      - rewrite (bf_support d i) by lia. lra. }
    assert (B : 0 <= (k (i + S d + 1)%nat - t) / (k (i + S d + 1)%nat - k (i + 1)%nat) * bf d (i + 1)).
    { destruct (le_lt_dec s (i + 1 + d)) as [L|L].
      - apply Qmult_le_0_compat; [|apply IH]. apply div_nonneg; [pose proof (Mono (s + 1) (i + S d + 1) ltac:(lia)); lra|]. pose proof (Mono (i + 1) (i + S d + 1) ltac:(lia)). lra.
      - rewrite (bf_support d (i + 1)) by lia. lra. }
    lra.
  Qed.
  Fixpoint sumf (f : nat -> Q) (a n : nat) : Q := match n with O => 0 | S m => f a + sumf f (S a) m end.
  Lemma sumf_ext f g a n : (forall i, (a <= i < a + n)%nat -> f i == g i) -> sumf f a n == sumf g a n.
  Proof. revert a. induction n as [|n IH]; intros a H; cbn; [reflexivity|]. rewrite (H a), IH by (lia || (intros; apply H; lia)). reflexivity. Qed.
  Lemma sumf_plus f g a n : sumf (fun i => f i + g i) a n == sumf f a n + sumf g a n.
  Proof. revert a. induction n as [|n IH]; intros a; cbn; [ring|]. rewrite IH. ring. Qed.
  Lemma sumf_shift f a n : sumf (fun i => f (i + 1)%nat) a n == sumf f (S a) n.
  Proof. revert a. induction n as [|n IH]; intros a; cbn; [reflexivity|]. rewrite IH. rewrite Nat.add_1_r. reflexivity. Qed.
  Lemma sumf_snoc f a n : sumf f a (S n) == sumf f a n + f (a + n)%nat.
  Proof. revert a. induction n as [|n IH]; intros a; cbn [sumf]; [rewrite Nat.add_0_r; ring|]. specialize (IH (S a)). cbn [sumf] in IH. rewrite IH. rewrite Nat.add_succ_comm. ring. Qed.
  Lemma bf_sum d : (d <= s)%nat -> sumf (bf d) (s - d) (S d) == 1.
  Proof.
    induction d as [|d IH]; intros L.
    - rewrite Nat.sub_0_r. cbn. rewrite Nat.eqb_refl. ring.
    - specialize (IH ltac:(lia)).
      set (A := fun i => (t - k i) / (k (i + S d)%nat - k i)). set (C := fun i => (k (i + S d)%nat - t) / (k (i + S d)%nat - k i)).
      rewrite (sumf_ext _ (fun i => A i * bf d i + C (i + 1)%nat * bf d (i + 1)%nat)).
      2:{ intros i _. cbn [bf]. unfold A, C. replace (i + 1 + S d)%nat with (i + S d + 1)%nat by lia. reflexivity. }
      rewrite sumf_plus. rewrite (sumf_shift (fun i => C i * bf d i)).
      assert (E1 : sumf (fun i => A i * bf d i) (s - S d) (S (S d)) == sumf (fun i => A i * bf d i) (s - d) (S d)).
      { cbn [sumf]. rewrite (bf_support d (s - S d)) by lia. replace (S (s - S d)) with (s - d)%nat by lia. ring. }
      assert (E2 : sumf (fun i => C i * bf d i) (S (s - S d)) (S (S d)) == sumf (fun i => C i * bf d i) (s - d) (S d)).
      { rewrite sumf_snoc. rewrite (bf_support d (S (s - S d) + S d)) by lia. replace (S (s - S d)) with (s - d)%nat by lia. ring. }
      rewrite E1, E2, <- sumf_plus, <- IH. apply sumf_ext. intros i Hi'. unfold A, C.
      assert (P : k i < k (i + S d)%nat). { pose proof (Mono i s ltac:(lia)). pose proof (Mono (s + 1) (i + S d) ltac:(lia)). lra. }
      field. lra.
  Qed.
  (** Ends. *)
  Lemma bf_left d : (d <= s)%nat -> (forall i, (s - d <= i <= s)%nat -> k i == t) ->
    forall i, bf d i == if Nat.eqb (i + d) s then 1 else 0.
  Proof.
    induction d as [|d IH]; intros L E i; cbn [bf]; [rewrite Nat.add_0_r; reflexivity|].
    rewrite !IH by (lia || (intros; apply E; lia)). replace (i + 1 + d)%nat with (i + S d)%nat by lia.
    assert (X : (t - k i) / (k (i + S d)%nat - k i) * (if Nat.eqb (i + d) s then 1 else 0) == 0).
    { destruct (Nat.eqb_spec (i + d) s); [|ring]. rewrite (E i) by lia. unfold Qdiv. ring. }
    rewrite X. destruct (Nat.eqb_spec (i + S d) s) as [Es|Es]; [|ring]. rewrite Es. rewrite (E (i + 1)%nat) by lia.
    rewrite (E s) in Gap by lia. field. lra.
  Qed.
  Lemma bf_right d : (forall i, (s + 1 <= i <= s + 1 + d)%nat -> k i == t) ->
    forall i, bf d i == if Nat.eqb i s then 1 else 0.
  Proof.
    induction d as [|d IH]; intros E i; cbn [bf]; [reflexivity|].
    rewrite !IH by (intros; apply E; lia).
    assert (X : (k (i + S d + 1)%nat - t) / (k (i + S d + 1)%nat - k (i + 1)%nat) * (if Nat.eqb (i + 1) s then 1 else 0) == 0).
    { destruct (Nat.eqb_spec (i + 1) s); [|ring]. rewrite (E (i + S d + 1)%nat) by lia. unfold Qdiv. ring. }
    rewrite X. destruct (Nat.eqb_spec i s) as [->|Es]; [|ring]. rewrite (E (s + S d)%nat) by lia.
    rewrite (E (s + 1)%nat) in Gap by lia. field. lra.
  Qed.
End Basis.

(** ** Arrays *)
Lemma aget_ok (l : list Q) z : (0 <= z < Z.of_nat (length l))%Z -> aget l z = Ok (nth (Z.to_nat z) l 0).
Proof.
  intros H. unfold aget, position. rewrite (proj2 (Z.leb_le 0 z)), (proj2 (Z.ltb_lt z _)) by lia.
  destruct (nth_error l (Z.to_nat z)) eqn:E; [now rewrite (nth_error_nth _ _ _ E)|]. apply nth_error_None in E. lia.
Qed.
Lemma upd_at_length {A} (l : list A) p a : length (upd_at l p a) = length l.
Proof. revert p. induction l as [|b l IH]; intros [|p]; cbn; auto. Qed.
Lemma upd_at_nth {A} (l : list A) p a d m : (p < length l)%nat -> nth m (upd_at l p a) d = if Nat.eqb m p then a else nth m l d.
Proof. revert p m. induction l as [|b l IH]; intros [|p] [|m] H; cbn in *; try lia; try reflexivity. apply IH. lia. Qed.

(** [bs] has [n] elements, which are those of [f]. *)
Definition holds (n : nat) (bs : list Q) (f : nat -> Q) : Prop := length bs = n /\ forall m, (m < n)%nat -> nth m bs 0 == f m.
Definition put (f : nat -> Q) (p : nat) (v : Q) : nat -> Q := fun m => if Nat.eqb m p then v else f m.
Lemma aget_holds n bs f z : holds n bs f -> (0 <= z < Z.of_nat n)%Z -> exists x, aget bs z = Ok x /\ x == f (Z.to_nat z).
Proof. intros [L H] B. rewrite aget_ok by lia. eexists. split; [reflexivity|]. apply H. lia. Qed.
Lemma aset_holds n bs f z v w : holds n bs f -> (0 <= z < Z.of_nat n)%Z -> v == w -> exists bs2, aset bs z v = Ok bs2 /\ holds n bs2 (put f (Z.to_nat z) w).
Proof.
  intros [L H] B E. unfold aset, position. rewrite L, (proj2 (Z.leb_le 0 z)), (proj2 (Z.ltb_lt z _)) by lia. eexists. split; [reflexivity|].
  split; [now rewrite upd_at_length|]. intros m Hm. rewrite upd_at_nth by lia. unfold put. destruct (Nat.eqb_spec m (Z.to_nat z)); [exact E|]. now apply H.
Qed.

Section Row.
  Context (knots : list Q) (t : Q) (order i0 : nat).
  Hypothesis Order : (1 <= order)%nat.
  Hypothesis Len : (i0 + 2 * order <= length knots)%nat.
  Let k (m : nat) : Q := nth m knots 0.
  Lemma knot_get z : (0 <= z < Z.of_nat (i0 + 2 * order))%Z -> aget knots z = Ok (k (Z.to_nat z)).
  Proof. intros H. apply aget_ok. lia. Qed.
  Lemma left_part_ok l j bs f : (1 <= l < order)%nat -> (1 <= j <= order)%nat -> holds order bs f ->
    exists bs2, left_part knots t (Z.of_nat l) (Z.of_nat i0 + Z.of_nat j) (Z.of_nat j) bs = Ok bs2 /\
      holds order bs2 (put f (j - 1) ((t - k (i0 + (j - 1))%nat) / (k (i0 + (j - 1) + l)%nat - k (i0 + (j - 1))%nat) * f (j - 1)%nat)).
  Proof.
    intros Hl Hj H. unfold left_part. rewrite !knot_get by lia. cbn [bind].
    replace (Z.to_nat (Z.of_nat i0 + Z.of_nat j + Z.of_nat l - 1)) with (i0 + (j - 1) + l)%nat by lia.
    replace (Z.to_nat (Z.of_nat i0 + Z.of_nat j - 1)) with (i0 + (j - 1))%nat by lia.
    destruct (Qeq_bool _ _) eqn:E.
    - apply Qeq_bool_iff in E. destruct (aset_holds order bs f (Z.of_nat j - 1) 0 ((t - k (i0 + (j - 1))%nat) / (k (i0 + (j - 1) + l)%nat - k (i0 + (j - 1))%nat) * f (j - 1)%nat) H) as (b2 & A & B); [lia| |].
      + rewrite div_zero by (rewrite E; ring). ring.
      + replace (Z.to_nat (Z.of_nat j - 1)) with (j - 1)%nat in B by lia. eauto.
    - destruct (aget_holds _ _ _ (Z.of_nat j - 1) H) as (x & -> & Ex); [lia|]. cbn [bind]. replace (Z.to_nat (Z.of_nat j - 1)) with (j - 1)%nat in Ex by lia.
      edestruct (aset_holds order bs f (Z.of_nat j - 1)) as (b2 & A & B); [exact H|lia| |rewrite A; exists b2; split; [reflexivity|]].
      + rewrite Ex. reflexivity.
      + replace (Z.to_nat (Z.of_nat j - 1)) with (j - 1)%nat in B by lia. exact B.
  Qed.
  Lemma right_part_ok l j bs f : (1 <= l < order)%nat -> (1 <= j < order)%nat -> holds order bs f ->
    exists bs2, right_part knots t (Z.of_nat l) (Z.of_nat i0 + Z.of_nat j) (Z.of_nat j) bs = Ok bs2 /\
      holds order bs2 (put f (j - 1) (f (j - 1)%nat + (k (i0 + j + l)%nat - t) / (k (i0 + j + l)%nat - k (i0 + j)%nat) * f j)).
  Proof.
    intros Hl Hj H. unfold right_part. rewrite !knot_get by lia. cbn [bind].
    replace (Z.to_nat (Z.of_nat i0 + Z.of_nat j + Z.of_nat l)) with (i0 + j + l)%nat by lia.
    replace (Z.to_nat (Z.of_nat i0 + Z.of_nat j)) with (i0 + j)%nat by lia.
    destruct (Qeq_bool _ _) eqn:E.
    - apply Qeq_bool_iff in E. exists bs. split; [reflexivity|]. destruct H as [L H]. split; [exact L|]. intros m Hm. unfold put. rewrite (H m Hm).
      destruct (Nat.eqb_spec m (j - 1)) as [->|_]; [|reflexivity]. rewrite div_zero by (rewrite E; ring). ring.
    - destruct (aget_holds _ _ _ (Z.of_nat j) H) as (x & -> & Ex); [lia|]. destruct (aget_holds _ _ _ (Z.of_nat j - 1) H) as (y & -> & Ey); [lia|]. cbn [bind].
      replace (Z.to_nat (Z.of_nat j - 1)) with (j - 1)%nat in Ey by lia. rewrite Nat2Z.id in Ex.
      edestruct (aset_holds order bs f (Z.of_nat j - 1)) as (b2 & A & B); [exact H|lia| |rewrite A; exists b2; split; [reflexivity|]].
      + rewrite Ex, Ey. reflexivity.
      + replace (Z.to_nat (Z.of_nat j - 1)) with (j - 1)%nat in B by lia. exact B.
  Qed.
  Let s : nat := (i0 + order - 1)%nat.
  Lemma holds_ext n bs f g : holds n bs f -> (forall m, (m < n)%nat -> f m == g m) -> holds n bs g.
  Proof. intros [L H] E. split; [exact L|]. intros m Hm. rewrite H by exact Hm. now apply E. Qed.
  Lemma raise_degree_ok l bs : (1 <= l < order)%nat -> holds order bs (fun m => bf k t s (l - 1) (i0 + m)) ->
    exists bs2, raise_degree knots t (Z.of_nat i0) order l bs = Ok bs2 /\ holds order bs2 (fun m => bf k t s l (i0 + m)).
  Proof.
    intros Hl H. destruct l as [|l]; [lia|]. replace (S l - 1)%nat with l in H by lia.
    unfold raise_degree. rewrite !knot_get by lia. cbn [bind].
    set (j1 := (order - S l)%nat). replace (Z.of_nat order - Z.of_nat (S l))%Z with (Z.of_nat j1) by lia.
    replace (Z.to_nat (Z.of_nat i0 + Z.of_nat j1 + Z.of_nat (S l))) with (i0 + j1 + S l)%nat by lia.
    replace (Z.to_nat (Z.of_nat i0 + Z.of_nat j1)) with (i0 + j1)%nat by lia.
    set (F := fun c m => if (m <? c)%nat then bf k t s (S l) (i0 + m) else bf k t s l (i0 + m)).
    assert (First : exists b1, (if Qeq_bool (k (i0 + j1 + S l)%nat) (k (i0 + j1)%nat) then aset bs (Z.of_nat j1 - 1) 0
        else do x <- aget bs (Z.of_nat j1); aset bs (Z.of_nat j1 - 1) ((k (i0 + j1 + S l)%nat - t) / (k (i0 + j1 + S l)%nat - k (i0 + j1)%nat) * x)) = Ok b1 /\ holds order b1 (F j1)).
    { assert (V : exists b1, (if Qeq_bool (k (i0 + j1 + S l)%nat) (k (i0 + j1)%nat) then aset bs (Z.of_nat j1 - 1) 0
        else do x <- aget bs (Z.of_nat j1); aset bs (Z.of_nat j1 - 1) ((k (i0 + j1 + S l)%nat - t) / (k (i0 + j1 + S l)%nat - k (i0 + j1)%nat) * x)) = Ok b1 /\
        holds order b1 (put (fun m => bf k t s l (i0 + m)) (j1 - 1) ((k (i0 + j1 + S l)%nat - t) / (k (i0 + j1 + S l)%nat - k (i0 + j1)%nat) * bf k t s l (i0 + j1)))).
      { destruct (Qeq_bool _ _) eqn:E.
        - apply Qeq_bool_iff in E.
          destruct (aset_holds order bs (fun m => bf k t s l (i0 + m)) (Z.of_nat j1 - 1) 0 ((k (i0 + j1 + S l)%nat - t) / (k (i0 + j1 + S l)%nat - k (i0 + j1)%nat) * bf k t s l (i0 + j1)) H) as (b2 & A & B); [lia| |].
          { rewrite div_zero by (rewrite E; ring). ring. }
          exists b2. split; [exact A|]. replace (Z.to_nat (Z.of_nat j1 - 1)) with (j1 - 1)%nat in B by lia. exact B.
        - destruct (aget_holds _ _ _ (Z.of_nat j1) H) as (x & -> & Ex); [lia|]. cbn [bind]. rewrite Nat2Z.id in Ex.
          destruct (aset_holds order bs (fun m => bf k t s l (i0 + m)) (Z.of_nat j1 - 1) ((k (i0 + j1 + S l)%nat - t) / (k (i0 + j1 + S l)%nat - k (i0 + j1)%nat) * x)
            ((k (i0 + j1 + S l)%nat - t) / (k (i0 + j1 + S l)%nat - k (i0 + j1)%nat) * bf k t s l (i0 + j1)) H) as (b2 & A & B); [lia| |].
          { rewrite Ex. reflexivity. }
          exists b2. split; [exact A|]. replace (Z.to_nat (Z.of_nat j1 - 1)) with (j1 - 1)%nat in B by lia. exact B. }
      destruct V as (b1 & A & B). exists b1. split; [exact A|]. eapply holds_ext; [exact B|]. intros m Hm. unfold put, F. cbn [bf].
      destruct (Nat.eqb_spec m (j1 - 1)) as [->|Nm].
      - rewrite (proj2 (Nat.ltb_lt (j1 - 1) j1)) by lia. rewrite (bf_support k t s l (i0 + (j1 - 1))) by lia.
        replace (i0 + (j1 - 1) + S l + 1)%nat with (i0 + j1 + S l)%nat by lia. replace (i0 + (j1 - 1) + 1)%nat with (i0 + j1)%nat by lia. ring.
      - destruct (Nat.ltb_spec m j1); [|reflexivity]. rewrite !(bf_support k t s l) by lia. ring. }
    destruct First as (b1 & -> & H1). cbn [bind].
    assert (Loop : forall c b, (j1 <= c)%nat -> forall n, (c + n = order - 1)%nat -> holds order b (F c) ->
      exists b2, for_each (fun bs j => do bs' <- left_part knots t (Z.of_nat (S l)) (Z.of_nat i0 + j) j bs; right_part knots t (Z.of_nat (S l)) (Z.of_nat i0 + j) j bs')
        (map (fun i => (Z.of_nat j1 + 1 + Z.of_nat i)%Z) (seq (c - j1) n)) b = Ok b2 /\ holds order b2 (F (order - 1)%nat)).
    { intros c b Hc n. revert c b Hc. induction n as [|n IH]; intros c b Hc Hn Hb; cbn [seq map for_each].
      - exists b. split; [reflexivity|]. replace (order - 1)%nat with c by lia. exact Hb.
      - replace (Z.of_nat j1 + 1 + Z.of_nat (c - j1))%Z with (Z.of_nat (S c)) by lia.
        destruct (left_part_ok (S l) (S c) b (F c)) as (b' & -> & H'); [lia|lia|exact Hb|]. cbn [bind].
        destruct (right_part_ok (S l) (S c) b' _ ltac:(lia) ltac:(lia) H') as (b'' & -> & H''). cbn [bind].
        replace (S (c - j1)) with (S c - j1)%nat by lia. apply IH; [lia|lia|]. eapply holds_ext; [exact H''|]. intros m Hm.
        replace (S c - 1)%nat with c by lia. unfold put, F. destruct (Nat.eqb_spec m c) as [->|Nm].
        + rewrite Nat.eqb_refl, (proj2 (Nat.ltb_lt c (S c))), (proj2 (Nat.ltb_ge c c)), (proj2 (Nat.ltb_ge (S c) c)) by lia.
          destruct (Nat.eqb_spec (S c) c); [lia|]. cbn [bf]. replace (i0 + c + S l + 1)%nat with (i0 + S c + S l)%nat by lia. replace (i0 + c + 1)%nat with (i0 + S c)%nat by lia. reflexivity.
        + destruct (Nat.ltb_spec m c), (Nat.ltb_spec m (S c)); try lia; reflexivity. }
    destruct (Loop j1 b1 (le_n _) l ltac:(lia) H1) as (b2 & E2 & H2). rewrite Nat.sub_diag in E2. replace (S l - 1)%nat with l by lia. rewrite E2. cbn [bind].
    destruct (left_part_ok (S l) order b2 _ ltac:(lia) ltac:(lia) H2) as (b3 & E3 & H3). exists b3. split; [exact E3|]. eapply holds_ext; [exact H3|].
    intros m Hm. unfold put, F. destruct (Nat.eqb_spec m (order - 1)) as [->|Nm].
    - rewrite (proj2 (Nat.ltb_ge (order - 1) (order - 1))) by lia. cbn [bf]. rewrite (bf_support k t s l (i0 + (order - 1) + 1)) by lia. ring.
    - destruct (Nat.ltb_spec m (order - 1)); [reflexivity|lia].
  Qed.
  Lemma degrees_ok n : forall l bs, (1 <= l)%nat -> (l + n = order)%nat -> holds order bs (fun m => bf k t s (l - 1) (i0 + m)) ->
    exists bs2, for_each (fun bs l => raise_degree knots t (Z.of_nat i0) order l bs) (seq l n) bs = Ok bs2 /\ holds order bs2 (fun m => bf k t s (order - 1) (i0 + m)).
  Proof.
    induction n as [|n IH]; intros l bs Hl Hn H; cbn [seq for_each].
    - exists bs. split; [reflexivity|]. replace (order - 1)%nat with (l - 1)%nat by lia. exact H.
    - destruct (raise_degree_ok l bs ltac:(lia) H) as (b & -> & Hb). cbn [bind]. apply IH; [lia|lia|]. replace (S l - 1)%nat with l by lia. exact Hb.
  Qed.
  Lemma initial : holds order (repeat 0 (order - 1) ++ [1]) (fun m => bf k t s 0 (i0 + m)).
  Proof.
    split; [rewrite app_length, repeat_length; cbn; lia|]. intros m Hm. cbn [bf]. destruct (Nat.eqb_spec (i0 + m) s) as [E|E].
    - rewrite app_nth2, repeat_length by (rewrite repeat_length; lia). replace (m - (order - 1))%nat with 0%nat by lia. reflexivity.
    - rewrite app_nth1 by (rewrite repeat_length; lia). rewrite nth_repeat. reflexivity.
  Qed.
  Lemma basis_ok : exists bs, for_each (fun bs l => raise_degree knots t (Z.of_nat i0) order l bs) (seq 1 (order - 1)) (repeat 0 (order - 1) ++ [1]) = Ok bs /\
    holds order bs (fun m => bf k t s (order - 1) (i0 + m)).
  Proof. apply degrees_ok; [lia|lia|exact initial]. Qed.
End Row.

(** ** Knots *)
Lemma nq_le a b : (a <= b)%nat -> nq a <= nq b.
Proof. intros H. unfold nq. rewrite <- Zle_Qle. lia. Qed.
Lemma nq_pos a : (0 < a)%nat -> 0 < nq a.
Proof. intros H. change 0 with (inject_Z 0). unfold nq. rewrite <- Zlt_Qlt. lia. Qed.
Lemma linspace_length n : length (linspace n) = n.
Proof. destruct n as [|[|n]]; [reflexivity..|]. unfold linspace. now rewrite map_length, seq_length. Qed.
Lemma linspace_nth n p : (p < n)%nat -> nth p (linspace n) 0 == point n p.
Proof.
  intros H. unfold point. destruct n as [|[|n]]; [lia| |].
  - replace p with 0%nat by lia. reflexivity.
  - cbn [Nat.leb]. unfold linspace. erewrite nth_indep by (rewrite map_length, seq_length; exact H).
    rewrite (map_nth (fun i => nq i / nq (S n)) _ 0%nat), seq_nth by exact H. unfold nq. replace (S (S n) - 1)%nat with (S n) by lia. reflexivity.
Qed.
Lemma point_range n p : (p < n)%nat -> 0 <= point n p <= 1.
Proof.
  intros H. unfold point. destruct (Nat.leb_spec n 1); [lra|]. pose proof (nq_pos (n - 1) ltac:(lia)) as P. pose proof (nq_le p (n - 1) ltac:(lia)) as L. pose proof (nq_le 0 p ltac:(lia)) as Z.
  fold (nq p) (nq (n - 1)). change (nq 0) with 0 in Z. split; [apply div_nonneg; lra|]. apply Qle_shift_div_r; [exact P|]. lra.
Qed.
Section Knots.
  Context (cps order : nat).
  Hypothesis O1 : (1 <= order <= cps)%nat.
  Lemma knots_ok : exists ks, knots_of cps order = Ok ks /\ length ks = (cps + order)%nat /\ forall m, (m < cps + order)%nat -> nth m ks 0 == knot cps order m.
  Proof.
    unfold knots_of. destruct order as [|d]; [lia|]. eexists. split; [reflexivity|].
    set (n := (cps - S d + 2)%nat). split; [rewrite !app_length, !repeat_length, linspace_length; lia|].
    intros m Hm. unfold knot. destruct (le_lt_dec d m) as [L|L].
    - rewrite app_nth2 by (rewrite repeat_length; lia). rewrite repeat_length. destruct (le_lt_dec n (m - d)) as [L2|L2].
      + rewrite app_nth2 by (rewrite linspace_length; lia). rewrite (nth_indep _ 0 1), nth_repeat by (rewrite repeat_length, linspace_length; lia).
        destruct (Nat.ltb_spec m (S d)); [lia|]. destruct (Nat.ltb_spec m cps); [lia|reflexivity].
      + rewrite app_nth1 by (rewrite linspace_length; lia). rewrite linspace_nth by exact L2. unfold point. destruct (Nat.leb_spec n 1); [lia|].
        destruct (Nat.ltb_spec m (S d)). { replace (m - d)%nat with 0%nat by lia. reflexivity. }
        destruct (Nat.ltb_spec m cps). { replace (m - d)%nat with (m + 1 - S d)%nat by lia. replace (n - 1)%nat with (cps + 1 - S d)%nat by lia. reflexivity. }
        replace (m - d)%nat with (n - 1)%nat by lia. fold (nq (n - 1)). pose proof (nq_pos (n - 1) ltac:(lia)). field. lra.
    - rewrite app_nth1 by (rewrite repeat_length; lia). rewrite nth_repeat. destruct (Nat.ltb_spec m (S d)); [reflexivity|lia].
  Qed.
  Lemma knot_mono a b : (a <= b)%nat -> knot cps order a <= knot cps order b.
  Proof.
    intros H. unfold knot. pose proof (nq_pos (cps + 1 - order) ltac:(lia)) as P. fold (nq (a + 1 - order)) (nq (b + 1 - order)) (nq (cps + 1 - order)).
    pose proof (nq_le 0 (b + 1 - order) ltac:(lia)) as Z. change (nq 0) with 0 in Z.
    destruct (Nat.ltb_spec a order), (Nat.ltb_spec b order); try lia; try lra; destruct (Nat.ltb_spec a cps), (Nat.ltb_spec b cps); try lia; try lra.
    - apply div_nonneg; lra.
    - apply Qle_shift_div_l; [exact P|]. pose proof (nq_le (a + 1 - order) (b + 1 - order) ltac:(lia)). unfold Qdiv. rewrite <- Qmult_assoc, (Qmult_comm (/ _)), Qmult_inv_r by lra. lra.
    - apply Qle_shift_div_r; [exact P|]. pose proof (nq_le (a + 1 - order) (cps + 1 - order) ltac:(lia)). lra.
  Qed.
  Lemma knot_low m : (m < order)%nat -> knot cps order m == 0.
  Proof. intros H. unfold knot. destruct (Nat.ltb_spec m order); [reflexivity|lia]. Qed.
  Lemma knot_high m : (cps <= m)%nat -> knot cps order m == 1.
  Proof. intros H. unfold knot. destruct (Nat.ltb_spec m order); [lia|]. destruct (Nat.ltb_spec m cps); [lia|reflexivity]. Qed.
  Lemma knot_last_gap : knot cps order (cps - 1) < 1.
  Proof.
    unfold knot. destruct (Nat.ltb_spec (cps - 1) order); [lra|]. destruct (Nat.ltb_spec (cps - 1) cps); [|lia].
    apply Qlt_shift_div_r; [apply (nq_pos (cps + 1 - order)); lia|]. rewrite Qmult_1_l, <- Zlt_Qlt. lia.
  Qed.
  (** The interval of t. *)
  Lemma interval_exists t : 0 <= t -> t < 1 -> exists s, (order - 1 <= s < cps)%nat /\ knot cps order s <= t /\ t < knot cps order (s + 1).
  Proof.
    intros H0 H1. assert (G : forall n, (order - 1 + n <= cps)%nat -> t < knot cps order (order - 1 + n) -> exists s, (order - 1 <= s < cps)%nat /\ knot cps order s <= t /\ t < knot cps order (s + 1)).
    { induction n as [|n IH]; intros L K.
      - rewrite Nat.add_0_r, knot_low in K by lia. lra.
      - destruct (Qlt_le_dec t (knot cps order (order - 1 + n))) as [K2|K2]; [apply IH; [lia|exact K2]|].
        exists (order - 1 + n)%nat. split; [lia|]. split; [exact K2|]. replace (order - 1 + n + 1)%nat with (order - 1 + S n)%nat by lia. exact K. }
    apply (G (cps + 1 - order)%nat); [lia|]. replace (order - 1 + (cps + 1 - order))%nat with cps by lia. rewrite knot_high by lia. exact H1.
  Qed.
  Context (ks : list Q).
  Hypothesis Kl : length ks = (cps + order)%nat.
  Hypothesis Kn : forall m, (m < cps + order)%nat -> nth m ks 0 == knot cps order m.
  Lemma find_ok t s : (order - 1 <= s < cps)%nat -> knot cps order s <= t -> t < knot cps order (s + 1) ->
    forall n a z, (order <= a)%nat -> (a + n <= cps + 1)%nat -> exists y, find_interval ks t order (seq a n) z = Ok y /\
      y = if (a <=? s + 1)%nat && (s + 1 <? a + n)%nat then Z.of_nat (s + 1 - order) else z.
  Proof.
    intros Hs K1 K2. induction n as [|n IH]; intros a z Ha Hn; cbn [seq find_interval].
    - exists z. split; [reflexivity|]. destruct (Nat.leb_spec a (s + 1)), (Nat.ltb_spec (s + 1) (a + 0)); try reflexivity. lia.
    - rewrite aget_ok by lia. cbn [bind]. replace (Z.to_nat (Z.of_nat a - 1)) with (a - 1)%nat by lia.
      assert (B : exists b, (if Qle_bool (nth (a - 1) ks 0) t then aget ks (Z.of_nat a) else Ok 0) = Ok b /\ (Qle_bool (nth (a - 1) ks 0) t = true -> b == knot cps order a)).
      { destruct (Qle_bool _ _); [|exists 0; split; [reflexivity|discriminate]]. rewrite aget_ok by lia. eexists. split; [reflexivity|]. intros _. rewrite Nat2Z.id. apply Kn. lia. }
      destruct B as (b & -> & Hb). cbn [bind].
      assert (D : Qle_bool (nth (a - 1) ks 0) t && negb (Qle_bool b t) = Nat.eqb a (s + 1)).
      { assert (X : forall c, nth (a - 1) ks 0 == knot cps order (a - 1) -> Qle_bool (nth (a - 1) ks 0) t = c -> (c = true <-> knot cps order (a - 1) <= t)).
        { intros c E Hc. rewrite <- E. destruct c; split; intros Y; try discriminate; auto. apply Qle_bool_iff, Hc. apply Qle_bool_iff in Y. congruence. }
        specialize (X _ (Kn (a - 1)%nat ltac:(lia)) eq_refl). destruct (Nat.eqb_spec a (s + 1)) as [->|Na].
        - replace (s + 1 - 1)%nat with s in * by lia. rewrite (proj2 X K1) in *. specialize (Hb eq_refl). cbn [andb]. destruct (Qle_bool b t) eqn:Eb; [|reflexivity].
          apply Qle_bool_iff in Eb. lra.
        - destruct (Qle_bool (nth (a - 1) ks 0) t) eqn:E1; [|reflexivity]. specialize (Hb eq_refl). cbn [andb]. destruct (Qle_bool b t) eqn:Eb; [reflexivity|]. exfalso.
          pose proof (proj1 X eq_refl) as X1. assert (t < b) by (destruct (Qlt_le_dec t b) as [Y|Y]; [exact Y|]; apply Qle_bool_iff in Y; congruence).
          destruct (le_lt_dec a s) as [L|L]; [pose proof (knot_mono a s L); lra|pose proof (knot_mono (s + 1) (a - 1) ltac:(lia)); lra]. }
      rewrite D. destruct (IH (S a) (if Nat.eqb a (s + 1) then Z.of_nat a - Z.of_nat order else z)%Z ltac:(lia) ltac:(lia)) as (y & -> & ->). eexists. split; [reflexivity|].
      destruct (Nat.eqb_spec a (s + 1)) as [->|Na].
      + destruct (Nat.leb_spec (S (s + 1)) (s + 1)); [lia|]. cbn [andb]. rewrite (proj2 (Nat.leb_le _ _)), (proj2 (Nat.ltb_lt _ _)) by lia. cbn [andb]. lia.
      + destruct (Nat.leb_spec (S a) (s + 1)), (Nat.leb_spec a (s + 1)), (Nat.ltb_spec (s + 1) (S a + n)), (Nat.ltb_spec (s + 1) (a + S n)); try lia; reflexivity.
  Qed.
  Lemma find_none t : forall n a z, (order <= a)%nat -> (a + n <= cps + 1)%nat -> exists y, find_interval ks t order (seq a n) z = Ok y.
  Proof.
    induction n as [|n IH]; intros a z Ha Hn; cbn [seq find_interval]; [eauto|]. rewrite aget_ok by lia. cbn [bind].
    destruct (Qle_bool _ t); [rewrite aget_ok by lia|]; cbn [bind]; apply IH; lia.
  Qed.
  (** The interval chosen for t. *)
  Definition chosen (t : Q) (s : nat) : Prop :=
    (order - 1 <= s < cps)%nat /\ knot cps order s <= t /\ ((t < knot cps order (s + 1)) \/ (t == 1 /\ s = (cps - 1)%nat)).
  Lemma start_ok t : 0 <= t -> t <= 1 -> exists s, chosen t s /\ start_of ks t cps order = Ok (Z.of_nat (s + 1 - order)).
  Proof.
    intros H0 H1. unfold start_of.
    assert (Last : aget ks (-1) = Ok (nth (cps + order - 1) ks 0)).
    { unfold aget, position. rewrite Kl. change (0 <=? -1)%Z with false. cbv iota. rewrite (proj2 (Z.leb_le (- Z.of_nat (cps + order)) (-1))) by lia. replace (Z.to_nat (Z.of_nat (cps + order) + -1)) with (cps + order - 1)%nat by lia.
      destruct (nth_error ks (cps + order - 1)) eqn:E; [now rewrite (nth_error_nth _ _ _ E)|]. apply nth_error_None in E. lia. }
    rewrite Last. pose proof (Kn (cps + order - 1)%nat ltac:(lia)) as KL. rewrite knot_high in KL by lia.
    destruct (Qeq_bool t (nth (cps + order - 1) ks 0)) eqn:E.
    - destruct (find_none t (cps + 1 - order) order (-1) ltac:(lia) ltac:(lia)) as (y & ->). cbn [bind]. rewrite E. apply Qeq_bool_iff in E. rewrite KL in E.
      exists (cps - 1)%nat. split; [|apply (f_equal Ok); lia]. split; [lia|]. split; [pose proof knot_last_gap; lra|]. right. auto.
    - assert (t < 1). { destruct (Qlt_le_dec t 1) as [Y|Y]; [exact Y|]. assert (t == nth (cps + order - 1) ks 0) by lra. apply Qeq_bool_iff in H. congruence. }
      destruct (interval_exists t H0 H) as (s & Hs & K1 & K2). destruct (find_ok t s Hs K1 K2 (cps + 1 - order) order (-1) ltac:(lia) ltac:(lia)) as (y & -> & ->). cbn [bind]. rewrite E.
      exists s. split; [split; [exact Hs|]; auto|]. rewrite (proj2 (Nat.leb_le _ _)), (proj2 (Nat.ltb_lt _ _)) by lia. reflexivity.
  Qed.
  Lemma chosen_base t s i : chosen t s -> basis_function (knot cps order) cps t 0 i == bf (knot cps order) t s 0 i.
  Proof.
    intros (Hs & K1 & K2). cbn [basis_function bf]. destruct (Nat.eqb_spec i s) as [->|Ni].
    - assert (T : Qle_bool (knot cps order s) t = true) by (apply Qle_bool_iff, K1). rewrite T. cbn [andb]. destruct K2 as [K2|[K2 ->]].
      + destruct (Qle_bool (knot cps order (s + 1)) t) eqn:E; [apply Qle_bool_iff in E; lra|]. reflexivity.
      + rewrite (proj2 (Qeq_bool_iff t 1) K2), (proj2 (Nat.eqb_eq (cps - 1 + 1) cps)) by lia. rewrite Bool.orb_true_r. reflexivity.
    - destruct (Qle_bool (knot cps order i) t && negb (Qle_bool (knot cps order (i + 1)) t)) eqn:E; cbn [orb].
      + exfalso. apply andb_prop in E as [E1 E2]. apply Qle_bool_iff in E1. assert (E3 : t < knot cps order (i + 1)). { destruct (Qlt_le_dec t (knot cps order (i + 1))) as [Y|Y]; [exact Y|]. apply Qle_bool_iff in Y. rewrite Y in E2. discriminate. }
        destruct (le_lt_dec i s) as [L|L].
        * pose proof (knot_mono (i + 1) s ltac:(lia)). lra.
        * destruct K2 as [K2|[K2 ->]]; [pose proof (knot_mono (s + 1) i ltac:(lia)); lra|]. rewrite knot_high in E3 by lia. lra.
      + destruct (Qeq_bool t 1) eqn:Et; [|reflexivity]. apply Qeq_bool_iff in Et. cbn [andb]. destruct (Nat.eqb_spec (i + 1) cps) as [Ei|]; [|reflexivity]. exfalso.
        destruct K2 as [K2|[_ ->]]; [|lia]. pose proof (knot_mono (s + 1) cps ltac:(lia)) as M. rewrite (knot_high cps) in M by lia. lra.
  Qed.
  Lemma chosen_basis t s d : chosen t s -> forall i, basis_function (knot cps order) cps t d i == bf (knot cps order) t s d i.
  Proof.
    intros C. induction d as [|d IH]; intros i; [now apply chosen_base|]. cbn [basis_function bf]. rewrite !quotient_div, !IH. reflexivity.
  Qed.
  Lemma bf_knots t s d : forall i, (i + d + 1 < cps + order)%nat -> bf (fun m => nth m ks 0) t s d i == bf (knot cps order) t s d i.
  Proof.
    induction d as [|d IH]; intros i H; cbn [bf]; [reflexivity|]. rewrite !IH, !Kn by lia. reflexivity.
  Qed.
  Lemma row_ok t : 0 <= t -> t <= 1 -> exists s data, chosen t s /\ spline_row ks cps order t = Ok (Z.of_nat (s + 1 - order), data) /\
    length data = order /\ forall m, (m < order)%nat -> nth m data 0 == bf (knot cps order) t s (order - 1) (s + 1 - order + m).
  Proof.
    intros H0 H1. destruct (start_ok t H0 H1) as (s & C & E). pose proof C as (Hs & _). destruct (basis_ok ks t order (s + 1 - order) ltac:(lia) ltac:(lia)) as (bs & Eb & Lb & Hb).
    exists s, bs. split; [exact C|]. unfold spline_row. rewrite E. cbn [bind]. rewrite Eb. cbn [bind]. split; [reflexivity|]. split; [exact Lb|].
    intros m Hm. rewrite Hb by exact Hm. replace (s + 1 - order + order - 1)%nat with s by lia. apply bf_knots. lia.
  Qed.
End Knots.
