(** C40, C41, C64: shapes of the results of array operations. *)
From Coq Require Import Sorting.Sorted Sorting.Permutation.
From Verif Require Import PyBase PromotionsModel PromotionsProofs EinsumModel EinsumSpec EinsumProofs ShapeModel ShapeSpec ShapeProofs.
Set Implicit Arguments.
Open Scope list_scope.

(** ** C40 *)

(** *** Reductions *)

(** sum of variables of shape [sh] over a nonempty tuple of different axes: the shape is
    that of the remaining axes, (1,) when none remains. *)
Theorem C40_sum : forall n sh axes ks,
  sh <> [] -> axes <> [] -> denotes (length sh) axes ks -> NoDup ks ->
  exists sh', sum_shape (repeat (Some sh) (S n)) (AxTuple axes) = Ok sh' /\ reduced ks sh sh'.
Proof.
  intros n sh axes ks Hne Hna Hd ND. unfold sum_shape. simpl first_operand.
  rewrite check_same; [|exact Hne|apply Forall_forall; intros o Ho; eapply repeat_spec; exact Ho].
  cbn [bind]. pose proof (denotes_length Hd) as HL. pose proof (denotes_bound Hd) as HB.
  assert (HS : length ks <= length sh).
  { rewrite <- (seq_length (length sh) 0). apply NoDup_incl_length; [exact ND|].
    intros x Hx. apply in_seq. apply HB in Hx. lia. }
  replace (Nat.ltb (length sh) (length axes)) with false by (symmetry; apply Nat.ltb_ge; lia).
  unfold raise_if at 1.
  replace (existsb _ axes) with false.
  2:{ symmetry. apply not_true_is_false. intros E. apply existsb_exists in E.
      destruct E as (z & Hz & E). apply Z.ltb_lt in E. pose proof (denotes_le z Hd Hz). lia. }
  unfold raise_if.
  assert (G : exists sh', (if Nat.ltb (length axes) (length sh) then np_delete sh axes else Ok [1]) = Ok sh' /\ reduced ks sh sh').
  { destruct (Nat.ltb_spec (length axes) (length sh)).
    - exists (drop_at 0 sh ks). split; [apply np_delete_ok, Hd|]. right.
      split; [|apply drop_at_remaining]. apply missing_axis; [exact ND|lia].
    - exists [1]. split; [reflexivity|]. left. split; [reflexivity|].
      apply (all_axes ND); [exact HB|lia]. }
  match goal with |- context [if ?b then if _ then _ else _ else _] => destruct b end; [|exact G].
  destruct (Nat.eqb_spec (length sh) 1) as [E1|E1]; [|exact G].
  exists [1]. split; [reflexivity|]. left. split; [reflexivity|].
  apply (all_axes ND); [exact HB|]. destruct axes; [congruence|]. simpl in HL. lia.
Qed.

Lemma pnorm_order p : (0 < p)%Z -> Z.even p = true -> false = negb (Z.eqb (p mod 2) 0) || (p <=? 0)%Z.
Proof.
  intros Hp He. replace (Z.eqb (p mod 2) 0) with true.
  - replace (p <=? 0)%Z with false by (symmetry; apply Z.leb_gt; exact Hp). reflexivity.
  - symmetry. apply Z.eqb_eq. apply Z.even_spec in He. destruct He as [q ->].
    rewrite Z.mul_comm. apply Z.mod_mul. lia.
Qed.

(** sum, max, min, average and pnorm without axis: one variable is reduced to one number, several are
    combined entry by entry. *)
Theorem C40_no_axis : forall n sh, sh <> [] ->
  sum_shape [Some sh] NoAxes = Ok [1] /\
  sum_shape (repeat (Some sh) (S (S n))) NoAxes = Ok sh /\
  extremum_shape [Some sh] None = Ok [1] /\
  extremum_shape (repeat (Some sh) (S (S n))) None = Ok sh /\
  average_shape [Some sh] NoAxes = Ok [1] /\
  average_shape (repeat (Some sh) (S (S n))) NoAxes = Ok sh /\
  (forall p, (0 < p)%Z -> Z.even p = true -> pnorm_shape (Some sh) p NoAxes = Ok [1]).
Proof.
  intros n sh Hne.
  assert (F : forall m, Forall (fun o => o = Some sh) (repeat (Some sh) m)).
  { intros m. apply Forall_forall. intros o Ho. eapply repeat_spec; exact Ho. }
  assert (C : forall m b, check_operands b (first_operand (repeat (Some sh) (S m))) (repeat (Some sh) (S m)) = Ok tt).
  { intros m b. apply check_same; [exact Hne|apply (F (S m))]. }
  unfold sum_shape, extremum_shape, average_shape.
  split; [exact (f_equal (fun x => bind x (fun _ => _)) (C 0 true))|].
  split; [rewrite (C (S n) true); reflexivity|].
  split; [exact (f_equal (fun x => bind x (fun _ => _)) (C 0 false))|].
  split; [rewrite (C (S n) false); reflexivity|].
  split; [reflexivity|]. split.
  - unfold raise_if. match goal with |- (if ?b then _ else _) = _ => replace b with false; [reflexivity|] end.
    simpl. clear. induction n; [reflexivity|exact IHn].
  - intros p Hp He. unfold pnorm_shape. rewrite <- (pnorm_order Hp He). reflexivity.
Qed.

(** Variables of different shapes are rejected by sum, max and min. *)
Theorem C40_shapes_must_agree : forall sh l axes axis,
  sh <> [] -> Forall (fun o => o <> None) l -> Exists (fun o => o <> Some sh) l ->
  sum_shape (Some sh :: l) axes = Err ValueError /\
  extremum_shape (Some sh :: l) axis = Err ValueError.
Proof.
  intros sh l axes axis Hne HV HE.
  assert (C : forall m, check_operands m (Some sh) (Some sh :: l) = Err ValueError).
  { intros m. simpl. rewrite shape_eqb_refl. simpl. replace (Nat.eqb (length sh) 0) with false by (destruct sh; [congruence|reflexivity]).
    rewrite andb_false_r. induction HE as [o l H|o l H IH]; inversion HV; subst; destruct o as [s|]; try congruence; simpl.
    - destruct (shape_eqb s sh) eqn:E; [apply shape_eqb_spec in E; congruence|reflexivity].
    - destruct (shape_eqb s sh); simpl; [|reflexivity].
      replace (Nat.eqb (length sh) 0) with false by (destruct sh; [congruence|reflexivity]).
      rewrite andb_false_r. auto. }
  unfold sum_shape, extremum_shape. cbn [first_operand]. rewrite !C. split; reflexivity.
Qed.

(** max and min over one axis of variables of shape [sh]. *)
Theorem C40_extremum : forall n sh a k,
  axis_at (length sh) a k ->
  exists sh', extremum_shape (repeat (Some sh) (S n)) (Some a) = Ok sh' /\ reduced [k] sh sh'.
Proof.
  intros n sh a k Hk. unfold extremum_shape. cbn [first_operand repeat].
  rewrite check_false_same by (apply Forall_forall; intros o Ho; eapply (@repeat_spec _ (S n)); exact Ho).
  cbn [bind]. replace (Z.of_nat (length sh) <? a)%Z with false by (symmetry; apply Z.ltb_ge; unfold axis_at in Hk; lia).
  unfold raise_if. destruct (Nat.ltb_spec 1 (length sh)).
  - exists (drop_at 0 sh [k]). split; [apply np_delete_ok; constructor; [exact Hk|constructor]|].
    right. split; [|apply drop_at_remaining]. apply missing_axis; [repeat constructor; simpl; tauto|simpl; lia].
  - exists [1]. split; [reflexivity|]. left. split; [reflexivity|]. intros j Hj. left. unfold axis_at in Hk. lia.
Qed.

(** average and pnorm over a tuple of axes: the remaining axes, but the shape is () and
    not (1,) when none remains; unlike sum, max and min. *)
Theorem C40_average_pnorm_partial : forall l sh axes ks p,
  denotes (length sh) axes ks -> Forall (fun o => o <> None) l -> (0 < p)%Z -> Z.even p = true ->
  exists sh', average_shape (Some sh :: l) (AxTuple axes) = Ok sh' /\
              pnorm_shape (Some sh) p (AxTuple axes) = Ok sh' /\ remaining ks sh sh'.
Proof.
  intros l sh axes ks p Hd HV Hp He. exists (drop_at 0 sh ks).
  assert (E : existsb not_var (Some sh :: l) = false).
  { simpl. induction HV as [|[s|] l H _ IH]; [reflexivity|exact IH|congruence]. }
  unfold average_shape, pnorm_shape. rewrite E. unfold raise_if. cbn [axes_list first_operand].
  rewrite (np_delete_ok sh Hd).
  replace (Z.eqb (p mod 2) 0) with true.
  - replace (p <=? 0)%Z with false by (symmetry; apply Z.leb_gt; exact Hp).
    repeat split. apply drop_at_remaining.
  - symmetry. apply Z.eqb_eq. apply Z.even_spec in He. destruct He as [q ->].
    rewrite Z.mul_comm. apply Z.mod_mul. lia.
Qed.

(** pnorm: the order must be positive and even, and an int is an axis. *)
Theorem C40_pnorm : forall sh p axis,
  ((p <= 0)%Z \/ Z.odd p = true -> pnorm_shape (Some sh) p axis = Err ValueError) /\
  ((0 < p)%Z -> Z.even p = true -> forall a,
     (forall k, axis_at (length sh) a k ->
        exists sh', pnorm_shape (Some sh) p (AxInt a) = Ok sh' /\ remaining [k] sh sh') /\
     ((forall k, ~ axis_at (length sh) a k) -> pnorm_shape (Some sh) p (AxInt a) = Err IndexError)).
Proof.
  intros sh p axis. split.
  - intros H. unfold pnorm_shape, raise_if. replace (_ || _) with true; [reflexivity|]. symmetry.
    destruct H as [H|H]; [apply orb_true_iff; right; apply Z.leb_le; exact H|].
    apply orb_true_iff. left. apply negb_true_iff, Z.eqb_neq. rewrite Zmod_odd, H. discriminate.
  - intros Hp He a. unfold pnorm_shape. rewrite <- (pnorm_order Hp He). unfold raise_if at 1 3. split.
    + intros k Hk. replace (Z.of_nat (length sh) <? a)%Z with false by (symmetry; apply Z.ltb_ge; unfold axis_at in Hk; lia).
      exists (drop_at 0 sh [k]). split; [|apply drop_at_remaining].
      unfold raise_if. apply np_delete_ok. constructor; [exact Hk|constructor].
    + intros H. unfold raise_if. destruct (_ <? _)%Z; [reflexivity|]. destruct (np_delete sh [a]) as [r|e] eqn:E.
      * apply np_delete_Ok in E. destruct E as (ks & Hd & _). inversion Hd as [|? k ? ? Hk]; subst. destruct (H k Hk).
      * unfold np_delete in E. simpl in E. destruct (norm_index _ a); simpl in E; congruence.
Qed.

(** Anything but variables is rejected, and so is a call of sum, max or min without arguments;
    average() returns a variable of shape (1,). *)
Theorem C40_not_a_variable : forall l axes axis p,
  In None l \/ l = [] ->
  (exists e, sum_shape l axes = Err e) /\ (exists e, extremum_shape l axis = Err e) /\
  (In None l -> exists e, average_shape l axes = Err e) /\ average_shape [] NoAxes = Ok [1] /\
  pnorm_shape None p axes = Err TypeError.
Proof.
  intros l axes axis p [H| ->].
  - assert (C : forall m f, exists e, check_operands m f l = Err e).
    { intros m f. induction l as [|[s|] l IH]; [destruct H| |simpl; eauto].
      destruct H as [H|H]; [discriminate|]. simpl. destruct f as [s0|]; [|eauto].
      destruct (negb (shape_eqb s s0)); [eauto|]. destruct (m && _); [eauto|]. apply IH, H. }
    unfold sum_shape, extremum_shape.
    destruct (C true (first_operand l)) as (e & ->). destruct (C false (first_operand l)) as (e' & ->).
    split; [eexists; reflexivity|]. split; [eexists; reflexivity|]. split; [|split; reflexivity].
    intros _. unfold average_shape. replace (existsb not_var l) with true; [eexists; reflexivity|].
    symmetry. apply existsb_exists. exists None. auto.
  - split; [destruct axes; eexists; reflexivity|]. split; [destruct axis; eexists; reflexivity|].
    split; [intros []|split; reflexivity].
Qed.

(** An empty tuple of axes sums no axis of a matrix, but all of a single vector. *)
Theorem C40_sum_empty_axes_refuted : forall m n k d,
  sum_shape [Some [m; n]] (AxTuple []) = Ok [m; n] /\
  sum_shape [Some [d]] (AxTuple []) = Ok [1] /\
  sum_shape (repeat (Some [d]) (S (S k))) (AxTuple []) = Ok [d].
Proof.
  intros m n k d. unfold sum_shape. split; [|split].
  - simpl first_operand. rewrite check_same; [reflexivity|discriminate|repeat constructor].
  - simpl first_operand. rewrite check_same; [reflexivity|discriminate|repeat constructor].
  - simpl first_operand. rewrite check_same; [reflexivity|discriminate|].
    apply Forall_forall; intros o Ho; eapply repeat_spec; exact Ho.
Qed.

(** Every axis of the variable is reduced: sum returns a variable of shape (1,), average
    and pnorm one of shape (). *)
Theorem C40_all_axes_refuted : exists sh axes,
  sum_shape [Some sh] (AxTuple axes) = Ok [1] /\
  average_shape [Some sh] (AxTuple axes) = Ok [] /\
  pnorm_shape (Some sh) 2 (AxTuple axes) = Ok [] /\ ~ reduced [0] sh [].
Proof.
  exists [5], [0%Z]. repeat split. intros [[H _]|[(k & Hk & Hn) _]]; [discriminate|].
  simpl in Hk. apply Hn. left. lia.
Qed.

(** average does not compare the shapes of its arguments. *)
Theorem C40_average_shapes_refuted : exists sh sh', sh <> sh' /\
  average_shape [Some sh; Some sh'] NoAxes = Ok sh.
Proof. exists [2], [3; 4]. split; [discriminate|reflexivity]. Qed.

(** An axis given twice counts twice: summing a matrix over its first axis, written
    twice, gives a variable of shape (1,). *)
Theorem C40_sum_repeated_axis_refuted : exists sh axes ks sh',
  denotes (length sh) axes ks /\ sum_shape [Some sh] (AxTuple axes) = Ok sh' /\ ~ reduced ks sh sh'.
Proof.
  exists [2; 3], [0; 0]%Z, [0; 0], [1]. split; [|split; [reflexivity|]].
  - repeat constructor; simpl; lia.
  - intros [[_ H]|[_ (kept & _ & E & F)]].
    + specialize (H 1). simpl in H. intuition lia.
    + inversion F as [|k d ks ds H1 H2]; subst. inversion H2; subst.
      assert (k = 1) by (specialize (E 1); simpl in E; intuition lia). subst k. discriminate.
Qed.

(** An axis that does not exist is accepted when it equals the rank of a vector. *)
Theorem C40_sum_axis_out_of_range_refuted : exists sh a,
  (forall k, ~ axis_at (length sh) a k) /\
  sum_shape [Some sh] (AxTuple [a]) = Ok [1] /\ extremum_shape [Some sh] (Some a) = Ok [1].
Proof.
  exists [4], 1%Z. split; [|split; reflexivity]. intros k [H1 H2]. simpl in *. lia.
Qed.

(** Too many axes, and axes beyond the rank, are rejected; with two or more axes there is no
    exception to that. *)
Theorem C40_bad_axes : forall n sh axes a, sh <> [] ->
  let l := repeat (Some sh) (S n) in
  (length sh < length axes -> sum_shape l (AxTuple axes) = Err ValueError) /\
  (Exists (fun z => Z.of_nat (length sh) < z)%Z axes -> sum_shape l (AxTuple axes) = Err ValueError) /\
  ((Z.of_nat (length sh) < a)%Z -> extremum_shape l (Some a) = Err ValueError) /\
  (1 < length sh -> (forall k, ~ axis_at (length sh) a k) ->
     (exists e, sum_shape l (AxTuple [a]) = Err e) /\ exists e, extremum_shape l (Some a) = Err e).
Proof.
  intros n sh axes a Hne l.
  assert (F : Forall (fun o => o = Some sh) l).
  { apply Forall_forall. intros o Ho. eapply repeat_spec; exact Ho. }
  assert (C : forall b, check_operands b (first_operand l) l = Ok tt) by (intros b; apply (@check_same b); assumption).
  assert (L : first_operand l = Some sh) by reflexivity.
  unfold sum_shape, extremum_shape. rewrite !C, L. cbn [bind]. cbv zeta. split; [|split; [|split]].
  - intros H. apply Nat.ltb_lt in H. rewrite H. reflexivity.
  - intros H. unfold raise_if. destruct (Nat.ltb _ _); [reflexivity|].
    replace (existsb _ axes) with true; [reflexivity|]. symmetry. apply existsb_exists.
    apply Exists_exists in H. destruct H as (z & Hz & Hl). exists z. split; [exact Hz|apply Z.ltb_lt, Hl].
  - intros H. apply Z.ltb_lt in H. rewrite H. reflexivity.
  - intros Hr Ha.
    assert (E : exists e, np_delete sh [a] = Err e).
    { destruct (np_delete sh [a]) as [r|e] eqn:E; [|eauto]. apply np_delete_Ok in E.
      destruct E as (ks & Hd & _). inversion Hd as [|? k ? ? Hk]; subst. destruct (Ha k Hk). }
    destruct E as (e & E). split.
    + unfold raise_if. destruct (Nat.ltb (length sh) _); [eauto|]. destruct (existsb _ _); [eauto|].
      replace (Nat.eqb (length sh) 1) with false by (symmetry; apply Nat.eqb_neq; lia).
      replace (Nat.ltb (length [a]) (length sh)) with true by (symmetry; apply Nat.ltb_lt; exact Hr).
      rewrite E. destruct (Nat.eqb _ 1); eauto.
    + unfold raise_if. destruct (_ <? _)%Z; [eauto|].
      replace (Nat.ltb 1 (length sh)) with true by (symmetry; apply Nat.ltb_lt; exact Hr). eauto.
Qed.

(** Axes given as an int or a list are ignored by sum. *)
Theorem C40_sum_axes_not_a_tuple_refuted : forall sh a, sh <> [] ->
  sum_shape [Some sh] (AxInt a) = Ok [1] /\ sum_shape [Some sh] (AxList [a]) = Ok [1].
Proof.
  intros sh a Hne. unfold sum_shape. cbn [first_operand].
  rewrite check_same by (auto; repeat constructor). split; reflexivity.
Qed.

(** *** Rearrangements *)

(** transpose reverses the axes, keeps the number of entries and is its own inverse. *)
Theorem C40_transpose : forall sh, exists sh',
  transpose_shape (Some sh) = Ok sh' /\ transpose_shape (Some sh') = Ok sh /\
  length sh' = length sh /\ prod sh' = prod sh /\
  (forall k, k < length sh -> nth_error sh' k = nth_error sh (length sh - S k)).
Proof.
  intros sh. exists (rev sh). split; [reflexivity|]. split; [simpl; rewrite rev_involutive; reflexivity|].
  split; [apply rev_length|]. split; [apply prod_perm, Permutation_sym, Permutation_rev|].
  intros k Hk. rewrite !(nth_error_nth' _ 0) by (rewrite ?rev_length; lia).
  rewrite rev_nth by exact Hk. reflexivity.
Qed.

(** reshape accepts a tuple of natural numbers exactly when the number of entries is the
    same, and gives the result that shape. *)
Theorem C40_reshape : forall sh new,
  let arg := map (fun d => Some (Z.of_nat d)) new in
  (prod new = prod sh -> reshape_shape (Some sh) arg = Ok (map Z.of_nat new)) /\
  (prod new <> prod sh -> reshape_shape (Some sh) arg = Err ValueError).
Proof.
  intros sh new. cbv zeta. unfold reshape_shape.
  assert (E : ints (map (fun d => Some (Z.of_nat d)) new) = Ok (map Z.of_nat new)).
  { induction new as [|d new IH]; simpl; [reflexivity|]. rewrite IH. reflexivity. }
  assert (P : zprod (map Z.of_nat new) = Z.of_nat (prod new)).
  { clear E. induction new as [|d new IH]; simpl; [reflexivity|].
    change (zprod (Z.of_nat d :: map Z.of_nat new)) with (Z.of_nat d * zprod (map Z.of_nat new))%Z. rewrite IH. lia. }
  rewrite E. cbn [bind]. rewrite P. split; intros H; unfold raise_if.
  - replace (Z.eqb _ _) with true by (symmetry; apply Z.eqb_eq; lia). reflexivity.
  - replace (Z.eqb _ _) with false by (symmetry; apply Z.eqb_neq; lia). reflexivity.
Qed.

(** reshape accepts negative lengths, which no array has. *)
Theorem C40_reshape_negative_refuted : exists sh new,
  reshape_shape (Some sh) (map Some new) = Ok new /\ Exists (fun d => (d < 0)%Z) new.
Proof. exists [6], [-2; -3]%Z. split; [reflexivity|]. constructor. lia. Qed.

(** flatten gives a vector with as many entries, provided that the attribute [size] of the
    variable is the number of its entries; otherwise it raises. *)
Theorem C40_flatten : forall sh size,
  (size = prod sh -> flatten_shape (Some sh) size = Ok [Z.of_nat (prod sh)]) /\
  (size <> prod sh -> flatten_shape (Some sh) size = Err ValueError).
Proof.
  intros sh size. pose proof (C40_reshape sh [size]) as [H1 H2]. cbn [map] in *.
  unfold flatten_shape. simpl prod in *. rewrite Nat.mul_1_r in *. split; intros H.
  - subst size. apply H1. reflexivity.
  - apply H2, H.
Qed.

(** reorder_axes 'inp->out' for different index letters, one per axis, permuted by
    [out]: the axes are moved as the letters say. *)
Theorem C40_reorder_axes : forall sh inp out,
  NoDup inp -> length inp = length sh -> Permutation inp out -> plain inp ->
  exists ks sh', reorder_axes_shape (Some sh) (inp ++ arrow ++ out) = Ok (ks, sh') /\
    relabelled inp out sh sh' /\ Permutation sh sh' /\ prod sh' = prod sh /\
    Forall2 (fun c k => nth_error inp k = Some c) out ks.
Proof.
  intros sh inp out ND HL HP Hpl.
  assert (Hplo : plain out) by (intros c Hc; apply Hpl; eapply Permutation_in; [apply Permutation_sym; exact HP|exact Hc]).
  unfold reorder_axes_shape. rewrite no_spaces_plain.
  2:{ intros c Hc. apply in_app_iff in Hc. destruct Hc as [Hc|Hc]; [apply Hpl, Hc|].
      destruct Hc as [<-|[<-|Hc]]; [discriminate|discriminate|apply Hplo, Hc]. }
  rewrite split_two by assumption.
  assert (HI : forall c, In c out -> exists k, nth_error inp k = Some c).
  { intros c Hc. apply In_nth_error. eapply Permutation_in; [apply Permutation_sym; exact HP|exact Hc]. }
  assert (exists ks, Forall2 (fun c k => index_of c inp = Some k) out ks) as (ks & Hks).
  { clear - ND HI. induction out as [|c out IH]; [exists []; constructor|].
    destruct IH as (ks & H); [intros d Hd; apply HI; right; exact Hd|].
    destruct (HI c (or_introl eq_refl)) as (k & Hk). exists (k :: ks). constructor; [|exact H].
    apply index_of_nodup; assumption. }
  assert (exists sh', Forall2 (fun k d => nth_error sh k = Some d) ks sh') as (sh' & Hsh).
  { clear - Hks HL. induction Hks as [|c k out ks H _ IH]; [exists []; constructor|].
    destruct IH as (sh' & H'). apply index_of_Some in H.
    assert (k < length sh) by (rewrite <- HL; apply nth_error_Some; congruence).
    destruct (nth_error sh k) as [d|] eqn:E; [|apply nth_error_None in E; lia].
    exists (d :: sh'). constructor; assumption. }
  exists ks, sh'. rewrite (proj2 (locations_spec _ _ _) Hks). cbn [bind].
  rewrite (proj2 (gather_spec _ _ _) Hsh). cbn [bind]. split; [reflexivity|].
  assert (HLo : length sh' = length out).
  { rewrite <- (Forall2_length Hsh), <- (Forall2_length Hks). reflexivity. }
  assert (HPS : Permutation sh sh').
  { (* both are gathered from positions that are permutations of each other *)
    assert (PK : Permutation (seq 0 (length sh)) ks).
    { apply NoDup_Permutation; [apply seq_NoDup| |].
      - assert (NDo : NoDup out) by (eapply Permutation_NoDup; eassumption).
        clear - Hks NDo. induction Hks as [|c k out ks H HF IH]; constructor.
        + intros Hin. inversion NDo as [|? ? N1 N2]; subst. apply N1. clear - H HF Hin.
          induction HF as [|c' k' out ks H' _ IH]; [contradiction|].
          destruct Hin as [->|Hin]; [left; apply index_of_Some in H, H'; congruence|right; auto].
        + apply IH. inversion NDo; assumption.
      - intros k. rewrite in_seq. split.
        + intros [_ Hk]. simpl in Hk. rewrite <- HL in Hk.
          destruct (nth_error inp k) as [c|] eqn:E; [|apply nth_error_None in E; lia].
          assert (Hc : In c out) by (eapply Permutation_in; [exact HP|eapply nth_error_In; exact E]).
          apply In_nth_error in Hc. destruct Hc as (j & Hj).
          destruct (Forall2_nth Hks _ Hj) as (k' & Hk' & E'). rewrite (index_of_nodup k ND E) in E'.
          injection E' as <-. eapply nth_error_In; exact Hk'.
        + intros Hk. apply In_nth_error in Hk. destruct Hk as (j & Hj).
          destruct (Forall2_nth Hsh _ Hj) as (d & _ & E). split; [lia|]. simpl.
          apply nth_error_Some. congruence. }
    assert (E1 : sh = map (fun k => nth k sh 0) (seq 0 (length sh))).
    { clear. induction sh as [|d sh IH]; simpl; [reflexivity|]. f_equal. rewrite <- seq_shift, map_map. exact IH. }
    assert (E2 : sh' = map (fun k => nth k sh 0) ks).
    { clear - Hsh. induction Hsh as [|k d ks ds H _ IH]; simpl; [reflexivity|]. f_equal; [|exact IH].
      symmetry. apply nth_error_nth, H. }
    rewrite E1 at 1. rewrite E2. apply Permutation_map, PK. }
  split; [|split; [exact HPS|split; [apply prod_perm, Permutation_sym, HPS|]]].
  - split; [exact HLo|]. intros j k c Hj Hk.
    destruct (Forall2_nth Hks _ Hj) as (k' & Hk' & E). rewrite (index_of_nodup k ND Hk) in E. injection E as <-.
    destruct (Forall2_nth Hsh _ Hk') as (d & H1 & H2). congruence.
  - clear - Hks. induction Hks; constructor; [apply index_of_Some; assumption|assumption].
Qed.

(** The letters are not checked to be a permutation: axes may be dropped or repeated. *)
Theorem C40_reorder_axes_unchecked_refuted : exists sh op op' sh1 sh2,
  reorder_axes_shape (Some sh) op = Ok sh1 /\ prod (snd sh1) <> prod sh /\
  reorder_axes_shape (Some sh) op' = Ok sh2 /\ prod (snd sh2) <> prod sh.
Proof.
  exists [2; 3], (list_ascii_of_string "ij->i"), (list_ascii_of_string "ij->jj").
  exists ([0], [2]), ([1; 1], [3; 3]). repeat split; try reflexivity; discriminate.
Qed.

(** expand of a variable that is not of shape (1,), for index letters 'inp->out': when it
    is accepted, the result has the requested shape, the expanded axes are those whose
    letter in [out] is not in [inp], and without them the shape is that of the
    variable.  Conversely such a call is accepted when the rank is at most 10. *)
Theorem C40_expand : forall sx sh inp out, sx <> [1] -> plain inp -> plain out ->
  exists ex, (forall k, In k ex <-> exists c, nth_error out k = Some c /\ ~ In c inp) /\
    (forall r, expand_shape (Some sx) sh (Some (inp ++ arrow ++ out)) = Ok r ->
       r = (Some ex, sh) /\ remaining ex sh sx) /\
    (remaining ex sh sx -> length sh <= 10 ->
       expand_shape (Some sx) sh (Some (inp ++ arrow ++ out)) = Ok (Some ex, sh)) /\
    (10 < length sh -> expand_shape (Some sx) sh (Some (inp ++ arrow ++ out)) = Err IndexError).
Proof.
  intros sx sh inp out Hne Hi Ho. exists (expand_positions 0 inp out). split.
  { intros k. rewrite expand_positions_spec. simpl. split.
    - intros (j & c & -> & H). eauto.
    - intros (c & H). exists k, c. auto. }
  unfold expand_shape. rewrite split_two by assumption.
  replace (shape_eqb sx [1]) with false.
  2:{ symmetry. apply not_true_is_false. intros E. apply shape_eqb_spec in E. congruence. }
  unfold decompose_shape. split; [|split].
  - intros r. unfold raise_if at 1. destruct (Nat.ltb 10 (length sh)); simpl; [discriminate|].
    unfold raise_if. destruct (shape_eqb _ sx) eqn:E; simpl; [|discriminate].
    intros [= <-]. split; [reflexivity|]. apply shape_eqb_spec in E. rewrite <- E. apply drop_at_remaining.
  - intros HR HL. unfold raise_if at 1. replace (Nat.ltb 10 (length sh)) with false by (symmetry; apply Nat.ltb_ge; exact HL).
    cbn [bind]. rewrite (remaining_unique (drop_at_remaining _ _) HR). rewrite shape_eqb_refl. reflexivity.
  - intros HL. replace (Nat.ltb 10 (length sh)) with true by (symmetry; apply Nat.ltb_lt; exact HL). reflexivity.
Qed.

(** A variable of shape (1,) is expanded to any shape, with or without indices; without
    indices no other variable is. *)
Theorem C40_expand_scalar : forall sh,
  expand_shape (Some [1]) sh None = Ok (None, sh) /\
  (forall inp out, plain inp -> plain out ->
     exists ex, expand_shape (Some [1]) sh (Some (inp ++ arrow ++ out)) = Ok (Some ex, sh)) /\
  (forall sx, sx <> [1] -> expand_shape (Some sx) sh None = Err ValueError).
Proof.
  intros sh. split; [reflexivity|]. split.
  - intros inp out Hi Ho. unfold expand_shape. rewrite split_two by assumption. eexists. reflexivity.
  - intros sx H. unfold expand_shape. destruct (shape_eqb sx [1]) eqn:E; [|reflexivity].
    apply shape_eqb_spec in E. contradiction.
Qed.

(** The number of letters is not compared with the rank, nor is their order looked at:
    'ij->jik' expands the last axis but does not exchange the first two. *)
Theorem C40_expand_order_refuted : exists sx sh inp out,
  plain inp /\ plain out /\ expand_shape (Some sx) sh (Some (inp ++ arrow ++ out)) = Ok (Some [2], sh) /\
  nth_error inp 0 = nth_error out 1 /\ nth_error sx 0 <> nth_error sh 1.
Proof.
  exists [2; 3], [2; 3; 4], (list_ascii_of_string "ij"), (list_ascii_of_string "jik").
  split; [|split; [|repeat split; discriminate]];
  intros c Hc; simpl in Hc; intuition (subst; discriminate).
Qed.

(** *** Products *)

(** outer concatenates the shapes; inner removes the contracted axes of both. *)
Theorem C40_outer : forall sa sb, exists sh,
  outer_shape (Some sa) (Some sb) = Ok sh /\ prod sh = prod sa * prod sb /\
  (forall k, k < length sa -> nth_error sh k = nth_error sa k) /\
  (forall k, nth_error sh (length sa + k) = nth_error sb k) /\ length sh = length sa + length sb.
Proof.
  intros sa sb. exists (sa ++ sb). split; [reflexivity|]. split; [apply prod_app|].
  split; [intros k Hk; apply nth_error_app1, Hk|]. split; [|apply app_length].
  intros k. rewrite nth_error_app2 by lia. f_equal. lia.
Qed.

Theorem C40_inner : forall sa sb xa xb ka kb,
  (length sa <> 1 \/ length sb <> 1) -> denotes (length sa) xa ka -> denotes (length sb) xb kb ->
  exists ra rb, inner_shape (Some sa) (Some sb) (Some [xa; xb]) = Ok (ra ++ rb) /\
    remaining ka sa ra /\ remaining kb sb rb.
Proof.
  intros sa sb xa xb ka kb HR Ha Hb. exists (drop_at 0 sa ka), (drop_at 0 sb kb).
  split; [|split; apply drop_at_remaining]. unfold inner_shape.
  replace (Nat.eqb (length sa) 1 && Nat.eqb (length sb) 1) with false.
  - rewrite (np_delete_ok sa Ha), (np_delete_ok sb Hb). reflexivity.
  - symmetry. apply not_true_is_false. intros E. apply andb_true_iff in E. destruct E as [E1 E2].
    apply Nat.eqb_eq in E1, E2. tauto.
Qed.

(** The contracted lengths are not compared, neither for vectors nor for tensors. *)
Theorem C40_inner_lengths_refuted : 
  inner_shape (Some [2]) (Some [3]) None = Ok [1] /\
  inner_shape (Some [2; 3]) (Some [4; 5]) (Some [[1]; [0]]%Z) = Ok [2; 5].
Proof. split; reflexivity. Qed.

(** dot and cross: accepted exactly when the shapes agree and the axis has length 3
    (vectors are always accepted by dot). *)
Theorem C40_dot : forall sa sb ax sh,
  dot_shape (Some sa) (Some sb) ax = Ok sh <->
  sa = sb /\ ((length sa = 1 /\ sh = [1]) \/
              (length sa <> 1 /\ exists a k, ax = Some a /\ axis_at (length sa) a k /\
                 nth_error sa k = Some 3 /\ remaining [k] sa sh)).
Proof.
  intros sa sb ax sh. unfold dot_shape.
  destruct (shape_eqb sa sb) eqn:E; cbn [negb raise_if].
  2:{ split; [discriminate|]. intros [-> _]. rewrite shape_eqb_refl in E. discriminate. }
  apply shape_eqb_spec in E. subst sb.
  destruct (Nat.eqb_spec (length sa) 1) as [E1|E1].
  - split; [intros [= <-]; auto|]. intros [_ [[_ ->]|[H _]]]; [reflexivity|congruence].
  - destruct ax as [a|].
    2:{ split; [discriminate|]. intros [_ [[H _]|[_ (a & k & H & _)]]]; [congruence|discriminate]. }
    unfold zget. destruct (norm_index (length sa) a) as [k|] eqn:Ek.
    + apply norm_index_spec in Ek. destruct (nth_error sa k) as [d|] eqn:En.
      * cbn [bind]. assert (Hd : denotes (length sa) [a] [k]) by (constructor; [exact Ek|constructor]).
        rewrite (np_delete_ok sa Hd). unfold raise_if. destruct (Nat.eqb_spec d 3) as [->|Hd3]; simpl.
        -- split.
           ++ intros [= <-]. split; [reflexivity|]. right. split; [exact E1|]. exists a, k.
              split; [reflexivity|]. split; [exact Ek|]. split; [exact En|]. apply drop_at_remaining.
           ++ intros [_ [[H _]|[_ (a' & k' & H1 & H2 & H3 & H4)]]]; [congruence|].
              injection H1 as <-. assert (k' = k).
              { apply norm_index_spec in H2, Ek. congruence. }
              subst k'. f_equal. eapply remaining_unique; [apply drop_at_remaining|exact H4].
        -- split; [discriminate|]. intros [_ [[H _]|[_ (a' & k' & H1 & H2 & H3 & H4)]]]; [congruence|].
           injection H1 as <-. apply norm_index_spec in H2, Ek. rewrite Ek in H2. injection H2 as <-. congruence.
      * apply nth_error_None in En. destruct Ek. lia.
    + simpl. split; [discriminate|]. intros [_ [[H _]|[_ (a' & k' & H1 & H2 & _)]]]; [congruence|].
      injection H1 as <-. apply norm_index_spec in H2. congruence.
Qed.

Theorem C40_cross : forall sa sb a sh,
  cross_shape (Some sa) (Some sb) a = Ok sh <->
  sa = sb /\ sh = sa /\ exists k, axis_at (length sa) a k /\ nth_error sa k = Some 3.
Proof.
  intros sa sb a sh. unfold cross_shape.
  destruct (shape_eqb sa sb) eqn:E; cbn [negb raise_if].
  2:{ split; [discriminate|]. intros [-> _]. rewrite shape_eqb_refl in E. discriminate. }
  apply shape_eqb_spec in E. subst sb. unfold zget.
  destruct (norm_index (length sa) a) as [k|] eqn:Ek.
  - destruct (nth_error sa k) as [d|] eqn:En.
    + cbn [bind]. unfold raise_if. destruct (Nat.eqb_spec d 3) as [->|Hd]; simpl.
      * apply norm_index_spec in Ek. split; [intros [= <-]; eauto 6|]. intros (_ & -> & _). reflexivity.
      * split; [discriminate|]. intros (_ & _ & k' & H1 & H2). apply norm_index_spec in H1.
        rewrite Ek in H1. injection H1 as <-. congruence.
    + apply norm_index_spec in Ek. apply nth_error_None in En. destruct Ek. lia.
  - simpl. split; [discriminate|]. intros (_ & _ & k' & H1 & _). apply norm_index_spec in H1. congruence.
Qed.

(** ** C41 *)

(** matmat only checks that both arguments are matrices; the result has the rows of the
    first and the columns of the second. *)
Theorem C41_matmat_partial : forall sa sb sh,
  matmat_shape (Some sa) (Some sb) = Ok sh <-> exists m k k' n, sa = [m; k] /\ sb = [k'; n] /\ sh = [m; n].
Proof.
  intros sa sb sh. split.
  - intros H. destruct sa as [|m [|k [|]]]; try discriminate; destruct sb as [|k' [|n [|]]]; try discriminate.
    injection H as <-. exists m, k, k', n. auto.
  - intros (m & k & k' & n & -> & -> & ->). reflexivity.
Qed.

(** Matrices whose inner dimensions differ are not rejected. *)
Theorem C41_matmat_mismatch_refuted : forall m k k' n,
  matmat_shape (Some [m; k]) (Some [k'; n]) = Ok [m; n].
Proof. reflexivity. Qed.

(** matvec: for a matrix, accepted exactly when the vector has as many entries as the
    matrix has columns. *)
Theorem C41_matvec : forall m k sv sh,
  matvec_shape (Some [m; k]) (Some sv) = Ok sh <-> sv = [k] /\ sh = [m].
Proof.
  intros m k sv sh. unfold matvec_shape, zget. simpl.
  destruct sv as [|n sv]; simpl; [split; [discriminate|intros [H _]; discriminate]|].
  replace (norm_index (S (length sv)) 0) with (Some 0).
  2:{ symmetry. apply norm_index_spec. split; lia. }
  simpl. unfold raise_if. destruct sv as [|n' sv]; simpl.
  - destruct (Nat.eqb_spec k n) as [->|H]; simpl.
    + split; [intros [= <-]; auto|intros [_ ->]; reflexivity].
    + split; [discriminate|]. intros [[= ->] _]. congruence.
  - rewrite andb_false_r. split; [discriminate|]. intros [H _]. discriminate.
Qed.

(** A tensor of higher rank is accepted in place of the matrix. *)
Theorem C41_matvec_rank_refuted : forall m k l, matvec_shape (Some [m; k; l]) (Some [k]) = Ok [m].
Proof. intros. unfold matvec_shape, zget. simpl. rewrite Nat.eqb_refl. reflexivity. Qed.

(** ** C64 *)

(** solve accepts exactly a square matrix and a right-hand side with as many rows and one
    column, and returns the shape of the right-hand side. *)
Theorem C64_solve : forall sa sb sh,
  solve_shape (Some sa) (Some sb) = Ok sh <->
  exists n, sa = [n; n] /\ (sb = [n] \/ sb = [n; 1]) /\ sh = sb.
Proof.
  intros sa sb sh. split.
  - unfold solve_shape. destruct sa as [|n [|m [|]]]; try discriminate.
    unfold raise_if at 1. destruct (Nat.eqb_spec n m) as [->|]; [|discriminate]. simpl.
    destruct sb as [|r sb]; [discriminate|]. unfold zget at 1.
    replace (norm_index (length (r :: sb)) 0) with (Some 0) by (symmetry; apply norm_index_spec; split; simpl; lia).
    simpl. unfold raise_if. destruct (Nat.eqb_spec r m) as [->|]; [|discriminate]. simpl.
    destruct sb as [|c [|]]; try discriminate.
    + intros [= <-]. exists m. auto.
    + destruct (Nat.eqb_spec c 1) as [->|]; [|discriminate]. intros [= <-]. exists m. auto.
  - intros (n & -> & [-> | ->] & ->); unfold solve_shape, zget; simpl; rewrite !Nat.eqb_refl; simpl; rewrite ?Nat.eqb_refl; reflexivity.
Qed.

Theorem C64_eigenvalues : forall sa sh,
  eigenvalues_shape (Some sa) = Ok sh <-> exists n, sa = [n; n] /\ sh = [n].
Proof.
  intros sa sh. split.
  - intros H. destruct sa as [|n [|m [|]]]; try discriminate. simpl in H. unfold raise_if in H.
    destruct (Nat.eqb_spec n m) as [->|]; [|discriminate]. injection H as <-. eauto.
  - intros (n & -> & ->). simpl. rewrite Nat.eqb_refl. reflexivity.
Qed.

(** sparsematmat, for a variable that is a matrix *)
Theorem C64_sparsematmat : forall p q r c sh,
  sparsematmat_shape (Some [r; c]) (Some (p, q)) = Ok sh <-> r = q /\ sh = [p; c].
Proof.
  intros. unfold sparsematmat_shape, zget. simpl. unfold raise_if.
  destruct (Nat.eqb_spec r q) as [->|]; simpl; split; try discriminate; try (intros [= <-]; auto; fail).
  - intros [_ ->]. reflexivity.
  - intros [H _]. congruence.
Qed.

(** rotmat gives a 3x3 matrix per angle *)
Theorem C64_rotmat : forall sh, 
  rotmat_shape (Some sh) = Ok (if list_eq_dec Nat.eq_dec sh [1] then [3; 3] else sh ++ [3; 3]).
Proof.
  intros sh. unfold rotmat_shape. destruct (list_eq_dec Nat.eq_dec sh [1]) as [->|H]; [reflexivity|].
  destruct (shape_eqb sh [1]) eqn:E; [apply shape_eqb_spec in E; congruence|reflexivity].
Qed.

(** quatrotvec compares all dimensions but the last and returns the shape of the
    vectors; the last dimensions need not be 4 and 3. *)
Theorem C64_quatrotvec_partial : forall q d v e sh,
  quatrotvec_shape (Some (q ++ [d])) (Some (v ++ [e])) = Ok sh <-> q = v /\ sh = v ++ [e].
Proof.
  intros. unfold quatrotvec_shape. rewrite !removelast_last. unfold raise_if.
  destruct (shape_eqb q v) eqn:E; simpl.
  - apply shape_eqb_spec in E. subst. split; [intros [= <-]; auto|intros [_ ->]; reflexivity].
  - split; [discriminate|]. intros [-> _]. rewrite shape_eqb_refl in E. discriminate.
Qed.
Theorem C64_quatrotvec_lengths_refuted : quatrotvec_shape (Some [10; 7]) (Some [10; 2]) = Ok [10; 2].
Proof. reflexivity. Qed.

(** *** Non-vacuity *)
Example sum_tensor : denotes 3 [2; -3]%Z [2; 0] /\ NoDup [2; 0] /\
  sum_shape [Some [4; 5; 6]; Some [4; 5; 6]] (AxTuple [2; -3]%Z) = Ok [5] /\
  sum_shape [Some [4; 5; 6]] (AxTuple [2; 1; 0]%Z) = Ok [1] /\
  extremum_shape [Some [4; 5; 6]] (Some (-2)%Z) = Ok [4; 6].
Proof.
  split; [repeat constructor; simpl; lia|]. split; [repeat constructor; simpl; intuition lia|]. repeat split.
Qed.
Example reorder : reorder_axes_shape (Some [2; 3; 4]) (list_ascii_of_string "ijk->kij") = Ok ([2; 0; 1], [4; 2; 3]).
Proof. reflexivity. Qed.
Example expand_vector :
  expand_shape (Some [2; 3]) [2; 5; 3] (Some (list_ascii_of_string "ij->iaj")) = Ok (Some [1], [2; 5; 3]) /\
  expand_shape (Some [2; 3]) [3; 5; 3] (Some (list_ascii_of_string "ij->iaj")) = Err ValueError.
Proof. split; reflexivity. Qed.
Example products :
  inner_shape (Some [2; 3]) (Some [3; 5]) (Some [[1]; [0]]%Z) = Ok [2; 5] /\
  dot_shape (Some [2; 3]) (Some [2; 3]) (Some (-1)%Z) = Ok [2] /\
  cross_shape (Some [2; 3]) (Some [2; 3]) 1 = Ok [2; 3] /\
  matvec_shape (Some [4; 5]) (Some [5]) = Ok [4] /\ matvec_shape (Some [4; 5]) (Some [4]) = Err ValueError /\
  solve_shape (Some [4; 4]) (Some [4; 1]) = Ok [4; 1].
Proof. repeat split. Qed.
Example mismatch : Exists (fun o => o <> Some [2]) [Some [2]; Some [3]] /\
  sum_shape [Some [2]; Some [2]; Some [3]] NoAxes = Err ValueError.
Proof. split; [right; left; discriminate|reflexivity]. Qed.

Print Assumptions C40_sum.
Print Assumptions C40_no_axis.
Print Assumptions C40_shapes_must_agree.
Print Assumptions C40_extremum.
Print Assumptions C40_average_pnorm_partial.
Print Assumptions C40_all_axes_refuted.
Print Assumptions C40_pnorm.
Print Assumptions C40_bad_axes.
Print Assumptions C40_not_a_variable.
Print Assumptions C40_sum_empty_axes_refuted.
Print Assumptions C40_average_shapes_refuted.
Print Assumptions C40_sum_repeated_axis_refuted.
Print Assumptions C40_sum_axis_out_of_range_refuted.
Print Assumptions C40_sum_axes_not_a_tuple_refuted.
Print Assumptions C40_transpose.
Print Assumptions C40_reshape.
Print Assumptions C40_reshape_negative_refuted.
Print Assumptions C40_flatten.
Print Assumptions C40_reorder_axes.
Print Assumptions C40_reorder_axes_unchecked_refuted.
Print Assumptions C40_expand.
Print Assumptions C40_expand_scalar.
Print Assumptions C40_expand_order_refuted.
Print Assumptions C40_outer.
Print Assumptions C40_inner.
Print Assumptions C40_inner_lengths_refuted.
Print Assumptions C40_dot.
Print Assumptions C40_cross.
Print Assumptions C41_matmat_partial.
Print Assumptions C41_matmat_mismatch_refuted.
Print Assumptions C41_matvec.
Print Assumptions C41_matvec_rank_refuted.
Print Assumptions C64_solve.
Print Assumptions C64_eigenvalues.
Print Assumptions C64_sparsematmat.
Print Assumptions C64_rotmat.
Print Assumptions C64_quatrotvec_partial.
Print Assumptions C64_quatrotvec_lengths_refuted.
