From Coq Require Import Sorting.Sorted Sorting.Permutation.
From Verif Require Import PyBase PromotionsModel PromotionsProofs EinsumModel EinsumSpec EinsumProofs ShapeModel ShapeSpec.
Set Implicit Arguments.
Open Scope list_scope.

Lemma Forall2_length {A B} (R : A -> B -> Prop) l l' : Forall2 R l l' -> length l = length l'.
Proof. induction 1; simpl; congruence. Qed.

Lemma shape_eqb_refl sh : shape_eqb sh sh = true.
Proof. apply shape_eqb_spec; reflexivity. Qed.

Lemma norm_index_spec n z k : norm_index n z = Some k <-> axis_at n z k.
Proof.
  unfold norm_index, axis_at.
  destruct (Z.leb_spec (Z.of_nat n) z); [split; [discriminate|lia]|].
  destruct (Z.leb_spec 0 z).
  - split; [intros [= <-]; lia|]. intros [H1 H2]. f_equal. lia.
  - destruct (Z.leb_spec (- Z.of_nat n) z).
    + split; [intros [= <-]; lia|]. intros [H2 H3]. f_equal. lia.
    + split; [discriminate|lia].
Qed.

Lemma norm_indices_spec n axes ks : norm_indices n axes = Ok ks <-> denotes n axes ks.
Proof.
  revert ks. induction axes as [|z r IH]; intros ks; simpl.
  - split; [intros [= <-]; constructor|inversion 1; reflexivity].
  - split.
    + destruct (norm_index n z) as [k|] eqn:E; [|discriminate].
      destruct (norm_indices n r) as [ks'|] eqn:E'; [|discriminate]. intros [= <-].
      constructor; [apply norm_index_spec, E|apply IH; reflexivity].
    + inversion 1; subst. apply norm_index_spec in H2. rewrite H2.
      apply IH in H4. rewrite H4. reflexivity.
Qed.

Lemma norm_indices_Err n axes e : norm_indices n axes = Err e ->
  e = IndexError /\ exists z, In z axes /\ forall k, ~ axis_at n z k.
Proof.
  induction axes as [|z r IH]; simpl; [discriminate|].
  destruct (norm_index n z) as [k|] eqn:E.
  - destruct (norm_indices n r) as [|e'] eqn:E'; simpl; [discriminate|]. intros [= <-].
    destruct (IH eq_refl) as (-> & z' & Hz & H). split; [reflexivity|]. exists z'; auto.
  - intros [= <-]. split; [reflexivity|]. exists z. split; [auto|].
    intros k Hk. apply norm_index_spec in Hk. congruence.
Qed.

Lemma nmember_spec k l : nmember k l = true <-> In k l.
Proof.
  unfold nmember. rewrite existsb_exists. split.
  - intros (x & Hx & E). apply Nat.eqb_eq in E. subst. exact Hx.
  - intros H. exists k. split; [exact H|apply Nat.eqb_refl].
Qed.

(** positions kept by [drop_at] *)
Definition kept_from (i n : nat) (ks : list nat) : list nat :=
  filter (fun k => negb (nmember k ks)) (seq i n).

Lemma drop_at_kept pre sh ks :
  Forall2 (fun k d => nth_error (pre ++ sh) k = Some d) (kept_from (length pre) (length sh) ks) (drop_at (length pre) sh ks).
Proof.
  revert pre. induction sh as [|d sh IH]; intros pre; unfold kept_from; simpl; [constructor|].
  specialize (IH (pre ++ [d])). rewrite app_length in IH. simpl in IH. rewrite Nat.add_1_r in IH.
  rewrite <- app_assoc in IH. simpl in IH.
  destruct (nmember (length pre) ks); simpl; [exact IH|].
  constructor; [|exact IH]. rewrite nth_error_app2 by lia. rewrite Nat.sub_diag. reflexivity.
Qed.

Lemma seq_sorted i n : StronglySorted lt (seq i n).
Proof.
  revert i. induction n as [|n IH]; intros i; simpl; constructor; [apply IH|].
  apply Forall_forall. intros x Hx. apply in_seq in Hx. lia.
Qed.
Lemma filter_sorted (f : nat -> bool) l : StronglySorted lt l -> StronglySorted lt (filter f l).
Proof.
  induction 1 as [|x l H IH Hx]; simpl; [constructor|].
  destruct (f x); [|exact IH]. constructor; [exact IH|].
  apply Forall_forall. intros y Hy. apply filter_In in Hy. rewrite Forall_forall in Hx. apply Hx, Hy.
Qed.

Lemma drop_at_remaining sh ks : remaining ks sh (drop_at 0 sh ks).
Proof.
  exists (kept_from 0 (length sh) ks). split; [|split].
  - apply filter_sorted, seq_sorted.
  - intros k. unfold kept_from. rewrite filter_In, in_seq, negb_true_iff.
    destruct (nmember k ks) eqn:E.
    + apply nmember_spec in E. intuition (discriminate || lia).
    + assert (~ In k ks) by (rewrite <- nmember_spec; congruence). intuition lia.
  - exact (drop_at_kept [] sh ks).
Qed.

Lemma sorted_unique (l l' : list nat) : StronglySorted lt l -> StronglySorted lt l' ->
  (forall k, In k l <-> In k l') -> l = l'.
Proof.
  intros H. revert l'. induction H as [|x l H IH Hx]; intros l' H' E.
  - destruct l' as [|y l']; [reflexivity|]. exfalso. apply (E y). left; reflexivity.
  - destruct H' as [|y l' H' Hy].
    + exfalso. apply (E x). left; reflexivity.
    + rewrite Forall_forall in Hx, Hy. assert (x = y).
      { destruct (E x) as [E1 _]. destruct (E y) as [_ E2].
        destruct (E1 (or_introl eq_refl)) as [->|A]; [reflexivity|].
        destruct (E2 (or_introl eq_refl)) as [->|B]; [reflexivity|].
        specialize (Hx _ B). specialize (Hy _ A). lia. }
      subst y. f_equal. apply IH; [exact H'|]. intros k. split; intros Hk.
      * destruct (E k) as [E1 _]. destruct (E1 (or_intror Hk)) as [->|A]; [|exact A].
        specialize (Hx _ Hk). lia.
      * destruct (E k) as [_ E1]. destruct (E1 (or_intror Hk)) as [->|A]; [|exact A].
        specialize (Hy _ Hk). lia.
Qed.

Lemma remaining_unique ks sh s1 s2 : remaining ks sh s1 -> remaining ks sh s2 -> s1 = s2.
Proof.
  intros (k1 & S1 & E1 & F1) (k2 & S2 & E2 & F2).
  assert (k1 = k2) by (apply sorted_unique; [exact S1|exact S2|]; intros k; rewrite E1, E2; reflexivity).
  subst k2. clear - F1 F2. revert s2 F2. induction F1; intros s2 F2; inversion F2; subst; [reflexivity|].
  f_equal; [congruence|]. apply IHF1. assumption.
Qed.

Lemma remaining_length ks sh sh' : NoDup ks -> (forall k, In k ks -> k < length sh) ->
  remaining ks sh sh' -> length sh' + length ks = length sh.
Proof.
  intros ND HB (kept & S & E & F).
  rewrite <- (Forall2_length F). rewrite <- (seq_length (length sh) 0) at 1. rewrite <- app_length.
  apply Permutation_length. apply NoDup_Permutation.
  - apply NoDup_app_iff. split; [|split].
    + clear - S. induction S as [|x l H IH Hx]; constructor; [|exact IH].
      intros Hin. rewrite Forall_forall in Hx. specialize (Hx _ Hin). lia.
    + exact ND.
    + intros x Hx. apply E in Hx. tauto.
  - apply seq_NoDup.
  - intros x. rewrite in_app_iff, in_seq, E. split; [intros [H|H]; [lia|apply HB in H; lia]|].
    intros H. destruct (in_dec Nat.eq_dec x ks); [right; assumption|left; split; [lia|assumption]].
Qed.

Lemma remaining_nil ks sh : (forall k, k < length sh -> In k ks) <-> remaining ks sh [].
Proof.
  split.
  - intros H. exists []. split; [constructor|]. split; [|constructor].
    intros k. simpl. split; [tauto|]. intros [A B]. apply B, H, A.
  - intros (kept & _ & E & F) k Hk. inversion F; subst.
    destruct (in_dec Nat.eq_dec k ks); [assumption|]. exfalso. apply (E k). auto.
Qed.

Lemma np_delete_ok sh axes ks : denotes (length sh) axes ks ->
  np_delete sh axes = Ok (drop_at 0 sh ks).
Proof. intros H. apply norm_indices_spec in H. unfold np_delete. rewrite H. reflexivity. Qed.

Lemma np_delete_Ok sh axes r : np_delete sh axes = Ok r ->
  exists ks, denotes (length sh) axes ks /\ remaining ks sh r.
Proof.
  unfold np_delete. destruct (norm_indices (length sh) axes) as [ks|] eqn:E; [|discriminate].
  intros [= <-]. exists ks. split; [apply norm_indices_spec, E|apply drop_at_remaining].
Qed.

Lemma denotes_bound n axes ks : denotes n axes ks -> forall k, In k ks -> k < n.
Proof. induction 1 as [|z k axes ks [H _] _ IH]; simpl; [tauto|]. intros k' [<-|Hk]; auto. Qed.

Lemma denotes_length n axes ks : denotes n axes ks -> length axes = length ks.
Proof. apply Forall2_length. Qed.

Lemma denotes_le n axes ks z : denotes n axes ks -> In z axes -> (z < Z.of_nat n)%Z.
Proof. induction 1 as [|z' k axes ks [H H'] _ IH]; simpl; [tauto|]. intros [<-|Hz]; [lia|auto]. Qed.

(** NoDup positions of a rank-n array: all of them iff there are n *)
Lemma all_axes n ks : NoDup ks -> (forall k, In k ks -> k < n) ->
  (length ks = n <-> forall k, k < n -> In k ks).
Proof.
  intros ND HB. split.
  - intros HL k Hk. assert (incl (seq 0 n) ks).
    { apply NoDup_length_incl; [exact ND|rewrite seq_length; lia|].
      intros x Hx. apply in_seq. apply HB in Hx. lia. }
    apply H, in_seq. lia.
  - intros H. apply Nat.le_antisymm.
    + rewrite <- (seq_length n 0). apply NoDup_incl_length; [exact ND|].
      intros x Hx. apply in_seq. apply HB in Hx. lia.
    + rewrite <- (seq_length n 0). apply NoDup_incl_length; [apply seq_NoDup|].
      intros x Hx. apply in_seq in Hx. apply H. lia.
Qed.

Lemma missing_axis n ks : NoDup ks -> length ks < n -> exists k, k < n /\ ~ In k ks.
Proof.
  intros ND HL. destruct (forallb (fun k => nmember k ks) (seq 0 n)) eqn:E.
  - exfalso. rewrite forallb_forall in E.
    assert (n <= length ks); [|lia]. rewrite <- (seq_length n 0).
    apply NoDup_incl_length; [apply seq_NoDup|]. intros x Hx. apply nmember_spec, E, Hx.
  - assert (~ forall k, In k (seq 0 n) -> nmember k ks = true) as H.
    { rewrite <- forallb_forall. congruence. }
    clear E. induction n as [|n IH]; [exfalso; apply H; simpl; tauto|].
    destruct (nmember n ks) eqn:En.
    + destruct (Nat.eq_dec (length ks) n) as [El|El].
      * (* all of n+1 ... pigeonhole *)
        destruct (forallb (fun k => nmember k ks) (seq 0 n)) eqn:E.
        -- exfalso. apply H. intros k Hk. apply in_seq in Hk.
           destruct (Nat.eq_dec k n) as [->|]; [exact En|].
           rewrite forallb_forall in E. apply E, in_seq. lia.
        -- assert (exists k, In k (seq 0 n) /\ nmember k ks = false) as (k & Hk & Ek).
           { clear - E. induction (seq 0 n) as [|x l IHl]; simpl in E; [discriminate|].
             destruct (nmember x ks) eqn:Ex; [|exists x; split; [left; reflexivity|exact Ex]].
             destruct (IHl E) as (k & Hk & Ek). exists k. split; [right; exact Hk|exact Ek]. }
           exists k. apply in_seq in Hk. split; [lia|]. rewrite <- nmember_spec. congruence.
      * destruct IH as (k & Hk & Hn); [lia| |exists k; split; [lia|exact Hn]].
        intros H'. apply H. intros k Hk. apply in_seq in Hk.
        destruct (Nat.eq_dec k n) as [->|]; [exact En|]. apply H', in_seq. lia.
    + exists n. split; [lia|]. rewrite <- nmember_spec. congruence.
Qed.

Lemma check_same m sh l : sh <> [] -> Forall (fun o => o = Some sh) l ->
  check_operands m (Some sh) l = Ok tt.
Proof.
  intros Hne. induction 1 as [|o l -> _ IH]; simpl; [reflexivity|].
  rewrite shape_eqb_refl. simpl. replace (Nat.eqb (length sh) 0) with false.
  - rewrite andb_false_r. exact IH.
  - destruct sh; [congruence|reflexivity].
Qed.

Lemma check_false_same sh l : Forall (fun o => o = Some sh) l ->
  check_operands false (Some sh) l = Ok tt.
Proof. induction 1 as [|o l -> _ IH]; simpl; [reflexivity|]. rewrite shape_eqb_refl. exact IH. Qed.

Lemma check_ok m sh l : check_operands m (Some sh) l = Ok tt -> Forall (fun o => o = Some sh) l.
Proof.
  induction l as [|[s|] l IH]; simpl; [constructor| |discriminate].
  destruct (shape_eqb s sh) eqn:E; simpl; [|discriminate].
  apply shape_eqb_spec in E. subst s. destruct (m && _); [discriminate|].
  intros H. constructor; auto.
Qed.

(** ** Strings *)
Lemma split_arrow_plain t cur : plain t -> forall rest,
  split_arrow (t ++ arrow ++ rest) cur = (cur ++ t) :: split_arrow rest [].
Proof.
  revert cur. induction t as [|c t IH]; intros cur Hp rest.
  - simpl. rewrite app_nil_r. reflexivity.
  - assert (Hc : ceqb c "-" = false).
    { destruct (Hp c (or_introl eq_refl)) as [_ H]. apply Ascii.eqb_neq. exact H. }
    assert (Ht : plain t) by (intros x Hx; apply Hp; right; exact Hx).
    specialize (IH (cur ++ [c]) Ht rest). rewrite <- app_assoc in IH. simpl in IH.
    simpl. destruct t as [|d t]; simpl in *; rewrite Hc; simpl; exact IH.
Qed.
Lemma split_plain t cur : plain t -> split_arrow t cur = [cur ++ t].
Proof.
  revert cur. induction t as [|c t IH]; intros cur Hp; [simpl; rewrite app_nil_r; reflexivity|].
  assert (Hc : ceqb c "-" = false).
  { destruct (Hp c (or_introl eq_refl)) as [_ H]. apply Ascii.eqb_neq. exact H. }
  assert (Ht : plain t) by (intros x Hx; apply Hp; right; exact Hx).
  specialize (IH (cur ++ [c]) Ht). rewrite <- app_assoc in IH. simpl in IH.
  simpl. destruct t as [|d t]; [exact IH|]. rewrite Hc. simpl andb. cbv iota. exact IH.
Qed.
Lemma split_two a b : plain a -> plain b -> split (a ++ arrow ++ b) = [a; b].
Proof. intros Ha Hb. unfold split. rewrite split_arrow_plain by exact Ha. rewrite split_plain by exact Hb. reflexivity. Qed.

Lemma no_spaces_plain t : (forall c, In c t -> c <> " "%char) -> no_spaces t = t.
Proof.
  induction t as [|c t IH]; intros H; simpl; [reflexivity|].
  replace (ceqb c " ") with false.
  - simpl. f_equal. apply IH. intros x Hx. apply H. right; exact Hx.
  - symmetry. apply Ascii.eqb_neq. apply H. left; reflexivity.
Qed.

Lemma index_of_nodup (inp : chars) k c : NoDup inp -> nth_error inp k = Some c -> index_of c inp = Some k.
Proof.
  revert k. induction inp as [|x inp IH]; intros k ND H; [destruct k; discriminate|].
  simpl. inversion ND; subst. destruct k as [|k]; simpl in H.
  - injection H as ->. unfold ceqb. rewrite Ascii.eqb_refl. reflexivity.
  - unfold ceqb. destruct (Ascii.eqb_spec c x) as [->|Hne].
    + exfalso. apply H2. eapply nth_error_In; exact H.
    + rewrite (IH k); [reflexivity|assumption|exact H].
Qed.
Lemma index_of_Some (c : ascii) inp k : index_of c inp = Some k -> nth_error inp k = Some c.
Proof.
  revert k. induction inp as [|x inp IH]; intros k; simpl; [discriminate|].
  unfold ceqb. destruct (Ascii.eqb_spec c x) as [->|Hne]; [intros [= <-]; reflexivity|].
  destruct (index_of c inp) as [j|] eqn:E; simpl; [|discriminate]. intros [= <-]. simpl. apply IH. reflexivity.
Qed.

Lemma locations_spec inp out ks : locations inp out = Ok ks <-> Forall2 (fun c k => index_of c inp = Some k) out ks.
Proof.
  revert ks. induction out as [|c out IH]; intros ks; simpl.
  - split; [intros [= <-]; constructor|inversion 1; reflexivity].
  - split.
    + destruct (index_of c inp) as [k|] eqn:E; [|discriminate].
      destruct (locations inp out) as [ks'|] eqn:E'; [|discriminate]. intros [= <-].
      constructor; [exact E|apply IH; reflexivity].
    + inversion 1; subst. rewrite H2. apply IH in H4. rewrite H4. reflexivity.
Qed.

Lemma gather_spec sh ks sh' : gather sh ks = Ok sh' <-> Forall2 (fun k d => nth_error sh k = Some d) ks sh'.
Proof.
  revert sh'. induction ks as [|k ks IH]; intros sh'; simpl.
  - split; [intros [= <-]; constructor|inversion 1; reflexivity].
  - split.
    + destruct (nth_error sh k) as [d|] eqn:E; [|discriminate].
      destruct (gather sh ks) as [ds|] eqn:E'; [|discriminate]. intros [= <-].
      constructor; [exact E|apply IH; reflexivity].
    + inversion 1; subst. rewrite H2. apply IH in H4. rewrite H4. reflexivity.
Qed.

Lemma Forall2_nth {A B} (R : A -> B -> Prop) l m : Forall2 R l m ->
  forall i a, nth_error l i = Some a -> exists b, nth_error m i = Some b /\ R a b.
Proof.
  induction 1 as [|x y l m H _ IH]; intros i a Hi; [destruct i; discriminate|].
  destruct i as [|i]; simpl in *; [injection Hi as <-; eauto|]. apply IH, Hi.
Qed.

Lemma prod_perm a b : Permutation a b -> prod a = prod b.
Proof. induction 1; simpl; nia. Qed.

Lemma expand_positions_spec inp out i k :
  In k (expand_positions i inp out) <-> exists j c, k = i + j /\ nth_error out j = Some c /\ ~ In c inp.
Proof.
  revert i. induction out as [|c out IH]; intros i; simpl.
  - split; [tauto|]. intros (j & c & _ & H & _). destruct j; discriminate.
  - assert (Hh : has_char c inp = true <-> In c inp).
    { unfold has_char. rewrite existsb_exists. split.
      - intros (x & Hx & E). apply Ascii.eqb_eq in E. subst. exact Hx.
      - intros H. exists c. split; [exact H|apply Ascii.eqb_refl]. }
    destruct (has_char c inp) eqn:E.
    + rewrite IH. split.
      * intros (j & d & -> & H1 & H2). exists (S j), d. repeat split; [lia|exact H1|exact H2].
      * intros (j & d & -> & H1 & H2). destruct j as [|j]; simpl in H1.
        -- injection H1 as ->. exfalso. apply H2, Hh. reflexivity.
        -- exists j, d. repeat split; [lia|exact H1|exact H2].
    + simpl. rewrite IH. split.
      * intros [<-|(j & d & -> & H1 & H2)].
        -- exists 0, c. repeat split; [lia|]. intros H. apply Hh in H. congruence.
        -- exists (S j), d. repeat split; [lia|exact H1|exact H2].
      * intros (j & d & -> & H1 & H2). destruct j as [|j]; simpl in H1; [left; lia|].
        right. exists j, d. repeat split; [lia|exact H1|exact H2].
Qed.
