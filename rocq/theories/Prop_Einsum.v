(** C38, C39: einsum. *)
From Verif Require Import PyBase PromotionsModel EinsumModel EinsumSpec EinsumProofs.
Set Implicit Arguments.
Open Scope list_scope.

Lemma incl_or_not (a b : list axis) : incl a b \/ ~ incl a b.
Proof.
  destruct (forallb (fun x => existsb (Nat.eqb x) b) a) eqn:E.
  - left. intros x Hx. rewrite forallb_forall in E. apply existsb_eqb, E, Hx.
  - right. intros H. assert (E' : forallb (fun x => existsb (Nat.eqb x) b) a = true); [|congruence].
    apply forallb_forall. intros x Hx. apply existsb_eqb, H, Hx.
Qed.

(** *** C38 *)

(** For explicit subscripts with one letter per axis, whose output letters all occur in
    an operand, einsum accepts the operands and gives the result the lengths of the
    output indices, or (1,) for a scalar.  When the operands agree on the lengths of
    the indices, this is the only right shape. *)
Theorem C38_result_shape : forall terms out shapes,
  terms <> [] -> Forall letters terms -> letters out -> fits terms shapes ->
  (forall c, In c out -> In c (concat terms)) ->
  exists sh, einsum_shape (explicit terms out) shapes = Ok sh /\
    right_shape terms shapes out sh /\
    (consistent terms shapes -> forall sh', right_shape terms shapes out sh' -> sh' = sh).
Proof.
  intros terms out shapes HN HL HO HF HC. unfold einsum_shape. rewrite parse_explicit by assumption.
  simpl. destruct (@compute_shape_ok terms out shapes HF HC) as (sh & E & Hs).
  exists sh. split; [exact E|]. split; [exact Hs|]. intros Hc sh' Hs'.
  inversion Hs as [|? ? H1 H2]; subst; inversion Hs' as [|? ? H3 H4]; subst; try congruence.
  eapply labels_unique; eassumption.
Qed.

(** Output letters that occur in no operand are not rejected: the result has the shape
    that it would have without them. *)
Theorem C38_unknown_output_letters_ignored : forall terms out shapes,
  terms <> [] -> Forall letters terms -> letters out -> fits terms shapes -> out <> [] ->
  exists kept sh, einsum_shape (explicit terms out) shapes = Ok sh /\
    (forall c, In c kept <-> In c out /\ In c (concat terms)) /\
    Forall2 (labels terms shapes) kept sh.
Proof.
  intros terms out shapes HN HL HO HF Hne. unfold einsum_shape. rewrite parse_explicit by assumption.
  simpl. unfold compute_einsum_shape. rewrite rev_app_distr. simpl.
  destruct out as [|c0 out0] eqn:Eo; [congruence|]. rewrite <- Eo in *. rewrite rev_involutive.
  rewrite out_dims_skips by exact HF.
  set (kept := filter _ out).
  assert (Hk : forall c, In c kept <-> In c out /\ In c (concat terms)).
  { intros c. unfold kept. rewrite filter_In. destruct (in_dec ascii_dec c (concat terms)); intuition discriminate. }
  destruct (@out_dims_ok terms shapes HF kept) as (sh & E & Hs); [intros c Hc; apply Hk; exact Hc|].
  exists kept, sh. auto.
Qed.

Definition s (x : string) : chars := list_ascii_of_string x.

(** Subscripts without an arrow are accepted, but their last operand is taken for the
    output: the shape differs from that of numpy's implicit mode, in which the output
    indices are those that occur once ('ik' here). *)
Theorem C38_implicit_output_refuted : exists sh sh',
  einsum_shape (s "ij,jk") [[2; 3]; [3; 4]] = Ok sh /\
  right_shape [s "ij"; s "jk"] [[2; 3]; [3; 4]] (s "ik") sh' /\ sh <> sh'.
Proof.
  exists [3], [2; 4]. split; [reflexivity|]. split; [|discriminate].
  constructor; [discriminate|]. constructor; [|constructor; [|constructor]].
  - exists 0, (s "ij"), [2; 3], 0. repeat split.
  - exists 1, (s "jk"), [3; 4], 1. repeat split.
Qed.

(** Operands that disagree on the length of an index are not rejected. *)
Theorem C38_inconsistent_operands_refuted : exists sh,
  ~ consistent [s "ij"; s "jk"] [[2; 3]; [4; 5]] /\
  einsum_shape (s "ij,jk->ik") [[2; 3]; [4; 5]] = Ok sh.
Proof.
  exists [2; 5]. split; [|reflexivity]. intros H.
  assert (3 = 4); [|discriminate]. apply (H "j"%char).
  - exists 0, (s "ij"), [2; 3], 1. repeat split.
  - exists 1, (s "jk"), [4; 5], 0. repeat split.
Qed.

(** *** C39 *)

(** Index tuples [ins] for the operands and [out] for the result.  They are accepted
    exactly when there are at most 26 different indices and the result only uses
    indices of the operands (IndexError, KeyError otherwise).  The generated subscripts
    then name the indices by letters, different for different indices, and the string
    API reads the generated string as the same list of terms. *)
Theorem C39_index_objects : forall ins out,
  let r := new_subscripts (ins ++ [out]) false in
  (26 < num_axes ins -> r = Err IndexError) /\
  (num_axes ins <= 26 -> ~ incl out (concat ins) -> r = Err KeyError) /\
  (num_axes ins <= 26 -> incl out (concat ins) ->
     exists f, injective_on (concat ins) f /\
       r = Ok (map (map f) ins ++ [map f out], explicit (map (map f) ins) (map f out)) /\
       (ins <> [] -> einsum_subscripts_tolist (explicit (map (map f) ins) (map f out))
                     = Ok (map (map f) ins ++ [map f out]))).
Proof.
  intros ins out. cbv zeta. unfold new_subscripts. rewrite rev_app_distr. simpl rev. cbn [app].
  rewrite rev_involutive.
  destruct (terms_chars_spec ins minv0) as [T1 T2]. cbv zeta in T1, T2. cbn [map] in T1, T2.
  rewrite num_axes_fold in T1, T2.
  assert (HK : forall x, In x (fold_left nadd (concat ins) []) <-> In x (concat ins)).
  { intros x. rewrite In_nadd_fold. simpl. tauto. }
  split; [intros H; rewrite (T2 H); reflexivity|].
  split; intros H HO; destruct (T1 H) as (m & ext & E & (u & Hm) & _ & Ek); rewrite E; cbn [bind];
    destruct (out_chars_spec out m) as [O1 O2].
  - rewrite O2; [reflexivity|]. rewrite Ek. intros Hi. apply HO. intros x Hx. apply HK, Hi, Hx.
  - rewrite O1 by (rewrite Ek; intros x Hx; apply HK, HO, Hx). cbn [bind].
    exists (naming m). split.
    + intros a b Ha Hb Eab. apply (minv_injective Hm); [rewrite Ek; apply HK; exact Ha|rewrite Ek; apply HK; exact Hb|exact Eab].
    + split; [reflexivity|]. intros Hne. apply parse_explicit.
      * apply Forall_forall. intros t Ht. apply in_map_iff in Ht. destruct Ht as (x & <- & _).
        eapply minv_letters; exact Hm.
      * eapply minv_letters; exact Hm.
      * destruct ins; [congruence|discriminate].
Qed.

(** The same for a scalar result, where every tuple belongs to an operand. *)
Theorem C39_index_objects_scalar : forall ins,
  let r := new_subscripts ins true in
  (26 < num_axes ins -> r = Err IndexError) /\
  (num_axes ins <= 26 ->
     exists f, injective_on (concat ins) f /\
       r = Ok (map (map f) ins ++ [[]], explicit (map (map f) ins) []) /\
       (ins <> [] -> einsum_subscripts_tolist (explicit (map (map f) ins) [])
                     = Ok (map (map f) ins ++ [[]]))).
Proof.
  intros ins. cbv zeta. unfold new_subscripts.
  destruct (terms_chars_spec ins minv0) as [T1 T2]. cbv zeta in T1, T2. cbn [map] in T1, T2.
  rewrite num_axes_fold in T1, T2.
  split; [intros H; rewrite (T2 H); reflexivity|].
  intros H. destruct (T1 H) as (m & ext & E & (u & Hm) & _ & Ek). rewrite E. cbn [bind].
  exists (naming m). split.
  - intros a b Ha Hb Eab. apply (minv_injective Hm); [| |exact Eab]; rewrite Ek; apply In_nadd_fold; auto.
  - split; [unfold explicit; rewrite app_nil_r; reflexivity|]. intros Hne. apply parse_explicit.
    + apply Forall_forall. intros t Ht. apply in_map_iff in Ht. destruct Ht as (x & <- & _).
      eapply minv_letters; exact Hm.
    + intros ? [].
    + destruct ins; [congruence|discriminate].
Qed.

(** The two APIs give the same subscripts and the same shape: the shape that the tuple
    API computes is the one that the string API computes from the generated string. *)
Theorem C39_same_shape : forall operation shapes str sh,
  length operation = length shapes \/ length operation = S (length shapes) ->
  shapes <> [] ->
  einsum_new_api operation shapes = Ok (str, sh) ->
  einsum_shape str shapes = Ok sh.
Proof.
  intros operation shapes str sh HL Hne H. unfold einsum_new_api in H.
  destruct (Nat.eqb_spec (length shapes) (length operation)) as [E|E].
  - destruct (C39_index_objects_scalar operation) as [S1 S2]. cbv zeta in S1, S2.
    destruct (Nat.le_gt_cases (num_axes operation) 26) as [Hn|Hn]; [|rewrite (S1 Hn) in H; discriminate].
    destruct (S2 Hn) as (f & _ & Er & Ep). rewrite Er in H. cbn [bind] in H.
    destruct (compute_einsum_shape _ shapes) as [sh'|] eqn:Ec; [|discriminate].
    injection H as <- <-. unfold einsum_shape. rewrite Ep; [exact Ec|].
    intros ->. destruct shapes; [congruence|discriminate].
  - destruct HL as [HL|HL]; [congruence|].
    destruct (exists_last (l := operation)) as (ins & out & ->); [intros ->; discriminate|].
    rewrite app_length in HL. simpl in HL.
    destruct (C39_index_objects ins out) as (S1 & S2 & S3). cbv zeta in S1, S2, S3.
    destruct (Nat.le_gt_cases (num_axes ins) 26) as [Hn|Hn]; [|rewrite (S1 Hn) in H; discriminate].
    destruct (incl_or_not out (concat ins)) as [Hi|Hi]; [|rewrite (S2 Hn Hi) in H; discriminate].
    destruct (S3 Hn Hi) as (f & _ & Er & Ep). rewrite Er in H. cbn [bind] in H.
    destruct (compute_einsum_shape _ shapes) as [sh'|] eqn:Ec; [|discriminate].
    injection H as <- <-. unfold einsum_shape. rewrite Ep; [exact Ec|].
    intros ->. destruct shapes; [congruence|simpl in HL; lia].
Qed.

(** *** Non-vacuity *)
Example matrix_product :
  Forall letters [s "ij"; s "jk"] /\ letters (s "ik") /\
  explicit [s "ij"; s "jk"] (s "ik") = s "ij,jk->ik" /\
  fits [s "ij"; s "jk"] [[2; 3]; [3; 4]] /\ consistent [s "ij"; s "jk"] [[2; 3]; [3; 4]] /\
  einsum_shape (s "ij,jk->ik") [[2; 3]; [3; 4]] = Ok [2; 4] /\
  einsum_new_api [[10; 20]; [20; 30]; [10; 30]] [[2; 3]; [3; 4]] = Ok (s "ab,bc->ac", [2; 4]) /\
  einsum_new_api [[10; 20]; [20; 10]] [[2; 3]; [3; 2]] = Ok (s "ab,ba->", [1]).
Proof.
  split; [constructor; [|constructor; [|constructor]]; intros x Hx; cbn in *; tauto|]. split; [intros x Hx; cbn in *; tauto|].
  split; [reflexivity|]. split; [repeat constructor|]. split; [|repeat split].
  intros c d d' (i & t & sh & k & H1 & H2 & H3 & H4) (i' & t' & sh' & k' & H1' & H2' & H3' & H4').
  destruct i as [|[|[|i]]]; simpl in H1, H2; try discriminate; injection H1 as <-; injection H2 as <-;
  destruct i' as [|[|[|i']]]; simpl in H1', H2'; try discriminate; injection H1' as <-; injection H2' as <-;
  destruct k as [|[|[|k]]]; simpl in H3, H4; try discriminate; injection H3 as <-; injection H4 as <-;
  destruct k' as [|[|[|k']]]; simpl in H3', H4'; try discriminate; injection H4' as <-; reflexivity.
Qed.
Example unknown_letter : einsum_shape (s "ij->iz") [[2; 3]] = Ok [2].
Proof. reflexivity. Qed.
Example too_many_axes : num_axes [seq 0 27] = 27 /\ new_subscripts [seq 0 27; []] false = Err IndexError.
Proof. split; reflexivity. Qed.

Print Assumptions C38_result_shape.
Print Assumptions C38_unknown_output_letters_ignored.
Print Assumptions C38_implicit_output_refuted.
Print Assumptions C38_inconsistent_operands_refuted.
Print Assumptions C39_index_objects.
Print Assumptions C39_index_objects_scalar.
Print Assumptions C39_same_shape.
