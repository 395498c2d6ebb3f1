(** C65: csdl.diff. *)
From Verif Require Import PyBase PromotionsModel PromotionsProofs IndexModel IndexSpec IndexProofs ShapeModel ShapeSpec ShapeProofs DiffModel.
Set Implicit Arguments.
Open Scope list_scope.

Lemma slices_with_plain n k s : Forall (fun e => e <> KX) (slices_with n k s).
Proof.
  revert k. induction n as [|n IH]; intros k; simpl; [constructor|].
  destruct k; constructor; try discriminate; auto.
  apply Forall_forall. intros e He. apply repeat_spec in He. subst. discriminate.
Qed.

Lemma slices_with_nth n k s : k < n -> nth_error (slices_with n k s) k = Some (KS s).
Proof.
  revert k. induction n as [|n IH]; intros k Hk; [lia|]. destruct k; simpl; [reflexivity|]. apply IH. lia.
Qed.

Lemma all_selects_nth sh es ls k e n : all_selects sh es ls -> nth_error es k = Some e -> nth_error sh k = Some n ->
  exists l, nth_error ls k = Some l /\ selects n e l.
Proof.
  revert es ls k. induction sh as [|m sh IH]; intros es ls k H He Hn; [destruct k; discriminate|].
  destruct es as [|e0 es]; [destruct k; discriminate|]. destruct ls as [|l0 ls]; [contradiction|].
  destruct H as [H1 H2]. destruct k as [|k]; simpl in *.
  - injection He as <-. injection Hn as <-. eauto.
  - eapply IH; eassumption.
Qed.

Lemma slice_lengths l : (0 < l)%nat ->
  length (py_slice (Z.of_nat l) (Slice (Some 1%Z) None None)) = l - 1 /\
  length (py_slice (Z.of_nat l) (Slice None (Some (Z.of_nat l)) None)) = l.
Proof.
  intros H. unfold py_slice. cbn [s_step s_start s_stop odef].
  change (1 <? 0)%Z with false. cbv iota.
  replace (Z.of_nat l <? 0)%Z with false by (symmetry; apply Z.ltb_ge; lia). cbv iota.
  unfold zrange. rewrite !map_length, !seq_length. unfold range_len. change (0 <? 1)%Z with true. cbv iota.
  rewrite !Z.div_1_r. lia.
Qed.

(** diff never succeeds: for every array without empty axes, whatever was read of it
    before, and every axis, it raises and leaves [delta] as it was.  ([array[:l]] with
    [l] the full length has one entry more than [array[1:]].) *)
Theorem C65_diff_refuted : forall dsh c sh hist axis nm, Forall (fun n => 0 < n) sh ->
  exists e, diff dsh c sh (reads sh hist) axis nm = (c, Err e).
Proof.
  intros dsh c sh hist axis nm Hpos. unfold diff.
  destruct (norm_index (length sh) axis) as [k|] eqn:Ek; [|eauto].
  apply norm_index_spec in Ek. destruct Ek as [Hk _]. cbv zeta.
  assert (El : nth_error sh k = Some (nth k sh 0)) by (apply nth_error_nth', Hk).
  set (l := nth k sh 0) in *.
  assert (Hl : 0 < l) by (rewrite Forall_forall in Hpos; eapply Hpos, nth_error_In, El).
  set (key1 := KeyTuple (slices_with _ _ (Slice (Some 1%Z) None None))).
  set (key2 := KeyTuple (slices_with _ _ (Slice None (Some (Z.of_nat l)) None))).
  destruct (getitem sh (reads sh hist) key1) as [d1 [o1|e1]] eqn:E1; [|eauto].
  destruct (getitem sh d1 key2) as [d2 [o2|e2]] eqn:E2; [|eauto].
  assert (D0 : dinv sh (reads sh hist)) by apply dinv_reads.
  assert (D1 : dinv sh d1).
  { replace d1 with (fst (getitem sh (reads sh hist) key1)) by (rewrite E1; reflexivity). apply dinv_step, D0. }
  destruct (@getitem_sound sh (reads sh hist) key1 o1 D0) as (ls1 & s1 & ix1 & S1 & N1 & L1 & _);
    [apply slices_with_plain|rewrite E1; reflexivity|].
  destruct (@getitem_sound sh d1 key2 o2 D1) as (ls2 & s2 & ix2 & S2 & N2 & L2 & _);
    [apply slices_with_plain|rewrite E2; reflexivity|].
  rewrite E1 in N1. cbn [fst] in N1. rewrite E2 in N2. cbn [fst] in N2.
  assert (N1' : nth_error (d_outs d2) o1 = Some (s1, ix1)).
  { replace d2 with (fst (getitem sh d1 key2)) by (rewrite E2; reflexivity). apply getitem_grows, N1. }
  rewrite N1', N2. cbn [components key1 key2] in S1, S2.
  destruct (@all_selects_nth _ _ _ k _ _ S1 (slices_with_nth _ Hk) El) as (l1 & A1 & B1).
  destruct (@all_selects_nth _ _ _ k _ _ S2 (slices_with_nth _ Hk) El) as (l2 & A2 & B2).
  cbn [selects] in B1, B2. destruct (slice_lengths Hl) as [SL1 SL2].
  destruct (shape_eqb s1 s2) eqn:Es; [|eauto]. exfalso.
  apply shape_eqb_spec in Es. subst s1 s2.
  apply (f_equal (fun x => nth_error x k)) in Es.
  rewrite !nth_error_map, A1, A2 in Es. cbn [option_map] in Es. injection Es as Es. rewrite B1, B2, SL1, SL2 in Es. lia.
Qed.

(** The documented use: both reads succeed, the subtraction raises. *)
Example documented_use :
  let sh := [3; 4] in
  snd (getitem sh (reads sh []) (KeyTuple (slices_with 2 1 (Slice (Some 1%Z) None None)))) = Ok 0 /\
  snd (getitem sh (reads sh []) (KeyTuple (slices_with 2 1 (Slice None (Some 4%Z) None)))) = Ok 0 /\
  diff sh concat0 sh (reads sh []) 1 "_0" = (concat0, Err ValueError).
Proof. vm_compute. repeat split. Qed.

Print Assumptions C65_diff_refuted.
