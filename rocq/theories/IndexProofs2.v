From Verif Require Import PyBase PromotionsModel PromotionsProofs IndexModel IndexSpec IndexProofs IndexSpec2.
Local Open Scope Z_scope.
Set Implicit Arguments.

Lemma Forall2_len {A B} (R : A -> B -> Prop) l1 l2 : Forall2 R l1 l2 -> length l1 = length l2.
Proof. induction 1; cbn; congruence. Qed.

Lemma ordinary_ok n s : 0 <= n -> ordinary n s -> exists l, slice_to_list n s = Ok l /\ Forall (fun i => i < n) l.
Proof.
  intros Hn (H1 & H2 & H3 & H4). apply slice_accepted; auto;
    destruct (s_start s), (s_stop s); try tauto; try lia.
Qed.

Lemma single_ok n a : 0 <= a < n -> slice_to_list n (Slice (Some a) (Some (a + 1)) None) = Ok [a].
Proof.
  intros H. unfold slice_to_list. cbn [s_start s_stop s_step odef]. destruct (Z.ltb_spec (a + 1) 0); [lia|].
  cbn [bind]. unfold zrange, range_len.
  replace (a + 1 - a + 1 - 1) with 1 by lia. change (Z.to_nat (1 / 1)) with 1%nat. cbn.
  replace (a + 0) with a by lia. destruct (Z.ltb_spec a 0); [lia|]. reflexivity.
Qed.

Definition axis_fits (n : nat) (s : pyslice) : Prop :=
  exists l, slice_to_list (Z.of_nat n) s = Ok l /\ Forall (fun i => i < Z.of_nat n) l.

Lemma skipn_S {A} (l : list A) i x r : skipn i l = x :: r -> nth_error l i = Some x /\ skipn (S i) l = r.
Proof.
  revert i. induction l as [|y l IH]; intros [|i]; cbn; intros H; try discriminate.
  - injection H as -> ->. auto.
  - apply IH in H. exact H.
Qed.

Lemma slices_of_ok sh i ss : Forall2 axis_fits (skipn i sh) ss ->
  exists ls, slices_of sh i ss = Ok ls /\ Forall2 (fun n l => Forall (fun i => 0 <= i < Z.of_nat n) l) (skipn i sh) ls /\
    Forall2 (fun '(n, s) l => slice_to_list (Z.of_nat n) s = Ok l) (combine (skipn i sh) ss) ls.
Proof.
  remember (skipn i sh) as t eqn:Et. intros H. revert i Et. induction H as [|n s t ss (l & Hl & Hb) H IH]; intros i Et; cbn [slices_of].
  - exists []. split; [reflexivity|]. split; constructor.
  - symmetry in Et. apply skipn_S in Et. destruct Et as [E1 E2]. rewrite E1, Hl. cbn [bind].
    destruct (IH (S i) (eq_sym E2)) as (ls & -> & HF & HC). exists (l :: ls). split; [reflexivity|]. split; constructor; auto.
    apply slice_to_list_inv in Hl. destruct Hl as (? & _ & _ & _ & _ & Hge). clear -Hb Hge.
    induction l; constructor; inversion Hb; inversion Hge; subst; auto; lia.
Qed.

Lemma in_dims_cart sh ls idx : Forall2 (fun n l => Forall (fun i => 0 <= i < Z.of_nat n) l) sh ls -> In idx (cartesian ls) -> in_dims sh idx = true.
Proof.
  intros H. revert idx. induction H as [|n l sh ls Hl H IH]; intros idx; cbn [cartesian].
  - intros [<-|[]]. reflexivity.
  - rewrite in_flat_map. intros (x & Hx & Hi). apply in_map_iff in Hi. destruct Hi as (r & <- & Hr). cbn [in_dims].
    rewrite Forall_forall in Hl. apply Hl in Hx. rewrite (IH r Hr).
    rewrite (proj2 (Z.leb_le _ _)), (proj2 (Z.ltb_lt _ _)) by lia. reflexivity.
Qed.

Lemma ravel_ok sh ls : Forall2 (fun n l => Forall (fun i => 0 <= i < Z.of_nat n) l) sh ls ->
  ravel_multi_index sh ls = Ok (map (ravel sh) (cartesian ls)) /\ Forall (fun f => 0 <= f < size_of sh) (map (ravel sh) (cartesian ls)).
Proof.
  intros H. unfold ravel_multi_index. rewrite <- (@Forall2_len _ _ _ _ _ H), Nat.eqb_refl. cbn [negb].
  assert (G : forallb (in_dims sh) (cartesian ls) = true) by (apply forallb_forall; intros idx Hi; eapply in_dims_cart; eassumption).
  rewrite G. split; [reflexivity|]. apply Forall_forall. intros f Hf. apply in_map_iff in Hf. destruct Hf as (idx & <- & Hi).
  apply ravel_bounds. eapply in_dims_cart; eassumption.
Qed.

Lemma readable_slice n s : ordinary (Z.of_nat n) s -> axis_fits n (to_slice (slice_to_tuple s (Z.of_nat n))).
Proof. intros H. unfold axis_fits. rewrite slice_to_tuple_same by lia. apply ordinary_ok; [lia|exact H]. Qed.
Lemma readable_int n a : 0 <= a < Z.of_nat n -> axis_fits n (to_slice (a, a + 1, None)).
Proof. intros H. exists [a]. split; [apply single_ok, H|]. constructor; [lia|constructor]. Qed.

Lemma norm_tuple_ok sh i es : Forall2 readable (skipn i sh) es ->
  exists nk, norm_tuple sh i es = Ok nk /\ Forall2 axis_fits (skipn i sh) (map to_slice nk).
Proof.
  remember (skipn i sh) as t eqn:Et. intros H. revert i Et. induction H as [|n e t es He H IH]; intros i Et; cbn [norm_tuple].
  - exists []. split; [reflexivity|constructor].
  - symmetry in Et. apply skipn_S in Et. destruct Et as [E1 E2].
    destruct (IH (S i) (eq_sym E2)) as (nk & E & F). rewrite E1, E. destruct e as [z|s|]; cbn [readable] in He; [| |contradiction].
    + destruct (Z.ltb_spec z 0); cbn [bind]; eexists; (split; [reflexivity|]); cbn [map]; constructor; auto; apply readable_int; lia.
    + cbn [bind]. eexists. split; [reflexivity|]. cbn [map]. constructor; [apply readable_slice, He|exact F].
Qed.

Lemma size_of_1 n : size_of [n] = Z.of_nat n.
Proof. unfold size_of. cbn [prod]. f_equal. lia. Qed.

Lemma normalise_ok sh k : Forall2 readable sh (components k) ->
  exists nk, normalise sh k = Ok nk /\ Forall2 axis_fits sh (map to_slice nk).
Proof.
  destruct k as [z|s|l|]; cbn [components normalise]; intros H.
  - inversion H as [|n e sh' es He H' E1 E2]; subst. inversion H'; subst. cbn [readable] in He. rewrite size_of_1.
    destruct (Z.ltb_spec z 0); eexists; (split; [reflexivity|]); cbn [map]; constructor; try constructor; apply readable_int; lia.
  - inversion H as [|n e sh' es He H' E1 E2]; subst. inversion H'; subst. cbn [readable] in He. rewrite size_of_1.
    eexists; (split; [reflexivity|]); cbn [map]; constructor; try constructor. apply readable_slice, He.
  - apply (@norm_tuple_ok sh 0 l H).
  - inversion H as [|n e sh' es He H' E1 E2]; subst. destruct He.
Qed.

Lemma read_accepted sh d k : Forall2 readable sh (components k) -> exists o, snd (getitem sh d k) = Ok o.
Proof.
  intros H. destruct (@normalise_ok _ _ H) as (nk & En & F). unfold getitem. rewrite En.
  destruct (kget (d_pairs d) nk) as [o|]; [cbn; eauto|].
  unfold src_indices_of. destruct (@slices_of_ok sh 0 _ F) as (ls & -> & HB & _). cbn [skipn] in HB. cbn [bind].
  destruct (@ravel_ok _ _ HB) as [-> HR]. cbn [bind]. cbn [skipn] in *.
  assert (A : amax_ge (map (ravel sh) (cartesian ls)) (size_of sh) = false).
  { apply amax_ge_false. eapply Forall_impl; [|exact HR]. cbn. lia. }
  rewrite A. cbn. eauto.
Qed.

(** ** Writes *)
Lemma kelem_slices_ok sh es : Forall2 writable sh es -> exists ss, kelem_slices es = Ok ss /\ Forall2 axis_fits sh ss.
Proof.
  induction 1 as [|n e sh es He H (ss & IH & F)]; cbn [kelem_slices].
  - exists []. split; [reflexivity|constructor].
  - rewrite IH. destruct e as [z|s|]; cbn [writable kelem_slice bind] in *; [| |contradiction]; eexists; (split; [reflexivity|]); constructor; auto.
    + exists [z]. split; [apply single_ok, He|]. constructor; [lia|constructor].
    + apply ordinary_ok; [lia|exact He].
Qed.

Lemma tgt_ok sh k : Forall2 writable sh (components k) ->
  exists ts ix, tgt_indices_of sh k = Ok (ts, ix) /\ Forall (fun i => 0 <= i < size_of sh) ix.
Proof.
  destruct k as [z|s|l|]; cbn [components tgt_indices_of]; intros H.
  - inversion H as [|n e sh' es He H' E1 E2]; subst. inversion H'; subst. cbn [writable] in He. rewrite size_of_1.
    eexists _, _. split; [reflexivity|]. constructor; [lia|constructor].
  - inversion H as [|n e sh' es He H' E1 E2]; subst. inversion H'; subst. cbn [writable] in He. rewrite size_of_1.
    destruct (@ordinary_ok _ _ (Zle_0_nat n) He) as (l & El & Hl). rewrite El. cbn [bind]. eexists _, _. split; [reflexivity|].
    apply slice_to_list_inv in El. destruct El as (? & _ & _ & _ & _ & Hge). clear -Hl Hge.
    induction l; constructor; inversion Hl; inversion Hge; subst; auto; lia.
  - destruct (@kelem_slices_ok _ _ H) as (ss & -> & F). cbn [bind].
    destruct (@slices_of_ok sh 0 _ F) as (ls & -> & HB & _). cbn [skipn] in HB. cbn [bind]. destruct (@ravel_ok _ _ HB) as [-> HR]. cbn [bind].
    eexists _, _. split; [reflexivity|]. exact HR.
  - inversion H as [|n e sh' es He H' E1 E2]; subst. destruct He.
Qed.

Lemma selects_fun sh es l1 l2 : all_selects sh es l1 -> all_selects sh es l2 -> l1 = l2.
Proof.
  revert es l1 l2. induction sh as [|n sh IH]; intros [|e es] [|a l1] [|b l2]; cbn [all_selects]; try tauto.
  intros [A1 A2] [B1 B2]. f_equal; [|eapply IH; eassumption]. destruct e as [z|s|]; cbn [selects] in *.
  - destruct A1 as [[? ->]|(? & ? & ->)], B1 as [[? ->]|(? & ? & ->)]; try reflexivity; lia.
  - congruence.
  - contradiction.
Qed.

Lemma all_indices_NoDup sh : NoDup (all_indices sh).
Proof.
  apply cartesian_NoDup. apply Forall_forall. intros l Hl. apply in_map_iff in Hl. destruct Hl as (n & <- & _).
  apply NoDup_map_on; [|apply seq_NoDup]. intros x y _ _. lia.
Qed.

Lemma at_flat_inj sh f g idx : at_flat sh f idx -> at_flat sh g idx -> f = g.
Proof.
  intros [F1 F2] [G1 G2]. assert (Z.to_nat f = Z.to_nat g); [|lia].
  apply (proj1 (NoDup_nth_error _) (all_indices_NoDup sh)); [apply nth_error_Some; congruence|congruence].
Qed.

Lemma at_flat_list_fun sh ix iy ls : Forall2 (at_flat sh) ix ls -> Forall2 (at_flat sh) iy ls -> ix = iy.
Proof.
  intros H. revert iy. induction H as [|f idx ix ls Hf H IH]; intros iy G; inversion G; subst; [reflexivity|].
  f_equal; [eapply at_flat_inj; eassumption|apply IH; assumption].
Qed.

Lemma setitem_accepts sh c k vn vs ix : tgt_indices_of sh k = Ok (vs, ix) -> Forall (fun i => i < size_of sh) ix ->
  ~ In vn (dkeys (c_tgt c)) -> (forall i, In i ix -> ~ In i (c_checked c)) ->
  snd (setitem sh c k vn vs) = Ok tt /\ dget (c_tgt (fst (setitem sh c k vn vs))) vn = Some (vs, ix).
Proof.
  intros H1 H2 H3 H4. unfold setitem. rewrite H1. rewrite shape_eqb_refl. cbn [negb].
  rewrite (proj2 (amax_ge_false _ _) H2), (proj2 (dmem_false _ _) H3).
  assert (E : existsb (fun i => zmem i (c_checked c)) ix = false).
  { destruct (existsb _ _) eqn:E; [|reflexivity]. apply existsb_exists in E. destruct E as (i & Hi & Hm). apply zmem_spec in Hm.
    exfalso. eapply H4; eassumption. }
  rewrite E. cbn. split; [reflexivity|apply dget_dset_same].
Qed.

Lemma run_snoc sh l a : run sh (l ++ [a]) = run1 sh (run sh l) a.
Proof. unfold run. rewrite fold_left_app. reflexivity. Qed.

Lemma run_length sh l : (length (snd (run sh l)) <= length l)%nat.
Proof.
  induction l as [|a l IH] using rev_ind; [cbn; lia|]. rewrite run_snoc, app_length. destruct a as [[k vn] vs]. cbn [run1].
  destruct (setitem sh (fst (run sh l)) k vn vs) as [c' [[]|e]]; cbn [snd]; rewrite ?app_length; cbn; lia.
Qed.

Lemma run_all_accepted sh l c : run sh l = (c, l) ->
  incl (dkeys (c_tgt c)) (map (fun a => snd (fst a)) l) /\ NoDup (dkeys (c_tgt c)) /\
  (forall x, In x (c_checked c) -> exists n t i, dget (c_tgt c) n = Some (t, i) /\ In x i).
Proof.
  revert c. induction l as [|[[k vn] vs] l IH] using rev_ind; intros c.
  - cbn. intros H. injection H as <-. cbn. split; [intros x []|]. split; [constructor|]. intros x [].
  - rewrite run_snoc. pose proof (run_length sh l) as HL. destruct (run sh l) as [c0 acc]. cbn [run1 fst snd] in *.
    destruct (setitem_cases sh c0 k vn vs) as [[e E]|(ix & Ht & Hlt & Hnew & [(_ & E)|(Hdis & E)])]; rewrite E; intros H; injection H as Hc Hacc.
    + rewrite Hacc, app_length in HL. cbn in HL. lia.
    + rewrite Hacc, app_length in HL. cbn in HL. lia.
    + apply app_inj_tail in Hacc. destruct Hacc as [-> _]. destruct (IH c0 eq_refl) as (I1 & I2 & I3). subst c. cbn [c_tgt c_checked].
      split; [|split].
      * intros n Hn. apply In_dkeys_dset in Hn. rewrite map_app, in_app_iff. cbn. destruct Hn as [->|Hn]; auto.
      * apply NoDup_dset, I2.
      * intros x Hx. apply in_app_iff in Hx. destruct Hx as [Hx|Hx].
        { destruct (I3 x Hx) as (n & t & i & G & Gx). exists n, t, i. split; [|exact Gx]. rewrite dget_dset_other; [exact G|].
          intros ->. apply Hnew. eapply dget_Some_key, G. }
        { exists vn, vs, ix. split; [apply dget_dset_same|exact Hx]. }
Qed.

Lemma disjoint_accepted sh l c k vn ls ix : run sh l = (c, l) ->
  Forall2 writable sh (components k) -> all_selects sh (components k) ls -> Forall2 (at_flat sh) ix (cartesian ls) ->
  ~ In vn (map (fun a => snd (fst a)) l) ->
  (forall n t i, dget (c_tgt c) n = Some (t, i) -> forall x, In x ix -> ~ In x i) ->
  snd (setitem sh c k vn (map (@length Z) ls)) = Ok tt /\
  dget (c_tgt (fst (setitem sh c k vn (map (@length Z) ls)))) vn = Some (map (@length Z) ls, ix).
Proof.
  intros Hr HW HS HA HN HD. destruct (@tgt_ok _ _ HW) as (ts & ix' & Et & Hb).
  destruct (@run_all_accepted _ _ _ Hr) as (I1 & I2 & I3).
  assert (Hb' : Forall (fun i => i < size_of sh) ix') by (eapply Forall_impl; [|exact Hb]; cbn; lia).
  assert (W : match k with KeyTuple _ => True | KeyInt z => 0 <= z /\ length sh = 1%nat | _ => length sh = 1%nat end).
  { destruct k as [z|s|l'|]; cbn [components] in HW; auto; pose proof (@Forall2_len _ _ _ _ _ HW) as L; cbn in L; auto.
    split; [|exact L]. inversion HW as [|n e sh' es He H' E1 E2]; subst. cbn in He. lia. }
  destruct (write_positions _ _ _ _ Et Hb' W) as (ls' & S1 & S2 & ->).
  rewrite (@selects_fun _ _ _ _ S1 HS) in *. rewrite (@at_flat_list_fun _ _ _ _ S2 HA) in *.
  apply setitem_accepts; auto.
  intros i Hi Hc. destruct (I3 _ Hc) as (n & t & i' & G & Gi). exact (HD _ _ _ G _ Hi Gi).
Qed.

Lemma nth_zrange a b s i x : nth_error (zrange a b s) i = Some x <->
  (i < range_len a b s)%nat /\ x = a + Z.of_nat i * s.
Proof.
  unfold zrange. rewrite nth_error_map. split.
  - intros H. destruct (nth_error (seq 0 (range_len a b s)) i) as [j|] eqn:E; [|discriminate].
    injection H as <-. assert (L : (i < range_len a b s)%nat).
    { rewrite <- (seq_length (range_len a b s) 0). apply nth_error_Some. congruence. }
    split; [exact L|]. apply (nth_error_nth _ _ O) in E. rewrite seq_nth in E by exact L. subst j. f_equal.
  - intros [L ->]. rewrite (nth_error_nth' _ O) by (rewrite seq_length; exact L). rewrite seq_nth by exact L. reflexivity.
Qed.

Lemma slice_meaning n sl i x : 0 <= n -> odef 1 (s_step sl) <> 0 ->
  nth_error (py_slice n sl) i = Some x <->
  x = first_position n sl + Z.of_nat i * odef 1 (s_step sl) /\ 0 <= x < n /\ before_stop n sl x.
Proof.
  intros Hn Hs. unfold py_slice, first_position, before_stop, from_end. set (s := odef 1 (s_step sl)) in *.
  rewrite nth_zrange.
  destruct (Z.ltb_spec s 0) as [N|N].
  - destruct (Z.ltb_spec 0 s) as [P|P]; [lia|]. rewrite range_len_neg by exact N.
    destruct (s_start sl) as [a|], (s_stop sl) as [b|];
      repeat match goal with |- context [?u <? 0] => destruct (Z.ltb_spec u 0) end; nia.
  - destruct (Z.ltb_spec 0 s) as [P|P]; [|lia]. rewrite range_len_pos by exact P.
    destruct (s_start sl) as [a|], (s_stop sl) as [b|];
      repeat match goal with |- context [?u <? 0] => destruct (Z.ltb_spec u 0) end; nia.
Qed.
