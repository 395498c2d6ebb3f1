From Coq Require FinFun.
From Verif Require Import PyBase PromotionsModel PromotionsProofs IndexModel IndexSpec.
Local Open Scope Z_scope.
Ltac Zify.zify_post_hook ::= Z.div_mod_to_equations.

Lemma range_len_pos a b s i : 0 < s -> ((i < range_len a b s)%nat <-> a + Z.of_nat i * s < b).
Proof.
  intros Hs. unfold range_len. destruct (Z.ltb_spec 0 s); [|lia].
  split; intros Hi.
  - assert (Z.of_nat i < (b - a + s - 1) / s) by lia.
    assert (Z.of_nat i + 1 <= (b - a + s - 1) / s) by lia.
    assert (s * (Z.of_nat i + 1) <= s * ((b - a + s - 1) / s)) by (apply Z.mul_le_mono_nonneg_l; lia).
    pose proof (Z.mul_div_le (b - a + s - 1) s Hs). nia.
  - apply Nat2Z.inj_lt. rewrite Z2Nat.id.
    + assert (Z.of_nat i + 1 <= (b - a + s - 1) / s); [|lia]. apply Z.div_le_lower_bound; [exact Hs|]. nia.
    + apply Z.div_pos; [|exact Hs]. nia.
Qed.

Lemma range_len_neg a b s i : s < 0 -> ((i < range_len a b s)%nat <-> b < a + Z.of_nat i * s).
Proof.
  intros Hs. assert (E : range_len a b s = range_len (- a) (- b) (- s)).
  { unfold range_len. destruct (Z.ltb_spec 0 s); [lia|]. destruct (Z.ltb_spec s 0); [|lia].
    destruct (Z.ltb_spec 0 (- s)); [|lia]. do 2 f_equal. lia. }
  rewrite E, range_len_pos by lia. nia.
Qed.

Lemma In_zrange x a b s : In x (zrange a b s) <-> exists i, (i < range_len a b s)%nat /\ x = a + Z.of_nat i * s.
Proof.
  unfold zrange. rewrite in_map_iff. split.
  - intros (i & <- & Hi). apply in_seq in Hi. exists i. split; [lia|reflexivity].
  - intros (i & Hi & ->). exists i. split; [reflexivity|]. apply in_seq. lia.
Qed.

Lemma zrange_len_eq a b b' s : (forall i, (i < range_len a b s)%nat <-> (i < range_len a b' s)%nat) ->
  zrange a b s = zrange a b' s.
Proof.
  intros H. unfold zrange. replace (range_len a b' s) with (range_len a b s); [reflexivity|].
  destruct (Nat.lt_trichotomy (range_len a b s) (range_len a b' s)) as [L|[E|L]]; [|exact E|].
  - apply H in L. lia.
  - apply H in L. lia.
Qed.

Lemma zrange_NoDup a b s : s <> 0 -> NoDup (zrange a b s).
Proof.
  intros Hs. unfold zrange. generalize (range_len a b s). intros n.
  assert (G : forall l, NoDup l -> NoDup (map (fun i => a + Z.of_nat i * s) l)).
  { induction l as [|x l IH]; simpl; intros H; [constructor|]. inversion H; subst. constructor; [|auto].
    rewrite in_map_iff. intros (y & E & Hy). assert (Z.of_nat y * s = Z.of_nat x * s) by lia.
    apply Z.mul_reg_r in H0; [|exact Hs]. assert (y = x) by lia. subst. contradiction. }
  apply G, seq_NoDup.
Qed.

Lemma slice_to_list_inv n sl l : slice_to_list n sl = Ok l ->
  exists stop, (match s_stop sl with
                | Some p => if p <? 0 then stop = n + p /\ 0 <= n + p else stop = p
                | None => stop = n end) /\
    odef 1 (s_step sl) <> 0 /\ l = zrange (odef 0 (s_start sl)) stop (odef 1 (s_step sl)) /\
    l <> [] /\ Forall (fun i => 0 <= i) l.
Proof.
  unfold slice_to_list. intros H. inv_bind H. rename a into stop. exists stop.
  split.
  { destruct (s_start sl), (s_stop sl) as [p|]; try (injection E as <-; reflexivity);
    (destruct (p <? 0); [destruct (Z.ltb_spec (n + p) 0); [discriminate|]; injection E as <-; lia|injection E as <-; reflexivity]). }
  destruct (Z.eqb_spec (odef 1 (s_step sl)) 0); [discriminate|]. split; [assumption|].
  destruct (zrange _ _ _) as [|x z] eqn:Ez; [discriminate|].
  destruct (existsb _ _) eqn:Ex; [discriminate|]. injection H as <-. split; [reflexivity|]. split; [discriminate|].
  apply Forall_forall. intros i Hi. destruct (Z.ltb_spec i 0); [|assumption].
  assert (existsb (fun i => i <? 0) (x :: z) = true); [|congruence].
  apply existsb_exists. exists i. split; [exact Hi|]. apply Z.ltb_lt; assumption.
Qed.

Lemma zrange_first a b s : zrange a b s <> [] -> In a (zrange a b s).
Proof.
  unfold zrange. destruct (range_len a b s); [simpl; tauto|]. intros _. simpl. left. lia.
Qed.

(** C04 *)
Lemma slice_is_python n sl l : 0 <= n ->
  slice_to_list n sl = Ok l -> Forall (fun i => i < n) l ->
  l = py_slice n sl /\ Forall (fun i => 0 <= i < n) l /\ NoDup l /\ l <> [].
Proof.
  intros Hn H Hlt. apply slice_to_list_inv in H. destruct H as (stop & Hstop & Hst & El & Hne & Hge).
  split.
  2:{ split; [rewrite Forall_forall in *; intros i Hi; split; auto|]. split; [subst l; apply zrange_NoDup; exact Hst|exact Hne]. }
  set (a := odef 0 (s_start sl)) in *. set (s := odef 1 (s_step sl)) in *.
  assert (Ha : In a l) by (subst l; apply zrange_first; exact Hne).
  rewrite Forall_forall in Hge, Hlt. pose proof (Hge _ Ha) as Ha0. pose proof (Hlt _ Ha) as Han.
  unfold py_slice. fold s. subst l.
  destruct (Z.ltb_spec s 0) as [Hs|Hs].
  - (* negative step *)
    assert (Hsa : stop < a).
    { apply In_zrange in Ha. destruct Ha as (i & Hi & _).
      assert (0 < range_len a stop s)%nat as H0 by lia. apply range_len_neg in H0; lia. }
    assert (Es : s_start sl = Some a).
    { destruct (s_start sl) as [x|] eqn:E; [reflexivity|]. exfalso. unfold a, odef in Hsa.
      destruct (s_stop sl) as [p|]; [|lia]. destruct (Z.ltb_spec p 0); lia. }
    rewrite Es. destruct (Z.ltb_spec a 0); [lia|]. rewrite Z.min_l by lia. f_equal.
    destruct (s_stop sl) as [p|].
    + destruct (Z.ltb_spec p 0); [lia|]. subst stop. lia.
    + lia.
  - assert (Hs' : 0 < s) by lia.
    assert (Es : match s_start sl with None => 0 | Some x => if x <? 0 then Z.max (x + n) 0 else Z.min x n end = a).
    { unfold a in *. destruct (s_start sl) as [x|]; cbn [odef] in *; [|reflexivity].
      destruct (Z.ltb_spec x 0); lia. }
    rewrite Es. clear Es.
    destruct (s_stop sl) as [p|]; [|subst stop; reflexivity].
    destruct (Z.ltb_spec p 0); [destruct Hstop as [-> Hp]; f_equal; lia|]. subst stop.
    apply zrange_len_eq. intros i. rewrite !range_len_pos by exact Hs'.
    split; intros Hi; [|lia].
    assert (In (a + Z.of_nat i * s) (zrange a p s)).
    { apply In_zrange. exists i. split; [apply range_len_pos; [exact Hs'|exact Hi]|reflexivity]. }
    apply Hlt in H0. lia.
Qed.

(** Which Python slices are accepted: non-empty, non-negative explicit start, stop not
    beyond the beginning; omitted bounds only with a positive step. *)
Lemma slice_accepted n sl : 0 <= n -> odef 1 (s_step sl) <> 0 ->
  match s_start sl with Some a => 0 <= a | None => 0 < odef 1 (s_step sl) end ->
  match s_stop sl with Some p => - n <= p | None => 0 < odef 1 (s_step sl) end ->
  match s_start sl with Some a => a < n | None => True end ->
  match s_stop sl with Some p => p <= n | None => True end ->
  py_slice n sl <> [] ->
  exists l, slice_to_list n sl = Ok l /\ Forall (fun i => i < n) l.
Proof.
  intros Hn Hst H1 H2 H3 H4 Hne. set (s := odef 1 (s_step sl)) in *. set (a := odef 0 (s_start sl)).
  set (stop := match s_stop sl with Some p => if p <? 0 then n + p else p | None => n end).
  assert (Hstop : 0 <= stop <= n) by (unfold stop; destruct (s_stop sl) as [p|]; [destruct (Z.ltb_spec p 0); lia|lia]).
  assert (Ha : 0 <= a) by (unfold a; destruct (s_start sl); cbn; lia).
  assert (Ea : py_slice n sl = zrange a stop s).
  { unfold py_slice. fold s. destruct (Z.ltb_spec s 0) as [Hs|Hs].
    - unfold a, stop. destruct (s_start sl) as [x|]; [|lia]. destruct (s_stop sl) as [p|]; [|lia]. cbn [odef].
      destruct (Z.ltb_spec x 0); [lia|]. rewrite Z.min_l by lia.
      destruct (Z.ltb_spec p 0); [f_equal; lia|].
      apply zrange_len_eq. intros i. rewrite !range_len_neg by exact Hs. 
      destruct (Z.le_gt_cases p (n-1)); [rewrite Z.min_l by lia; tauto|].
      assert (p = n) as -> by lia. rewrite Z.min_r by lia. nia.
    - unfold a, stop. f_equal.
      + destruct (s_start sl) as [x|]; cbn [odef]; [|reflexivity]. destruct (Z.ltb_spec x 0); lia.
      + destruct (s_stop sl) as [p|]; [|reflexivity]. destruct (Z.ltb_spec p 0); lia. }
  rewrite Ea in Hne. exists (zrange a stop s).
  assert (Hall : forall x, In x (zrange a stop s) -> 0 <= x < n).
  { intros x Hx. apply In_zrange in Hx. destruct Hx as (i & Hi & ->).
    destruct (Z.lt_total s 0) as [Hs|[Hs|Hs]]; [|lia|].
    - apply range_len_neg in Hi; [|exact Hs].
      assert (a < n). { unfold a. destruct (s_start sl); cbn; lia. } nia.
    - apply range_len_pos in Hi; [|exact Hs]. nia. }
  split; [|apply Forall_forall; intros x Hx; apply Hall; exact Hx].
  unfold slice_to_list. fold s a.
  assert (Eb : match s_start sl, s_stop sl with
    | None, None => Ok n
    | _, Some p => if p <? 0 then (if n + p <? 0 then Err ValueError else Ok (n + p)) else Ok p
    | _, None => Ok n end = Ok stop).
  { unfold stop. destruct (s_start sl), (s_stop sl) as [p|]; try reflexivity;
    (destruct (p <? 0) eqn:Ep; [|reflexivity]; destruct (Z.ltb_spec (n + p) 0); [lia|reflexivity]). }
  rewrite Eb. cbn [bind]. destruct (Z.eqb_spec s 0); [contradiction|].
  destruct (zrange a stop s) as [|x l] eqn:Ez; [congruence|].
  destruct (existsb _ _) eqn:Ex; [|reflexivity].
  apply existsb_exists in Ex. destruct Ex as (y & Hy & Hlt). apply Hall in Hy. apply Z.ltb_lt in Hlt. lia.
Qed.

(** ** Cartesian products and flat indices *)
Lemma cartesian_length {A} (ls : list (list A)) : length (cartesian ls) = prod (map (@length A) ls).
Proof.
  induction ls as [|l ls IH]; [reflexivity|]. cbn [cartesian map prod]. rewrite <- IH.
  generalize (cartesian ls). intros c. clear IH. induction l as [|x l IH]; [reflexivity|].
  cbn [flat_map]. rewrite app_length, map_length, IH. cbn [length]. lia.
Qed.

Lemma nth_error_flat_map_const {A B} (f : A -> list B) (l : list A) n i j :
  (forall x, In x l -> length (f x) = n) -> (j < n)%nat ->
  nth_error (flat_map f l) (i * n + j) =
  match nth_error l i with Some x => nth_error (f x) j | None => None end.
Proof.
  revert i. induction l as [|x l IH]; intros i H Hj.
  - cbn [flat_map]. destruct i; cbn [nth_error]; rewrite (proj2 (nth_error_None [] _)); try reflexivity; cbn; lia.
  - cbn [flat_map]. destruct i as [|i].
    + cbn [Nat.mul Nat.add nth_error]. rewrite nth_error_app1; [reflexivity|]. rewrite H by (left; reflexivity). exact Hj.
    + rewrite nth_error_app2 by (rewrite H by (left; reflexivity); lia).
      rewrite H by (left; reflexivity). replace (S i * n + j - n)%nat with (i * n + j)%nat by lia.
      cbn [nth_error]. apply IH; [|exact Hj]. intros y Hy. apply H. right; exact Hy.
Qed.

Lemma all_indices_length sh : length (all_indices sh) = prod sh.
Proof.
  unfold all_indices. rewrite cartesian_length, map_map. f_equal.
  rewrite <- (map_id sh) at 2. apply map_ext. intros n. rewrite map_length, seq_length. reflexivity.
Qed.

Lemma ravel_bounds sh idx : in_dims sh idx = true -> 0 <= ravel sh idx < size_of sh.
Proof.
  revert idx. induction sh as [|n sh IH]; intros [|i idx]; cbn [in_dims ravel]; try discriminate.
  - intros _. unfold size_of. simpl. lia.
  - rewrite !andb_true_iff, Z.leb_le, Z.ltb_lt. intros [[H1 H2] H3]. apply IH in H3.
    unfold size_of in *. cbn [prod]. rewrite Nat2Z.inj_mul. nia.
Qed.

Lemma ravel_at_flat sh idx : in_dims sh idx = true -> at_flat sh (ravel sh idx) idx.
Proof.
  intros H. split; [apply (ravel_bounds _ _ H)|]. revert idx H.
  induction sh as [|n sh IH]; intros [|i idx]; cbn [in_dims ravel]; try discriminate; [reflexivity|].
  rewrite !andb_true_iff, Z.leb_le, Z.ltb_lt. intros [[H1 H2] H3].
  pose proof (ravel_bounds _ _ H3) as Hb. specialize (IH _ H3).
  unfold all_indices. cbn [map cartesian]. fold (all_indices sh).
  replace (Z.to_nat (i * size_of sh + ravel sh idx)) with (Z.to_nat i * prod sh + Z.to_nat (ravel sh idx))%nat.
  2:{ unfold size_of in *. rewrite Z2Nat.inj_add by nia. rewrite Z2Nat.inj_mul by lia. rewrite Nat2Z.id. reflexivity. }
  rewrite (nth_error_flat_map_const (fun x => map (cons x) (all_indices sh)) _ (prod sh)).
  - rewrite nth_error_map. rewrite (nth_error_nth' (seq 0 n) O) by (rewrite seq_length; lia).
    rewrite seq_nth by lia. cbn [option_map]. rewrite nth_error_map, IH. cbn [option_map]. do 2 f_equal. lia.
  - intros x _. rewrite map_length. apply all_indices_length.
  - unfold size_of in Hb. lia.
Qed.

Lemma at_flat_fun sh f i1 i2 : at_flat sh f i1 -> at_flat sh f i2 -> i1 = i2.
Proof. intros [_ H1] [_ H2]. congruence. Qed.

Lemma ravel_inj sh i1 i2 : in_dims sh i1 = true -> in_dims sh i2 = true -> ravel sh i1 = ravel sh i2 -> i1 = i2.
Proof. intros H1 H2 E. apply (at_flat_fun sh (ravel sh i1)); [apply ravel_at_flat, H1|rewrite E; apply ravel_at_flat, H2]. Qed.

Lemma In_cartesian {A} (ls : list (list A)) idx : In idx (cartesian ls) <-> Forall2 (fun x l => In x l) idx ls.
Proof.
  revert idx. induction ls as [|l ls IH]; intros idx; cbn [cartesian].
  - split; [intros [<-|[]]; constructor|intros H; inversion H; left; reflexivity].
  - rewrite in_flat_map. split.
    + intros (x & Hx & Hi). apply in_map_iff in Hi. destruct Hi as (r & <- & Hr). constructor; [exact Hx|apply IH, Hr].
    + intros H. inversion H as [|x ? r ? Hx Hr]; subst. exists x. split; [exact Hx|]. apply in_map, IH, Hr.
Qed.

Lemma cartesian_NoDup {A} (ls : list (list A)) : Forall (@NoDup A) ls -> NoDup (cartesian ls).
Proof.
  induction 1 as [|l ls Hl Hls IH]; cbn [cartesian]; [constructor; [simpl; tauto|constructor]|].
  induction Hl as [|x l Hx Hl IHl]; cbn [flat_map]; [constructor|].
  apply NoDup_app_iff. split; [|split; [exact IHl|]].
  - apply FinFun.Injective_map_NoDup; [intros a b E; injection E; auto|exact IH].
  - intros y Hy1 Hy2. apply in_map_iff in Hy1. destruct Hy1 as (r & <- & _).
    apply in_flat_map in Hy2. destruct Hy2 as (x' & Hx' & Hy2). apply in_map_iff in Hy2. destruct Hy2 as (r' & E & _).
    injection E as -> _. contradiction.
Qed.

Lemma ravel_multi_index_inv sh ls ix : ravel_multi_index sh ls = Ok ix ->
  length ls = length sh /\ (forall idx, In idx (cartesian ls) -> in_dims sh idx = true) /\
  ix = map (ravel sh) (cartesian ls).
Proof.
  unfold ravel_multi_index. destruct (Nat.eqb_spec (length ls) (length sh)); [|discriminate]. cbn [negb].
  destruct (forallb _ _) eqn:E; [|discriminate]. intros H. injection H as <-. rewrite forallb_forall in E. auto.
Qed.

Lemma slices_of_inv sh i l ls : slices_of sh i l = Ok ls ->
  Forall2 (fun s r => slice_to_list (Z.of_nat (fst s)) (snd s) = Ok r)
    (combine (skipn i sh) l) ls /\ length ls = length l /\ (i + length l <= length sh \/ l = [])%nat.
Proof.
  revert i ls. induction l as [|s l IH]; intros i ls; cbn [slices_of].
  - intros H. injection H as <-. destruct (skipn i sh); simpl; auto.
  - destruct (nth_error sh i) as [n|] eqn:En; [|discriminate]. intros H. inv_bind H. rename E into E1.
    inv_bind H. injection H as <-. apply IH in E. destruct E as (F & Hl & Hle).
    assert (Es : skipn i sh = n :: skipn (S i) sh).
    { clear -En. revert i En. induction sh as [|m sh IH]; intros [|i] En; try discriminate.
      - injection En as ->. reflexivity.
      - apply IH in En. exact En. }
    rewrite Es. cbn [combine]. split; [constructor; [exact E1|exact F]|]. split; [simpl; lia|].
    left. simpl. assert (i < length sh)%nat by (apply nth_error_Some; congruence).
    destruct Hle as [Hle| ->]; simpl; lia.
Qed.

(** When every per-axis list is non-empty, a bound on all tuples bounds every list. *)
Lemma in_dims_axes sh ls : Forall (fun l => l <> []) ls -> length ls = length sh ->
  (forall idx, In idx (cartesian ls) -> in_dims sh idx = true) ->
  Forall2 (fun n l => Forall (fun i => 0 <= i < Z.of_nat n) l) sh ls.
Proof.
  intros Hne. revert sh. induction Hne as [|l ls Hl Hls IH]; intros [|n sh] Hlen H; try discriminate; [constructor|].
  assert (Hc : cartesian ls <> []).
  { clear -Hls. induction Hls as [|x xs Hx Hxs IHx]; [discriminate|]. cbn [cartesian].
    destruct x as [|a x]; [congruence|]. cbn [flat_map]. destruct (cartesian xs); [congruence|discriminate]. }
  destruct l as [|a l]; [congruence|]. destruct (cartesian ls) as [|c cs] eqn:Ec; [congruence|].
  constructor.
  - apply Forall_forall. intros i Hi. assert (Hin : In (i :: c) (cartesian ((a :: l) :: ls))).
    { cbn [cartesian]. apply in_flat_map. exists i. split; [exact Hi|]. apply in_map. rewrite Ec. left; reflexivity. }
    apply H in Hin. cbn [in_dims] in Hin. rewrite !andb_true_iff, Z.leb_le, Z.ltb_lt in Hin. lia.
  - apply IH; [simpl in Hlen; lia|]. intros idx Hidx. assert (Hin : In (a :: idx) (cartesian ((a :: l) :: ls))).
    { cbn [cartesian]. apply in_flat_map. exists a. split; [left; reflexivity|]. apply in_map. rewrite Ec. exact Hidx. }
    apply H in Hin. cbn [in_dims] in Hin. rewrite !andb_true_iff in Hin. tauto.
Qed.

Lemma Forall2_nth_error {A B} (R : A -> B -> Prop) l1 l2 i a b :
  Forall2 R l1 l2 -> nth_error l1 i = Some a -> nth_error l2 i = Some b -> R a b.
Proof.
  intros H. revert i. induction H; intros [|i]; simpl; try discriminate; [congruence|apply IHForall2].
Qed.

Lemma slice_to_tuple_same n s : 0 <= n -> slice_to_list n (to_slice (slice_to_tuple s n)) = slice_to_list n s.
Proof.
  intros Hn. unfold slice_to_list, to_slice, slice_to_tuple. cbn [s_start s_stop s_step fst snd].
  destruct (s_start s) as [a|], (s_stop s) as [p|]; cbn [odef]; try reflexivity;
    (destruct (Z.ltb_spec n 0); [lia|reflexivity]).
Qed.

Lemma single_slice n a l : slice_to_list n (Slice (Some a) (Some (a + 1)) None) = Ok l -> l = [a] /\ 0 <= a.
Proof.
  intros H. apply slice_to_list_inv in H. cbn [s_start s_stop s_step odef] in H.
  destruct H as (stop & Hs & _ & -> & Hne & Hge).
  assert (Ha : 0 <= a).
  { rewrite Forall_forall in Hge. apply Hge. apply zrange_first. exact Hne. }
  split; [|exact Ha]. destruct (Z.ltb_spec (a + 1) 0); [lia|]. subst stop.
  unfold zrange, range_len. cbn [Z.ltb Z.compare]. replace ((a + 1 - a + 1 - 1) / 1) with 1 by (rewrite Z.div_1_r; lia).
  simpl. f_equal. lia.
Qed.

(** Slices of a normalised key, one axis at a time. *)
Definition axis_ok (n : nat) (s : pyslice) (l : list Z) : Prop :=
  slice_to_list (Z.of_nat n) s = Ok l /\ Forall (fun i => 0 <= i < Z.of_nat n) l.

Lemma Forall2_combine_l {A B C} (R : A * B -> C -> Prop) (a : list A) (b : list B) (c : list C) :
  length a = length b -> Forall2 R (combine a b) c ->
  length c = length a /\ forall i x y z, nth_error a i = Some x -> nth_error b i = Some y -> nth_error c i = Some z -> R (x, y) z.
Proof.
  revert b c. induction a as [|x a IH]; intros [|y b] c Hl H; try discriminate; cbn [combine] in H.
  - inversion H; subst. split; [reflexivity|]. intros [|i]; discriminate.
  - inversion H as [|? z ? c' Hz Hc]; subst. destruct (IH b c' ltac:(simpl in Hl; lia) Hc) as [L G].
    split; [simpl; lia|]. intros [|i]; simpl; [intros ? ? ? E1 E2 E3; congruence|apply G].
Qed.

Inductive Forall3 {A B C} (R : A -> B -> C -> Prop) : list A -> list B -> list C -> Prop :=
| F3_nil : Forall3 R [] [] []
| F3_cons x y z a b c : R x y z -> Forall3 R a b c -> Forall3 R (x :: a) (y :: b) (z :: c).

Lemma accepted_axes sh ss ls : slices_of sh O ss = Ok ls -> length ls = length sh ->
  (forall idx, In idx (cartesian ls) -> in_dims sh idx = true) ->
  Forall3 axis_ok sh ss ls.
Proof.
  intros H Hl Hd. apply slices_of_inv in H. cbn [skipn] in H. destruct H as (F & Hls & _).
  assert (Hne : Forall (fun l => l <> []) ls).
  { clear -F. induction F as [|x r xs rs Hx F IH]; constructor; [|exact IH].
    apply slice_to_list_inv in Hx. destruct Hx as (? & _ & _ & _ & Hne & _). exact Hne. }
  pose proof (in_dims_axes _ _ Hne Hl Hd) as G. clear Hne Hd.
  rewrite Hl in Hls. clear Hl. revert ss F Hls. induction G as [|n l sh ls Hn G IH]; intros [|s ss] F Hls; try discriminate.
  - constructor.
  - cbn [combine] in F. inversion F; subst. constructor; [split; assumption|]. apply IH; [assumption|simpl in Hls; lia].
Qed.

Lemma ravel_list_at_flat sh ls : (forall idx, In idx (cartesian ls) -> in_dims sh idx = true) ->
  Forall2 (at_flat sh) (map (ravel sh) (cartesian ls)) (cartesian ls).
Proof.
  generalize (cartesian ls). intros c H. induction c as [|x c IH]; cbn [map]; constructor.
  - apply ravel_at_flat, H. left; reflexivity.
  - apply IH. intros idx Hi. apply H. right; exact Hi.
Qed.

Lemma NoDup_map_on {A B} (f : A -> B) l : (forall x y, In x l -> In y l -> f x = f y -> x = y) -> NoDup l -> NoDup (map f l).
Proof.
  intros Hf H. induction H as [|x l Hx H IH]; simpl; constructor.
  - rewrite in_map_iff. intros (y & E & Hy). apply Hf in E; [subst; contradiction|right; exact Hy|left; reflexivity].
  - apply IH. intros a b Ha Hb. apply Hf; right; assumption.
Qed.

Lemma Forall3_axis_props sh ss ls : Forall3 axis_ok sh ss ls ->
  Forall (@NoDup Z) ls /\ Forall2 (fun n l => Forall (fun i => 0 <= i < Z.of_nat n) l) sh ls.
Proof.
  induction 1 as [|n s l sh ss ls [H1 H2] H [IH1 IH2]]; [split; constructor|].
  assert (Hlt : Forall (fun i => i < Z.of_nat n) l) by (eapply Forall_impl; [|exact H2]; simpl; lia).
  destruct (slice_is_python _ _ _ (Nat2Z.is_nonneg n) H1 Hlt) as (_ & _ & HN & _).
  split; constructor; assumption.
Qed.

(** Everything about an accepted multi-axis selection. *)
Lemma ravel_sound sh ss ls ix :
  slices_of sh O ss = Ok ls -> ravel_multi_index sh ls = Ok ix ->
  Forall3 axis_ok sh ss ls /\ Forall2 (at_flat sh) ix (cartesian ls) /\ NoDup ix /\
  length ix = prod (map (@length Z) ls) /\ Forall (fun f => 0 <= f < size_of sh) ix.
Proof.
  intros Hs Hr. apply ravel_multi_index_inv in Hr. destruct Hr as (Hl & Hd & ->).
  pose proof (accepted_axes _ _ _ Hs Hl Hd) as F3. split; [exact F3|].
  destruct (Forall3_axis_props _ _ _ F3) as [HN _].
  split; [apply ravel_list_at_flat, Hd|]. split.
  { apply NoDup_map_on; [|apply cartesian_NoDup, HN]. intros x y Hx Hy. apply ravel_inj; auto. }
  split; [rewrite map_length; apply cartesian_length|].
  apply Forall_forall. intros f Hf. apply in_map_iff in Hf. destruct Hf as (idx & <- & Hi). apply ravel_bounds; auto.
Qed.

Lemma axis_py n s l : axis_ok n s l -> l = py_slice (Z.of_nat n) s.
Proof.
  intros [H1 H2]. assert (Hlt : Forall (fun i => i < Z.of_nat n) l) by (eapply Forall_impl; [|exact H2]; simpl; lia).
  apply (slice_is_python _ _ _ (Nat2Z.is_nonneg n) H1 Hlt).
Qed.

(** the selections are the ones Python makes for the original components *)
Lemma norm_tuple_selects sh0 sh i es nk ls :
  skipn i sh0 = sh -> Forall (fun e => e <> KX) es ->
  norm_tuple sh0 i es = Ok nk -> Forall3 axis_ok sh (map to_slice nk) ls -> all_selects sh es ls.
Proof.
  revert i sh nk ls. induction es as [|e es IH]; intros i sh nk ls Hsk HX Hn F; cbn [norm_tuple] in Hn.
  - injection Hn as <-. inversion F; subst. exact I.
  - inversion HX as [|? ? He HX']; subst.
    assert (Hnk : exists x t, nk = x :: t /\ norm_tuple sh0 (S i) es = Ok t /\
       ((exists n s, e = KS s /\ nth_error sh0 i = Some n /\ x = slice_to_tuple s (Z.of_nat n)) \/
        (exists n z, e = KI z /\ z < 0 /\ nth_error sh0 i = Some n /\ x = (Z.of_nat n + z, Z.of_nat n + z + 1, None)) \/
        (exists z, e = KI z /\ 0 <= z /\ x = (z, z + 1, None)))).
    { destruct e as [z|s|]; [| |congruence].
      - destruct (Z.ltb_spec z 0).
        + destruct (nth_error sh0 i) as [n|] eqn:En; [|discriminate]. inv_bind Hn. injection Hn as <-.
          eexists _, _. split; [reflexivity|]. split; [exact E|]. right; left. exists n, z. auto.
        + inv_bind Hn. injection Hn as <-. eexists _, _. split; [reflexivity|]. split; [exact E|]. right; right. exists z. auto.
      - destruct (nth_error sh0 i) as [n|] eqn:En; [|discriminate]. inv_bind Hn. injection Hn as <-.
        eexists _, _. split; [reflexivity|]. split; [exact E|]. left. exists n, s. auto. }
    destruct Hnk as (x & t & -> & Ht & Hx). cbn [map] in F.
    inversion F as [|n ? l sh' ? ls' Hax F' E1]; subst.
    assert (Hn0 : nth_error sh0 i = Some n /\ skipn (S i) sh0 = sh').
    { clear -E1. revert i E1. induction sh0 as [|m sh0 IH]; intros [|i] E1; cbn in E1; try discriminate.
      - injection E1 as -> ->. split; reflexivity.
      - apply IH in E1. exact E1. }
    destruct Hn0 as [Hn0 Hsk]. cbn [all_selects]. split.
    2:{ eapply IH; [exact Hsk|exact HX'|exact Ht|exact F']. }
    destruct Hx as [(n' & s & -> & Hn' & ->)|[(n' & z & -> & Hz & Hn' & ->)|(z & -> & Hz & ->)]].
    + rewrite Hn0 in Hn'. injection Hn' as <-. cbn [selects]. apply axis_py.
      destruct Hax as [H1 H2]. split; [|exact H2]. rewrite slice_to_tuple_same in H1 by lia. exact H1.
    + rewrite Hn0 in Hn'. injection Hn' as <-. destruct Hax as [H1 H2].
      apply single_slice in H1. destruct H1 as [-> H1]. inversion H2; subst. cbn [selects]. right. split; [lia|split; [lia|reflexivity]].
    + destruct Hax as [H1 H2]. apply single_slice in H1. destruct H1 as [-> H1]. inversion H2; subst. cbn [selects]. left. split; [lia|reflexivity].
Qed.

Lemma normalise_selects sh k nk ls : no_other k -> normalise sh k = Ok nk ->
  Forall3 axis_ok sh (map to_slice nk) ls -> all_selects sh (components k) ls.
Proof.
  intros HX Hn F. unfold no_other in HX. destruct k as [z|s|es|]; cbn [normalise components] in *.
  - assert (Hlen : exists n, sh = [n]).
    { destruct (z <? 0); injection Hn as <-; cbn [map] in F; inversion F as [|n ? ? ? ? ? ? F']; subst; inversion F'; subst; eauto. }
    destruct Hlen as [n ->]. eapply (norm_tuple_selects [n] [n] O [KI z] nk); [reflexivity|exact HX| |exact F].
    cbn [norm_tuple nth_error bind]. unfold size_of in Hn. cbn [prod] in Hn. rewrite Nat.mul_1_r in Hn.
    destruct (z <? 0); exact Hn.
  - assert (Hlen : exists n, sh = [n]).
    { injection Hn as <-. cbn [map] in F. inversion F as [|n ? ? ? ? ? ? F']; subst; inversion F'; subst; eauto. }
    destruct Hlen as [n ->]. eapply (norm_tuple_selects [n] [n] O [KS s] nk); [reflexivity|exact HX| |exact F].
    cbn [norm_tuple nth_error bind]. unfold size_of in Hn. cbn [prod] in Hn. rewrite Nat.mul_1_r in Hn. exact Hn.
  - eapply (norm_tuple_selects sh sh O); [reflexivity|exact HX|exact Hn|exact F].
  - inversion HX; congruence.
Qed.

Lemma val_shape_eq sh nk ls : Forall3 axis_ok sh (map to_slice nk) ls -> val_shape sh nk = map (@length Z) ls.
Proof.
  revert nk ls. induction sh as [|n sh IH]; intros nk ls F; inversion F as [|n0 s0 l sh0 ss ls' H1 H2 E1 E2]; subst.
  - reflexivity.
  - destruct nk as [|e nk]; [discriminate|]. cbn [map] in E2. injection E2 as -> ->.
    cbn [val_shape map]. rewrite (IH _ _ H2). f_equal. rewrite <- (axis_py _ _ _ H1). reflexivity.
Qed.

(** C05 for one key *)
Lemma src_indices_sound sh k nk ix :
  no_other k -> normalise sh k = Ok nk -> src_indices_of sh nk = Ok ix ->
  exists ls, all_selects sh (components k) ls /\
    Forall2 (at_flat sh) ix (cartesian ls) /\ NoDup ix /\
    Forall (fun f => 0 <= f < size_of sh) ix /\
    val_shape sh nk = map (@length Z) ls /\ length ix = prod (val_shape sh nk).
Proof.
  intros HX Hn H. unfold src_indices_of in H. inv_bind H. rename a into ls, E into E1. inv_bind H.
  apply raise_if_Ok in H. destruct H as [_ H]. injection H as ->.
  destruct (ravel_sound _ _ _ _ E1 E) as (F3 & HA & HN & Hlen & HB).
  exists ls. split; [eapply normalise_selects; eassumption|]. rewrite (val_shape_eq _ _ _ F3). auto.
Qed.

(** ** Histories of reads *)
Lemma oz_eqb_spec a b : oz_eqb a b = true <-> a = b.
Proof. destruct a as [x|], b as [y|]; cbn; rewrite ?Z.eqb_eq; split; intros H; try discriminate; try congruence. Qed.
Lemma nelem_eqb_spec a b : nelem_eqb a b = true <-> a = b.
Proof.
  destruct a as [[x y] z], b as [[x' y'] z']. unfold nelem_eqb. cbn [fst snd].
  rewrite !andb_true_iff, !Z.eqb_eq, oz_eqb_spec. split; [intros [[-> ->] ->]; reflexivity|intros E; injection E; auto].
Qed.
Lemma nkey_eqb_spec a b : nkey_eqb a b = true <-> a = b.
Proof. apply list_eqb_spec. exact nelem_eqb_spec. Qed.

Lemma kget_In l k v : kget l k = Some v -> In (k, v) l.
Proof.
  induction l as [|[k' v'] l IH]; cbn [kget]; [discriminate|]. destruct (nkey_eqb k k') eqn:E.
  - apply nkey_eqb_spec in E. intros H. injection H as <-. subst. left; reflexivity.
  - intros H. right; auto.
Qed.
Lemma kget_None l k : kget l k = None <-> ~ In k (map fst l).
Proof.
  induction l as [|[k' v'] l IH]; cbn [kget map fst In]; [tauto|]. destruct (nkey_eqb k k') eqn:E.
  - apply nkey_eqb_spec in E. split; [discriminate|]. intros H. exfalso. apply H. left; congruence.
  - rewrite IH. split; [|tauto]. intros H [Hc|Hc]; [|tauto]. subst. assert (nkey_eqb k k = true) by (apply nkey_eqb_spec; reflexivity). congruence.
Qed.
Lemma kget_app l k v k' : kget (l ++ [(k, v)]) k' =
  match kget l k' with Some o => Some o | None => if nkey_eqb k' k then Some v else None end.
Proof.
  induction l as [|[k0 v0] l IH]; cbn [app kget]; [reflexivity|]. destruct (nkey_eqb k' k0); [reflexivity|exact IH].
Qed.

(** invariant of the read table *)
Definition dinv (sh : shape) (d : decomp) : Prop :=
  length (d_pairs d) = length (d_outs d) /\
  map snd (d_pairs d) = seq 0 (length (d_outs d)) /\
  NoDup (map fst (d_pairs d)) /\
  (forall nk o, In (nk, o) (d_pairs d) -> exists ix, src_indices_of sh nk = Ok ix /\ nth_error (d_outs d) o = Some (val_shape sh nk, ix)).

Lemma dinv0 sh : dinv sh decomp0.
Proof. repeat split; try constructor. intros nk o []. Qed.

Lemma getitem_cases sh d k : let r := getitem sh d k in
  (fst r = d /\ (exists e, snd r = Err e)) \/
  (exists nk, normalise sh k = Ok nk /\
    ((exists o, kget (d_pairs d) nk = Some o /\ r = (d, Ok o)) \/
     (exists ix, kget (d_pairs d) nk = None /\ src_indices_of sh nk = Ok ix /\
        r = (Decomp (d_pairs d ++ [(nk, length (d_outs d))]) (d_outs d ++ [(val_shape sh nk, ix)]), Ok (length (d_outs d)))))).
Proof.
  cbv zeta. unfold getitem. destruct (normalise sh k) as [nk|e] eqn:En; [|left; split; [reflexivity|eexists; reflexivity]].
  destruct (kget (d_pairs d) nk) as [o|] eqn:Eo.
  - right. exists nk. split; [reflexivity|]. left. exists o. auto.
  - destruct (src_indices_of sh nk) as [ix|e] eqn:Ei; [|left; split; [reflexivity|eexists; reflexivity]].
    right. exists nk. split; [reflexivity|]. right. exists ix. auto.
Qed.

Lemma dinv_step sh d k : dinv sh d -> dinv sh (fst (getitem sh d k)).
Proof.
  intros I. pose proof (getitem_cases sh d k) as C. cbv zeta in C.
  destruct C as [[E _]|(nk & Hn & [(o & Ho & E)|(ix & Hno & Hix & E)])]; [rewrite E; exact I|rewrite E; exact I|].
  rewrite E. cbn [fst]. destruct I as (I1 & I2 & I3 & I4). unfold dinv. cbn [d_pairs d_outs].
  rewrite !app_length. cbn [length]. split; [lia|]. split.
  { rewrite map_app, I2, seq_app. reflexivity. }
  split.
  { rewrite map_app. cbn [map fst]. apply NoDup_app_single; [exact I3|]. apply kget_None. exact Hno. }
  intros nk' o' Hi. apply in_app_iff in Hi. destruct Hi as [Hi|[Hi|[]]].
  - destruct (I4 _ _ Hi) as (ix' & H1 & H2). exists ix'. split; [exact H1|]. rewrite nth_error_app1; [exact H2|].
    apply nth_error_Some. congruence.
  - injection Hi as <- <-. exists ix. split; [exact Hix|]. rewrite nth_error_app2, Nat.sub_diag by lia. reflexivity.
Qed.

Lemma dinv_reads sh ks : dinv sh (reads sh ks).
Proof.
  unfold reads. assert (G : forall d, dinv sh d -> dinv sh (fold_left (fun d k => fst (getitem sh d k)) ks d)).
  { induction ks as [|k ks IH]; intros d Hd; cbn [fold_left]; [exact Hd|]. apply IH, dinv_step, Hd. }
  apply G, dinv0.
Qed.

Lemma reads_app sh ks ks' : reads sh (ks ++ ks') = fold_left (fun d k => fst (getitem sh d k)) ks' (reads sh ks).
Proof. apply fold_left_app. Qed.

(** the table only grows *)
Lemma getitem_grows sh d k : (forall nk o, kget (d_pairs d) nk = Some o -> kget (d_pairs (fst (getitem sh d k))) nk = Some o) /\
  (forall o x, nth_error (d_outs d) o = Some x -> nth_error (d_outs (fst (getitem sh d k))) o = Some x).
Proof.
  pose proof (getitem_cases sh d k) as C. cbv zeta in C.
  destruct C as [[E _]|(nk & Hn & [(o & Ho & E)|(ix & Hno & Hix & E)])]; [rewrite E; auto|rewrite E; auto|].
  rewrite E. cbn [fst d_pairs d_outs]. split.
  - intros nk' o' H. rewrite kget_app, H. reflexivity.
  - intros o' x H. rewrite nth_error_app1; [exact H|]. apply nth_error_Some. congruence.
Qed.

Lemma fold_grows sh ks d : (forall nk o, kget (d_pairs d) nk = Some o -> kget (d_pairs (fold_left (fun d k => fst (getitem sh d k)) ks d)) nk = Some o) /\
  (forall o x, nth_error (d_outs d) o = Some x -> nth_error (d_outs (fold_left (fun d k => fst (getitem sh d k)) ks d)) o = Some x).
Proof.
  revert d. induction ks as [|k ks IH]; intros d; cbn [fold_left]; [auto|].
  destruct (getitem_grows sh d k) as [G1 G2]. destruct (IH (fst (getitem sh d k))) as [I1 I2]. split; auto.
Qed.

Lemma getitem_ok_key sh d k o : snd (getitem sh d k) = Ok o ->
  exists nk, normalise sh k = Ok nk /\ kget (d_pairs (fst (getitem sh d k))) nk = Some o.
Proof.
  intros H. pose proof (getitem_cases sh d k) as C. cbv zeta in C.
  destruct C as [[_ [e E]]|(nk & Hn & [(o' & Ho & E)|(ix & Hno & Hix & E)])]; [congruence| |];
    rewrite E in *; cbn [snd fst] in *; injection H as <-; exists nk; (split; [exact Hn|]); cbn [d_pairs].
  - exact Ho.
  - rewrite kget_app, Hno. assert (nkey_eqb nk nk = true) as -> by (apply nkey_eqb_spec; reflexivity). reflexivity.
Qed.

(** C06 *)
Lemma reads_cached sh pre mid k1 k2 o1 o2 :
  snd (getitem sh (reads sh pre) k1) = Ok o1 ->
  snd (getitem sh (reads sh (pre ++ k1 :: mid)) k2) = Ok o2 ->
  (o1 = o2 <-> normalise sh k1 = normalise sh k2) /\
  (forall rest, nth_error (d_outs (reads sh (pre ++ k1 :: rest))) o1 = nth_error (d_outs (reads sh (pre ++ [k1]))) o1) /\
  (exists nk ix, normalise sh k1 = Ok nk /\ src_indices_of sh nk = Ok ix /\
     nth_error (d_outs (reads sh (pre ++ [k1]))) o1 = Some (val_shape sh nk, ix)).
Proof.
  intros H1 H2.
  apply getitem_ok_key in H1, H2. destruct H1 as (nk1 & N1 & K1). destruct H2 as (nk2 & N2 & K2).
  set (d1 := fst (getitem sh (reads sh pre) k1)) in *.
  assert (E1 : reads sh (pre ++ [k1]) = d1) by (rewrite reads_app; reflexivity).
  assert (Em : forall rest, reads sh (pre ++ k1 :: rest) = fold_left (fun d k => fst (getitem sh d k)) rest d1)
    by (intros rest; rewrite reads_app; reflexivity).
  assert (K1' : kget (d_pairs (fst (getitem sh (reads sh (pre ++ k1 :: mid)) k2))) nk1 = Some o1).
  { apply getitem_grows. rewrite Em. apply fold_grows. exact K1. }
  pose proof (dinv_reads sh (pre ++ [k1])) as Id. rewrite E1 in Id.
  destruct Id as (_ & _ & _ & I4). destruct (I4 _ _ (kget_In _ _ _ K1)) as (ix & Hix & Hnth).
  split; [|split].
  - set (d2 := fst (getitem sh (reads sh (pre ++ k1 :: mid)) k2)) in *.
    assert (Id2 : dinv sh d2) by (apply dinv_step, dinv_reads). destruct Id2 as (_ & J2 & _ & _).
    rewrite N1, N2. split.
    + intros <-. apply kget_In in K1', K2. f_equal.
      assert (HN : NoDup (map snd (d_pairs d2))) by (rewrite J2; apply seq_NoDup).
      clear -HN K1' K2. induction (d_pairs d2) as [|[a b] l IH]; [destruct K2|]. simpl in HN. inversion HN; subst.
      destruct K1' as [E|K1'], K2 as [E'|K2]; try congruence; [| |auto].
      * injection E as -> ->. apply (in_map snd) in K2. contradiction.
      * injection E' as -> ->. apply (in_map snd) in K1'. contradiction.
    + intros E. injection E as ->. congruence.
  - intros rest. rewrite Em, E1, Hnth. apply fold_grows. exact Hnth.
  - exists nk1, ix. rewrite E1. auto.
Qed.

(** ** Histories of assignments *)
Definition indices_of (sh : shape) (a : assignment) (ix : list Z) : Prop :=
  exists ts, tgt_indices_of sh (fst (fst a)) = Ok (ts, ix).

Lemma tgt_indices_props sh k ts ix : tgt_indices_of sh k = Ok (ts, ix) ->
  length ix = prod ts /\ NoDup ix /\ ix <> [] /\
  ((exists z, k = KeyInt z /\ ix = [z]) \/ Forall (fun i => 0 <= i) ix).
Proof.
  destruct k as [z|s|l|]; cbn [tgt_indices_of]; intros H; [| | |discriminate].
  - injection H as <- <-. split; [reflexivity|]. split; [repeat constructor; simpl; tauto|]. split; [discriminate|]. left. eauto.
  - destruct sh as [|n sh]; [discriminate|]. inv_bind H. injection H as <- <-.
    pose proof (slice_to_list_inv _ _ _ E) as (stop & _ & Hst & El & Hne & Hge).
    split; [cbn [prod]; lia|]. split; [rewrite El; apply zrange_NoDup, Hst|]. split; [exact Hne|]. right. exact Hge.
  - inv_bind H. rename E into E0. inv_bind H. rename E into E1. inv_bind H. injection H as <- <-.
    destruct (ravel_sound _ _ _ _ E1 E) as (F3 & HA & HN & Hlen & HB).
    split; [exact Hlen|]. split; [exact HN|]. split.
    + intros ->. cbn [length] in Hlen.
      assert (G : Forall (fun l => l <> []) a0).
      { clear -F3. induction F3 as [|n s l sh ss ls [H1 H2] F IH]; constructor; [|exact IH].
        apply slice_to_list_inv in H1. destruct H1 as (? & _ & _ & _ & Hne & _). exact Hne. }
      clear -G Hlen. induction G as [|l ls Hl G IH]; cbn [map prod] in Hlen; [discriminate|].
      destruct l; [congruence|]. cbn [length] in Hlen. lia.
    + right. eapply Forall_impl; [|exact HB]. simpl. lia.
Qed.

Lemma zmem_spec x l : zmem x l = true <-> In x l.
Proof. unfold zmem. rewrite existsb_exists. split; [intros (y & Hy & E); apply Z.eqb_eq in E; congruence|intros H; exists x; split; [exact H|apply Z.eqb_refl]]. Qed.

Lemma amax_ge_false l b : amax_ge l b = false <-> Forall (fun i => i < b) l.
Proof.
  unfold amax_ge. split.
  - intros H. apply Forall_forall. intros i Hi. destruct (Z.lt_ge_cases i b); [assumption|].
    assert (existsb (fun i => b <=? i) l = true); [|congruence]. apply existsb_exists. exists i. split; [exact Hi|apply Z.leb_le; assumption].
  - intros H. destruct (existsb _ _) eqn:E; [|reflexivity]. apply existsb_exists in E. destruct E as (i & Hi & Hb).
    apply Z.leb_le in Hb. rewrite Forall_forall in H. apply H in Hi. lia.
Qed.

(** accepted assignments, in order *)
Definition accepted (sh : shape) (l : list assignment) : list assignment := snd (run sh l).

Record cinv (sh : shape) (st : concat_st * list assignment) : Prop := {
  ci_acc : forall a, In a (snd st) -> exists ts ix, tgt_indices_of sh (fst (fst a)) = Ok (ts, ix) /\
       snd a = ts /\ Forall (fun i => i < size_of sh) ix /\ incl ix (c_checked (fst st)) /\
       dget (c_tgt (fst st)) (snd (fst a)) = Some (ts, ix);
  ci_deps : c_deps (fst st) = map (fun a => snd (fst a)) (snd st);
  ci_names : NoDup (map (fun a => snd (fst a)) (snd st));
  ci_disj : ForallOrdPairs (fun a b => forall ta ia tb ib,
       tgt_indices_of sh (fst (fst a)) = Ok (ta, ia) -> tgt_indices_of sh (fst (fst b)) = Ok (tb, ib) ->
       forall i, In i ia -> In i ib -> False) (snd st);
  ci_def : c_defined (fst st) = negb (is_nil (snd st))
}.

Lemma ForallOrdPairs_app {A} (R : A -> A -> Prop) l x :
  ForallOrdPairs R l -> (forall a, In a l -> R a x) -> ForallOrdPairs R (l ++ [x]).
Proof.
  induction 1 as [|a l Ha Hl IH]; intros H; cbn [app].
  - constructor; constructor.
  - constructor.
    + apply Forall_app. split; [exact Ha|]. constructor; [apply H; left; reflexivity|constructor].
    + apply IH. intros b Hb. apply H. right; exact Hb.
Qed.

Lemma setitem_cases sh c k vn vs :
  (exists e, setitem sh c k vn vs = (c, Err e)) \/
  (exists ix, tgt_indices_of sh k = Ok (vs, ix) /\ Forall (fun i => i < size_of sh) ix /\ ~ In vn (dkeys (c_tgt c)) /\
    let c' := Concat (dset (c_tgt c) vn (vs, ix)) (c_checked c ++ ix) (c_defined c) (c_deps c) in
    ((exists i, In i ix /\ In i (c_checked c)) /\ setitem sh c k vn vs = (c', Err ValueError) \/
     (forall i, In i ix -> In i (c_checked c) -> False) /\
       setitem sh c k vn vs = (Concat (c_tgt c') (c_checked c') true (if c_defined c then c_deps c ++ [vn] else [vn]), Ok tt))).
Proof.
  unfold setitem. destruct (tgt_indices_of sh k) as [[ts ix]|e] eqn:Et; [|left; eauto].
  destruct (shape_eqb ts vs) eqn:Es; cbn [negb]; [|left; eauto]. apply shape_eqb_spec in Es. subst ts.
  destruct (amax_ge ix (size_of sh)) eqn:Ea; [left; eauto|]. apply amax_ge_false in Ea.
  destruct (dmem vn (c_tgt c)) eqn:Ed; [left; eauto|].
  right. exists ix. split; [reflexivity|]. split; [exact Ea|].
  split; [intros Hi; apply dmem_spec in Hi; congruence|]. cbv zeta.
  destruct (existsb _ _) eqn:Ex.
  - left. split; [|reflexivity]. apply existsb_exists in Ex. destruct Ex as (i & Hi & Hm). apply zmem_spec in Hm. eauto.
  - right. split; [|reflexivity]. intros i Hi Hc. assert (existsb (fun i => zmem i (c_checked c)) ix = true); [|congruence].
    apply existsb_exists. exists i. split; [exact Hi|apply zmem_spec, Hc].
Qed.

Lemma cinv_step sh st a : cinv sh st -> cinv sh (run1 sh st a).
Proof.
  intros I. destruct a as [[k vn] vs]. destruct st as [c acc]. cbn [run1 fst snd].
  destruct (setitem_cases sh c k vn vs) as [[e E]|(ix & Ht & Hlt & Hnew & [(_ & E)|(Hdis & E)])]; rewrite E; clear E; cbn [fst snd].
  - exact I.
  - destruct I as [I1 I2 I3 I4 I5]. split; cbn [fst snd c_tgt c_checked c_deps c_defined] in *; auto.
    intros a Ha. destruct (I1 a Ha) as (ts & ix' & H1 & H2 & H3 & H4 & H5). exists ts, ix'. repeat split; auto.
    + intros i Hi. apply in_app_iff. left. apply H4, Hi.
    + rewrite dget_dset_other; [exact H5|]. intros E. subst vn. apply Hnew. eapply dget_Some_key; exact H5.
  - destruct I as [I1 I2 I3 I4 I5]. cbn [fst snd c_tgt c_checked c_deps c_defined] in *.
    assert (Hfresh : ~ In vn (map (fun a => snd (fst a)) acc)).
    { intros Hi. apply in_map_iff in Hi. destruct Hi as (a & Ea & Ha). destruct (I1 a Ha) as (ts & ix' & _ & _ & _ & _ & H5).
      apply Hnew. rewrite <- Ea. eapply dget_Some_key; exact H5. }
    split; cbn [fst snd c_tgt c_checked c_deps c_defined].
    + intros a Ha. apply in_app_iff in Ha. destruct Ha as [Ha|[<-|[]]].
      * destruct (I1 a Ha) as (ts & ix' & H1 & H2 & H3 & H4 & H5). exists ts, ix'. repeat split; auto.
        -- intros i Hi. apply in_app_iff. left. apply H4, Hi.
        -- rewrite dget_dset_other; [exact H5|]. intros E. subst vn. apply Hnew. eapply dget_Some_key; exact H5.
      * exists vs, ix. cbn [fst snd]. repeat split; auto.
        -- intros i Hi. apply in_app_iff. right; exact Hi.
        -- apply dget_dset_same.
    + rewrite map_app. cbn [map fst snd]. rewrite I5, I2. destruct acc; reflexivity.
    + rewrite map_app. apply NoDup_app_single; [exact I3|exact Hfresh].
    + apply ForallOrdPairs_app; [exact I4|]. intros a Ha ta ia tb ib E1 E2 i Hi1 Hi2. cbn [fst] in E2.
      rewrite Ht in E2. injection E2 as _ <-. destruct (I1 a Ha) as (ts & ix' & H1 & H2 & H3 & H4 & H5).
      rewrite H1 in E1. injection E1 as _ <-. eapply Hdis; [exact Hi2|apply H4, Hi1].
    + destruct acc; reflexivity.
Qed.

Lemma cinv_run sh l : cinv sh (run sh l).
Proof.
  unfold run. assert (G : forall st, cinv sh st -> cinv sh (fold_left (run1 sh) l st)).
  { induction l as [|a l IH]; intros st H; cbn [fold_left]; [exact H|]. apply IH, cinv_step, H. }
  apply G. split; cbn; try constructor. intros a [].
Qed.

(** C07 *)
Lemma assignments_disjoint sh l :
  let acc := snd (run sh l) in
  NoDup (map (fun a => snd (fst a)) acc) /\
  (forall k vn vs, In (k, vn, vs) acc -> exists ix, tgt_indices_of sh k = Ok (vs, ix) /\
     length ix = prod vs /\ NoDup ix /\ Forall (fun i => i < size_of sh) ix /\
     ((exists z, k = KeyInt z /\ z < 0) \/ Forall (fun i => 0 <= i) ix)) /\
  ForallOrdPairs (fun a b => forall ta ia tb ib,
     tgt_indices_of sh (fst (fst a)) = Ok (ta, ia) -> tgt_indices_of sh (fst (fst b)) = Ok (tb, ib) ->
     forall i, In i ia -> In i ib -> False) acc.
Proof.
  cbv zeta. destruct (cinv_run sh l) as [I1 I2 I3 I4 I5]. split; [exact I3|]. split; [|exact I4].
  intros k vn vs Hi. destruct (I1 _ Hi) as (ts & ix & H1 & H2 & H3 & H4 & H5). cbn [fst snd] in *. subst ts.
  exists ix. destruct (tgt_indices_props _ _ _ _ H1) as (P1 & P2 & P3 & P4). repeat split; auto.
  destruct P4 as [(z & -> & ->)|P4]; [|auto]. destruct (Z.lt_ge_cases z 0); [left; eauto|right; constructor; [assumption|constructor]].
Qed.

(** C08 *)
Lemma rejected_no_effect sh c k vn vs e :
  snd (setitem sh c k vn vs) = Err e ->
  fst (setitem sh c k vn vs) = c \/
  (e = ValueError /\ exists ix, tgt_indices_of sh k = Ok (vs, ix) /\ (exists i, In i ix /\ In i (c_checked c)) /\
   fst (setitem sh c k vn vs) = Concat (dset (c_tgt c) vn (vs, ix)) (c_checked c ++ ix) (c_defined c) (c_deps c)).
Proof.
  destruct (setitem_cases sh c k vn vs) as [[e' E]|(ix & Ht & Hlt & Hnew & [(Hex & E)|(Hdis & E)])]; rewrite E; cbn [fst snd].
  - auto.
  - intros H. injection H as <-. right. split; [reflexivity|]. exists ix. split; [exact Ht|]. split; [exact Hex|reflexivity].
  - discriminate.
Qed.

Lemma rejected_later sh c k vn vs e k2 vn2 vs2 :
  snd (setitem sh c k vn vs) = Err e -> vn2 <> vn ->
  (forall ix s2 ix2, tgt_indices_of sh k = Ok (vs, ix) -> tgt_indices_of sh k2 = Ok (s2, ix2) -> forall i, In i ix2 -> ~ In i ix) ->
  snd (setitem sh (fst (setitem sh c k vn vs)) k2 vn2 vs2) = snd (setitem sh c k2 vn2 vs2).
Proof.
  intros H Hn Hd. destruct (rejected_no_effect _ _ _ _ _ _ H) as [->|(_ & ix & Ht & _ & ->)]; [reflexivity|].
  unfold setitem. cbn [c_tgt c_checked c_defined c_deps]. destruct (tgt_indices_of sh k2) as [[s2 ix2]|e2] eqn:E2; [|reflexivity].
  specialize (Hd _ _ _ Ht eq_refl).
  destruct (negb (shape_eqb s2 vs2)); [reflexivity|]. destruct (amax_ge ix2 (size_of sh)); [reflexivity|].
  assert (M : dmem vn2 (dset (c_tgt c) vn (vs, ix)) = dmem vn2 (c_tgt c)).
  { destruct (dmem vn2 (c_tgt c)) eqn:D.
    - apply dmem_spec. apply dmem_spec in D. apply In_dkeys_dset. right. exact D.
    - apply dmem_false. apply dmem_false in D. intros X. apply In_dkeys_dset in X. destruct X as [->|X]; contradiction. }
  rewrite M. destruct (dmem vn2 (c_tgt c)); [reflexivity|].
  assert (X : existsb (fun i => zmem i (c_checked c ++ ix)) ix2 = existsb (fun i => zmem i (c_checked c)) ix2).
  { clear -Hd. induction ix2 as [|i r IH]; [reflexivity|]. cbn [existsb]. rewrite IH by (intros; apply Hd; right; assumption). f_equal.
    unfold zmem. rewrite existsb_app. destruct (existsb (Z.eqb i) ix) eqn:E; [|apply orb_false_r].
    exfalso. apply existsb_exists in E. destruct E as (j & Hj & E). apply Z.eqb_eq in E. subst j. exact (Hd i (or_introl eq_refl) Hj). }
  rewrite X. clear X. destruct (existsb (fun i => zmem i (c_checked c)) ix2); reflexivity.
Qed.

(** ** Positions written by an accepted assignment *)
Lemma kelem_slices_selects sh es ss ls : kelem_slices es = Ok ss -> Forall3 axis_ok sh ss ls -> all_selects sh es ls.
Proof.
  revert es ss ls. induction sh as [|n sh IH]; intros es ss ls Hs F; inversion F as [|n0 s0 l sh0 ss' ls' H1 H2 E1 E2]; subst.
  - destruct es as [|e es]; [exact I|]. cbn [kelem_slices] in Hs. inv_bind Hs. inv_bind Hs. discriminate.
  - destruct es as [|e es]; [discriminate|]. cbn [kelem_slices] in Hs. inv_bind Hs. rename E into Ee. inv_bind Hs.
    injection Hs as <- <-. cbn [all_selects]. split; [|eapply IH; eassumption].
    destruct e as [z|s|]; cbn [kelem_slice] in Ee; [| |discriminate]; injection Ee as <-; cbn [selects].
    + destruct H1 as [H1 H3]. apply single_slice in H1. destruct H1 as [-> H1]. inversion H3; subst. left. split; [lia|reflexivity].
    + apply axis_py, H1.
Qed.

Lemma ravel_1d n l : map (ravel [n]) (cartesian [l]) = l.
Proof.
  cbn [cartesian]. induction l as [|x l IH]; [reflexivity|]. cbn [flat_map map app]. cbn [ravel]. unfold size_of. cbn [prod].
  f_equal; [lia|exact IH].
Qed.

Lemma at_flat_1d n l : Forall (fun i => 0 <= i < Z.of_nat n) l -> Forall2 (at_flat [n]) l (cartesian [l]).
Proof.
  intros H. rewrite <- (ravel_1d n l) at 1. apply ravel_list_at_flat. intros idx Hi.
  apply In_cartesian in Hi. inversion Hi as [|x ? r ? Hx Hr]; subst. inversion Hr; subst. cbn [in_dims].
  rewrite Forall_forall in H. apply H in Hx. rewrite !andb_true_iff, Z.leb_le, Z.ltb_lt. lia.
Qed.

Lemma write_positions sh k ts ix :
  tgt_indices_of sh k = Ok (ts, ix) -> Forall (fun i => i < size_of sh) ix ->
  match k with KeyTuple _ => True | KeyInt z => 0 <= z /\ length sh = 1%nat | _ => length sh = 1%nat end ->
  exists ls, all_selects sh (components k) ls /\ Forall2 (at_flat sh) ix (cartesian ls) /\ ts = map (@length Z) ls.
Proof.
  intros H Hlt Hk. destruct k as [z|s|es|]; cbn [tgt_indices_of components] in *; [| | |discriminate].
  - injection H as <- <-. destruct Hk as [Hz Hl]. destruct sh as [|n [|? ?]]; try discriminate.
    unfold size_of in Hlt. cbn [prod] in Hlt. inversion Hlt; subst.
    exists [[z]]. split; [cbn [all_selects selects]; split; [left; split; [lia|reflexivity]|exact I]|].
    split; [apply at_flat_1d; constructor; [lia|constructor]|reflexivity].
  - destruct sh as [|n [|? ?]]; try discriminate. inv_bind H. injection H as <- <-. rename a into l.
    unfold size_of in Hlt. cbn [prod] in Hlt. rewrite Nat.mul_1_r in Hlt.
    destruct (slice_is_python _ _ _ (Nat2Z.is_nonneg n) E Hlt) as (El & Hb & _ & _).
    exists [l]. split; [cbn [all_selects selects]; split; [exact El|exact I]|]. split; [apply at_flat_1d, Hb|reflexivity].
  - inv_bind H. rename E into E0. inv_bind H. rename E into E1. inv_bind H. injection H as <- <-.
    destruct (ravel_sound _ _ _ _ E1 E) as (F3 & HA & _). exists a0. split; [eapply kelem_slices_selects; eassumption|auto].
Qed.

(** C07 in terms of what is recorded *)
Lemma recorded_disjoint sh l c acc : run sh l = (c, acc) ->
  NoDup (map (fun a => snd (fst a)) acc) /\
  c_deps c = map (fun a => snd (fst a)) acc /\
  (c_defined c = true <-> acc <> []) /\
  (forall k vn vs, In (k, vn, vs) acc -> exists ix, dget (c_tgt c) vn = Some (vs, ix) /\
       tgt_indices_of sh k = Ok (vs, ix) /\
     length ix = prod vs /\ NoDup ix /\ Forall (fun i => i < size_of sh) ix /\
     ((exists z, k = KeyInt z /\ z < 0 /\ ix = [z]) \/ Forall (fun i => 0 <= i) ix)) /\
  (forall k1 n1 s1 k2 n2 s2 t1 i1 t2 i2, In (k1, n1, s1) acc -> In (k2, n2, s2) acc -> n1 <> n2 ->
     dget (c_tgt c) n1 = Some (t1, i1) -> dget (c_tgt c) n2 = Some (t2, i2) ->
     forall i, In i i1 -> In i i2 -> False).
Proof.
  intros Hrun. pose proof (cinv_run sh l) as I. rewrite Hrun in I. destruct I as [I1 I2 I3 I4 I5]. cbn [fst snd] in *.
  split; [exact I3|]. split; [exact I2|]. split; [rewrite I5; destruct acc; cbn; split; congruence|]. split.
  - intros k vn vs Hi. destruct (I1 _ Hi) as (ts & ix & H1 & H2 & H3 & H4 & H5). cbn [fst snd] in *. subst ts.
    exists ix. destruct (tgt_indices_props _ _ _ _ H1) as (P1 & P2 & P3 & P4). repeat split; auto.
    destruct P4 as [(z & -> & ->)|P4]; [|auto]. destruct (Z.lt_ge_cases z 0); [left; eauto|right; constructor; [assumption|constructor]].
  - intros k1 n1 s1 k2 n2 s2 t1 i1 t2 i2 H1 H2 Hne G1 G2 i Hi1 Hi2.
    destruct (I1 _ H1) as (ts1 & ix1 & A1 & A2 & A3 & A4 & A5). destruct (I1 _ H2) as (ts2 & ix2 & B1 & B2 & B3 & B4 & B5).
    cbn [fst snd] in *. rewrite A5 in G1. rewrite B5 in G2. injection G1 as <- <-. injection G2 as <- <-.
    assert (G : forall l, ForallOrdPairs (fun a b => forall ta ia tb ib,
       tgt_indices_of sh (fst (fst a)) = Ok (ta, ia) -> tgt_indices_of sh (fst (fst b)) = Ok (tb, ib) ->
       forall i, In i ia -> In i ib -> False) l -> In (k1, n1, s1) l -> In (k2, n2, s2) l -> False).
    { clear -A1 B1 Hi1 Hi2 Hne. induction 1 as [|a l' Ha Hl IH]; [intros []|]. rewrite Forall_forall in Ha.
      intros [->|Hx] [E|Hy].
      - injection E as <- <- <-. congruence.
      - eapply (Ha _ Hy); [exact A1|exact B1|exact Hi1|exact Hi2].
      - subst a. eapply (Ha _ Hx); [exact B1|exact A1|exact Hi2|exact Hi1].
      - auto. }
    eapply G; eassumption.
Qed.

Lemma getitem_sound sh d k o :
  dinv sh d -> no_other k -> snd (getitem sh d k) = Ok o ->
  exists ls s ix, all_selects sh (components k) ls /\
    nth_error (d_outs (fst (getitem sh d k))) o = Some (s, ix) /\
    s = map (@length Z) ls /\ Forall2 (at_flat sh) ix (cartesian ls) /\
    NoDup ix /\ Forall (fun f => 0 <= f < size_of sh) ix /\ length ix = prod s.
Proof.
  intros I HX H. apply getitem_ok_key in H. destruct H as (nk & Hn & Hk).
  apply (dinv_step sh d k) in I. destruct I as (_ & _ & _ & I4). destruct (I4 _ _ (kget_In _ _ _ Hk)) as (ix & Hix & Hnth).
  destruct (src_indices_sound _ _ _ _ HX Hn Hix) as (ls & S1 & S2 & S3 & S4 & S5 & S6).
  exists ls, (val_shape sh nk), ix. repeat (split; [assumption|]). exact S6.
Qed.

Lemma reads_sound sh ks k o : no_other k -> snd (getitem sh (reads sh ks) k) = Ok o ->
  exists ls s ix, all_selects sh (components k) ls /\
    nth_error (d_outs (reads sh (ks ++ [k]))) o = Some (s, ix) /\
    s = map (@length Z) ls /\ Forall2 (at_flat sh) ix (cartesian ls) /\
    NoDup ix /\ Forall (fun f => 0 <= f < size_of sh) ix /\ length ix = prod s.
Proof.
  intros HX H. rewrite reads_app. cbn [fold_left]. apply getitem_sound; [apply dinv_reads|exact HX|exact H].
Qed.

(** Two writes to the same element, one through a negative index, are both accepted. *)
Lemma negative_overlap : exists l c, run [4%nat] l = (c, l) /\
  l = [(KeyInt (-1), "a"%string, [1%nat]); (KeyInt 3, "b"%string, [1%nat])] /\
  selects 4 (KI (-1)) [3] /\ selects 4 (KI 3) [3].
Proof.
  eexists _, _. split; [|split; [reflexivity|]]; [vm_compute; reflexivity|].
  split; cbn [selects]; [right; split; [lia|split; [lia|reflexivity]]|left; split; [lia|reflexivity]].
Qed.

Lemma overlap_pollutes : exists sh c k vn vs e k',
  (exists l, c = fst (run sh l)) /\ snd (setitem sh c k vn vs) = Err e /\
  snd (setitem sh c k' vn vs) = Ok tt /\
  snd (setitem sh (fst (setitem sh c k vn vs)) k' vn vs) = Err KeyError.
Proof.
  exists [4%nat], (fst (run [4%nat] [(KeyInt 0, "a"%string, [1%nat])])), (KeyInt 0), "b"%string, [1%nat], ValueError, (KeyInt 1).
  split; [eexists; reflexivity|]. repeat split; vm_compute; reflexivity.
Qed.
