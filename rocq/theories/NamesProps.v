(** Lemmas behind the naming theorems. *)
From Verif Require Import PyBase NamesModel NamesProofs PromotionsModel PromotionsSpec
  PromotionsProofs PromotionsProofs2.
Local Open Scope N_scope.

Lemma hex_loop_nonempty f n p s r : hex_loop f n p s = Some r -> r <> ""%string.
Proof.
  revert n p s. induction f as [|f IH]; intros n p s; cbn [hex_loop]; [discriminate|].
  destruct (next_num n =? 0).
  - intros H. injection H as <-. destruct (drop_last p); discriminate.
  - apply IH.
Qed.

Lemma node_ids_distinct : forall n : nat, N.of_nat n <= 62 * 63 ^ 4 ->
    NoDup (node_ids n) /\ forall k, In k (node_ids n) -> exists s, k = Some s /\ s <> ""%string.
Proof.
  intros n H. split; [apply node_ids_NoDup, H|]. intros k Hk. unfold node_ids in Hk.
  apply in_map_iff in Hk. destruct Hk as (i & <- & _).
  destruct (gen_hex_name (N.of_nat i)) as [s|] eqn:Hs; [|destruct (gen_hex_name_total _ Hs)]. exists s. split; [reflexivity|].
  eapply hex_loop_nonempty; exact Hs.
Qed.

Lemma node_ids_collide : exists i j : N, i <> j /\ exists s, gen_hex_name i = Some s /\ gen_hex_name j = Some s.
Proof. exists 1, (62 * 63 ^ 4 + 1). split; [discriminate|]. exists "_0001"%string. split; vm_compute; reflexivity. Qed.

Lemma node_ids_threshold : gen_hex_name 0 = gen_hex_name (62 * 63 ^ 4).
Proof. vm_compute. reflexivity. Qed.

Lemma auto_name_is_next_id : forall (n k : nat), (S k < n)%nat ->
    nth_error (node_ids n) (S k) = Some (subgraph_auto_name (N.of_nat k)).
Proof.
  intros n k H. unfold node_ids. rewrite nth_error_map.
  rewrite (nth_error_nth' (seq 0 n) O) by (rewrite seq_length; exact H).
  rewrite seq_nth by exact H. cbn [option_map]. unfold subgraph_auto_name. do 2 f_equal. lia.
Qed.

Lemma all_chars_get f s : all_chars f s = true <-> forall i c, String.get i s = Some c -> f c = true.
Proof.
  induction s as [|d s IH]; cbn [all_chars].
  - split; [intros _ [|i] c; discriminate|reflexivity].
  - rewrite andb_true_iff, IH. split.
    + intros [H1 H2] [|i] c; cbn [String.get]; [intros E; injection E as <-; exact H1|apply H2].
    + intros H. split; [apply (H O); reflexivity|intros i c Hc; apply (H (S i)); exact Hc].
Qed.

Lemma accepted_characters : forall s, check_banned_chars s = Ok tt <->
    (forall i c, String.get i s = Some c ->
       let n := N_of_ascii c in
       48 <= n <= 57 \/ 65 <= n <= 90 \/ 97 <= n <= 122 \/ c = "_"%char).
Proof.
  intros s. rewrite check_ok_spec, all_chars_get.
  assert (G : forall c, char_ok c = true <-> (let n := N_of_ascii c in
       48 <= n <= 57 \/ 65 <= n <= 90 \/ 97 <= n <= 122 \/ c = "_"%char)).
  { intros c. unfold char_ok, is_alnum. cbv zeta. rewrite !orb_true_iff, !andb_true_iff, !N.leb_le, Ascii.eqb_eq. tauto. }
  split; intros H i c Hc; apply G; eauto.
Qed.

Lemma paths_unambiguous : forall p x q y,
    Forall (fun m => check_banned_chars m = Ok tt /\ m <> ""%string) p ->
    Forall (fun m => check_banned_chars m = Ok tt /\ m <> ""%string) q ->
    check_banned_chars x = Ok tt -> check_banned_chars y = Ok tt ->
    path_name p x = String.concat "." (p ++ [x]) /\
    (path_name p x = path_name q y -> p = q /\ x = y).
Proof.
  intros p x q y Hp Hq Hx Hy. split.
  - apply (path_name_dotted p x). eapply Forall_impl; [|exact Hp]. intros a [Ha Hn]. split; [|exact Hn].
    apply check_ok_spec in Ha. unfold has_dot. rewrite chars_no_dot by exact Ha. reflexivity.
  - apply path_name_inj; assumption.
Qed.

Lemma empty_name_ambiguous : exists p x q y, Forall (fun m => check_banned_chars m = Ok tt) p /\
    Forall (fun m => check_banned_chars m = Ok tt) q /\
    check_banned_chars x = Ok tt /\ check_banned_chars y = Ok tt /\
    path_name p x = path_name q y /\ p <> q.
Proof.
  exists [""%string], "x"%string, [], "x"%string. repeat split; try constructor; try reflexivity; [constructor|discriminate].
Qed.
