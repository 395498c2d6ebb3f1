(** What the entries of a Parameters object look like after any history. *)
From Coq Require Import QArith.
From Verif Require Import PyBase ParamModel ParamSpec ParamProofs.
Set Implicit Arguments.
Close Scope Q_scope.
Open Scope list_scope.

Definition tidy (st : params) : Prop :=
  forall n m, dget (p_dict st) n = Some m ->
    (m_set m = match m_val m with Some _ => true | None => false end) /\
    (p_all_recordable st = true -> m_recordable m = true).

Lemma tidy_declare st n d : tidy st -> tidy (fst (declare st n d)).
Proof.
  intros T. destruct (well_formedb d) eqn:W.
  - apply well_formedb_spec in W. rewrite (declare_wf st n W); simpl. intros x m; simpl.
    destruct (String.eqb_spec x n) as [->|Hne].
    + rewrite dget_dset_same. intros E; injection E as <-; simpl. split.
      * reflexivity.
      * destruct (d_recordable d); [auto|discriminate].
    + rewrite dget_dset_other by exact Hne. intros E. destruct (T _ _ E) as [H1 H2].
      split; [exact H1|]. destruct (d_recordable d); simpl; [exact H2|discriminate].
  - assert (W' : ~ well_formed d) by (intros W'; apply well_formedb_spec in W'; congruence).
    destruct (declare_bad st n W') as [-> _]. exact T.
Qed.

Lemma tidy_undeclare st n : NoDup (dkeys (p_dict st)) -> tidy st -> tidy (fst (undeclare st n)).
Proof.
  intros HN T x m; simpl. destruct (String.eqb_spec x n) as [->|Hne].
  - rewrite dget_ddel_same by exact HN. discriminate.
  - rewrite dget_ddel_other by exact Hne. apply T.
Qed.

Lemma tidy_set st n v : tidy st -> tidy (fst (setitem st n v)).
Proof.
  intros T. unfold setitem. destruct (dget (p_dict st) n) as [m|] eqn:E; [|exact T].
  destruct (p_read_only st); [exact T|]. destruct (assert_valid n m v); [|exact T].
  intros x m'; simpl. destruct (String.eqb_spec x n) as [->|Hne].
  - rewrite dget_dset_same. intros E'; injection E' as <-; simpl. split; [reflexivity|].
    apply (T _ _ E).
  - rewrite dget_dset_other by exact Hne. apply T.
Qed.

Lemma tidy_update l : forall st, tidy st -> tidy (fst (update st l)).
Proof.
  induction l as [|[n v] l IH]; intros st T; simpl; [exact T|].
  pose proof (tidy_set n v T) as T'. destruct (setitem st n v) as [st' [e|]]; simpl in *; auto.
Qed.

Lemma NoDup_exec st c : NoDup (dkeys (p_dict st)) -> NoDup (dkeys (p_dict (fst (exec st c)))).
Proof.
  intros HN. destruct c as [n d|n|n v|l]; simpl.
  - destruct (well_formedb d) eqn:W.
    + apply well_formedb_spec in W. rewrite (declare_wf st n W); simpl. apply NoDup_dset; exact HN.
    + assert (W' : ~ well_formed d) by (intros W'; apply well_formedb_spec in W'; congruence).
      destruct (declare_bad st n W') as [-> _]. exact HN.
  - apply NoDup_ddel; exact HN.
  - unfold setitem. destruct (dget (p_dict st) n) as [m|]; [|exact HN].
    destruct (p_read_only st); [exact HN|]. destruct (assert_valid n m v); [|exact HN].
    simpl. apply NoDup_dset; exact HN.
  - revert st HN. induction l as [|[n v] l IH]; intros st HN; simpl; [exact HN|].
    assert (HN' : NoDup (dkeys (p_dict (fst (setitem st n v))))).
    { unfold setitem. destruct (dget (p_dict st) n) as [m|]; [|exact HN].
      destruct (p_read_only st); [exact HN|]. destruct (assert_valid n m v); [|exact HN].
      simpl. apply NoDup_dset; exact HN. }
    destruct (setitem st n v) as [st' [e|]]; simpl in *; auto.
Qed.

Lemma tidy_all h : forall st, NoDup (dkeys (p_dict st)) -> tidy st -> tidy (exec_all st h).
Proof.
  induction h as [|c h IH]; intros st HN T; simpl; [exact T|].
  apply IH; [apply NoDup_exec; exact HN|].
  destruct c as [n d|n|n v|l]; simpl.
  - apply tidy_declare; exact T.
  - apply tidy_undeclare; assumption.
  - apply tidy_set; exact T.
  - apply tidy_update; exact T.
Qed.

Lemma tidy_reach ro h : tidy (exec_all (p_init ro) h).
Proof. apply tidy_all; [constructor|]. intros n m E; discriminate E. Qed.

Lemma dget_filter {V} (f : V -> bool) (d : dict V) n : NoDup (dkeys d) ->
  dget (filter (fun e => f (snd e)) d) n =
  match dget d n with Some v => if f v then Some v else None | None => None end.
Proof.
  induction d as [|[k v] d IH]; simpl; intros HN; [reflexivity|].
  inversion HN as [|? ? Hni Hnd]; subst. destruct (f v) eqn:Ef; simpl.
  - destruct (String.eqb_spec n k) as [->|]; [rewrite Ef; reflexivity|auto].
  - rewrite (IH Hnd). destruct (String.eqb_spec n k) as [->|]; [|reflexivity].
    rewrite (proj2 (dget_None _ _) Hni), Ef. reflexivity.
Qed.

Lemma In_filter_keys {V} (f : string * V -> bool) (d : dict V) n :
  In n (dkeys (filter f d)) -> In n (dkeys d).
Proof.
  unfold dkeys. rewrite !in_map_iff. intros ([k v] & E & H). apply filter_In in H.
  exists (k, v). tauto.
Qed.

Lemma copied_dget ro h n :
  let st := exec_all (p_init ro) h in
  dget (p_dict (copied st)) n =
  match dget (p_dict st) n with Some m => if m_recordable m then Some m else None | None => None end.
Proof.
  intros st. unfold copied. destruct (p_all_recordable st) eqn:E.
  - destruct (dget (p_dict st) n) as [m|] eqn:Eg; [|reflexivity].
    destruct (tidy_reach ro h _ Eg) as [_ H]. fold st in H. rewrite (H E). reflexivity.
  - simpl. apply dget_filter. destruct (entry_reach ro h) as (_ & HN & _). exact HN.
Qed.

Lemma setitem_copied ro h n v :
  let st := exec_all (p_init ro) h in
  snd (setitem (copied st) n v) =
  match dget (p_dict st) n with
  | Some m => if m_recordable m then snd (setitem st n v) else Some KeyError
  | None => Some KeyError
  end.
Proof.
  intros st. pose proof (copied_dget ro h n) as C. cbv zeta in C. fold st in C.
  unfold setitem. rewrite C.
  destruct (dget (p_dict st) n) as [m|]; [|reflexivity].
  destruct (m_recordable m); [|reflexivity].
  assert (E : p_read_only (copied st) = p_read_only st) by (unfold copied; destruct (p_all_recordable st); reflexivity).
  rewrite E. destruct (p_read_only st); [reflexivity|].
  destruct (assert_valid n m v); reflexivity.
Qed.
