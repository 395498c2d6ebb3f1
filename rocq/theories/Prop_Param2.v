(** C61 (listing the values) and C94: copies of a Parameters object. *)
From Coq Require Import QArith.
From Verif Require Import PyBase ParamModel ParamSpec ParamProofs ParamProofs2 Prop_Param.
Set Implicit Arguments.
Close Scope Q_scope.
Open Scope list_scope.

(** [items()] lists every declared name exactly once, in the order of iteration, with
    the value that reading it gives; a name that cannot be read because it has no
    value yet is listed as well, with a placeholder that is no value. *)
Theorem C61_items : forall ro h,
  let st := exec_all (p_init ro) h in
  map fst (items st) = names st /\
  (forall n v, In (n, Some v) (items st) <-> getitem st n = Ok v) /\
  (forall n, In (n, None) (items st) <-> getitem st n = Err RuntimeError) /\
  (forall n, In (n, None) (items st) -> exists d, declared h n = Some d /\ d_default d = None).
Proof.
  intros ro h st. destruct (entry_reach ro h) as (_ & HN & E). fold st in HN, E.
  pose proof (tidy_reach ro h) as T. fold st in T.
  assert (Hin : forall n o, In (n, o) (items st) <-> exists m, dget (p_dict st) n = Some m /\ m_val m = o).
  { intros n o. unfold items. rewrite in_map_iff. split.
    - intros ([k m] & Ek & Hi). injection Ek as <- <-. exists m. split; [|reflexivity].
      apply In_dget; assumption.
    - intros (m & Hg & <-). exists (n, m). split; [reflexivity|]. apply dget_In; exact Hg. }
  assert (Hget : forall n m, dget (p_dict st) n = Some m ->
            getitem st n = match m_val m with Some v => Ok v | None => Err RuntimeError end).
  { intros n m Hg. unfold getitem. rewrite Hg. destruct (T _ _ Hg) as [Hs _]. rewrite Hs.
    destruct (m_val m); reflexivity. }
  assert (Hno : forall n, dget (p_dict st) n = None -> getitem st n = Err KeyError)
    by (intros n Hg; unfold getitem; rewrite Hg; reflexivity).
  split; [|split; [|split]].
  - unfold items, names, dkeys. rewrite map_map. reflexivity.
  - intros n v. rewrite Hin. split.
    + intros (m & Hg & Hv). rewrite (Hget _ _ Hg), Hv. reflexivity.
    + intros H. destruct (dget (p_dict st) n) as [m|] eqn:Hg; [|rewrite (Hno _ Hg) in H; discriminate].
      exists m. split; [reflexivity|]. rewrite (Hget _ _ Hg) in H. destruct (m_val m); congruence.
  - intros n. rewrite Hin. split.
    + intros (m & Hg & Hv). rewrite (Hget _ _ Hg), Hv. reflexivity.
    + intros H. destruct (dget (p_dict st) n) as [m|] eqn:Hg; [|rewrite (Hno _ Hg) in H; discriminate].
      exists m. split; [reflexivity|]. rewrite (Hget _ _ Hg) in H. destruct (m_val m); congruence.
  - intros n Hi. apply Hin in Hi. destruct Hi as (m & Hg & Hv).
    assert (R : forall h n, getitem (exec_all (p_init ro) h) n = Err RuntimeError ->
              exists d, declared h n = Some d /\ d_default d = None).
    { clear. intros h. induction h as [|c h IH] using rev_ind; intros n; [discriminate|].
      assert (Ex : forall st l c, exec_all st (l ++ [c]) = fst (exec (exec_all st l) c)).
      { intros st l; revert st; induction l as [|a l IHl]; intros st c0; simpl; [reflexivity|apply IHl]. }
      assert (Dx : forall l c n s, declared_from s (l ++ [c]) n = declared_from (declared_from s l n) [c] n).
      { clear. induction l as [|a l IHl]; intros c n s; [reflexivity|].
        destruct a as [m d|m|m v|l0]; cbn [app declared_from]; apply IHl. }
      rewrite Ex. unfold declared. rewrite Dx. fold (declared h n).
      set (st := exec_all (p_init ro) h) in *. destruct c as [m d|m|m v|l]; simpl.
      - destruct (well_formedb d) eqn:W.
        + assert (W' := W). apply well_formedb_spec in W'.
          destruct (String.eqb_spec n m) as [->|Hne]; simpl.
          * intros H. exists d. split; [reflexivity|].
            destruct (C61_reading ro h) as (_ & H2 & _). destruct (H2 m d W') as [H3 _].
            fold st in H3. rewrite H3 in H. destruct (d_default d); congruence.
          * intros H. apply IH. destruct (C61_reading ro h) as (_ & H2 & _).
            destruct (H2 m d W') as [_ H3]. fold st in H3. rewrite <- (H3 n Hne). exact H.
        + rewrite andb_false_r. intros H. apply IH.
          assert (W' : ~ well_formed d) by (intros W'; apply well_formedb_spec in W'; congruence).
          destruct (declare_bad st m W') as [Hb _]. rewrite Hb in H. exact H.
      - destruct (C61_reading ro h) as (_ & _ & _ & H2). destruct (H2 m) as [H3 H4]. fold st in H3, H4.
        destruct (String.eqb_spec n m) as [->|Hne]; simpl.
        + intros H. simpl in H3. rewrite H3 in H. discriminate.
        + intros H. apply IH. rewrite <- (H4 n Hne). exact H.
      - intros H. apply IH. pose proof (C34_assignment ro h m v) as A. cbv zeta in A. fold st in A.
        destruct (setitem st m v) as [st' e]. destruct A as (_ & A1 & A2 & A3 & _). simpl in H.
        destruct e as [e|]; [rewrite A2 in H by congruence; exact H|].
        destruct (String.eqb_spec n m) as [->|Hne]; [rewrite (A1 eq_refl) in H; discriminate|].
        rewrite <- (A3 n Hne). exact H.
      - intros H. apply IH. destruct (C35_update_partial ro h l) as (l1 & l2 & _ & _ & _ & _ & Hu).
        fold st in Hu. rewrite Hu in H. destruct (dget (rev l1) n); [discriminate|exact H]. }
    apply (R h n). fold st. rewrite (Hget _ _ Hg), Hv. reflexivity.
Qed.

(** *** C94 copies *)

(** A copy of a Parameters object reads exactly as the original for every name whose
    declaration in force is recordable. *)
Theorem C94_copy_partial : forall ro h n,
  let st := exec_all (p_init ro) h in
  (forall d, declared h n = Some d -> d_recordable d = true ->
     getitem (copied st) n = getitem st n /\ contains (copied st) n = true /\
     forall v, snd (setitem (copied st) n v) = snd (setitem st n v)) /\
  (forall d, declared h n = Some d -> d_recordable d = false ->
     getitem (copied st) n = Err KeyError /\ contains (copied st) n = false /\
     forall v, snd (setitem (copied st) n v) = Some KeyError) /\
  (declared h n = None -> contains (copied st) n = false).
Proof.
  intros ro h n st. pose proof (copied_dget ro h n) as C. cbv zeta in C. fold st in C.
  destruct (entry_reach ro h) as (_ & HN & E). fold st in HN, E. specialize (E n).
  assert (Hc : contains (copied st) n = match dget (p_dict (copied st)) n with Some _ => true | None => false end).
  { unfold contains. destruct (dget (p_dict (copied st)) n) eqn:Eg.
    - apply dmem_spec. eapply dget_Some_key; exact Eg.
    - apply dmem_false. apply dget_None; exact Eg. }
  split; [|split].
  - intros d HD Hr. destruct (dget (p_dict st) n) as [m|] eqn:Eg; [|congruence].
    destruct E as (d' & val & set & HD' & W & Em & _). rewrite HD in HD'; injection HD' as <-.
    assert (Hm : m_recordable m = true) by (rewrite Em; exact Hr).
    rewrite Hc, C, Hm. split; [unfold getitem; rewrite C, Hm, Eg; reflexivity|].
    split; [reflexivity|]. intros v. pose proof (setitem_copied ro h n v) as Q. cbv zeta in Q. fold st in Q. rewrite Q.
    rewrite Eg, Hm. reflexivity.
  - intros d HD Hr. destruct (dget (p_dict st) n) as [m|] eqn:Eg; [|congruence].
    destruct E as (d' & val & set & HD' & W & Em & _). rewrite HD in HD'; injection HD' as <-.
    assert (Hm : m_recordable m = false) by (rewrite Em; exact Hr).
    rewrite Hc, C, Hm. split; [unfold getitem; rewrite C, Hm; reflexivity|].
    split; [reflexivity|]. intros v. pose proof (setitem_copied ro h n v) as Q. cbv zeta in Q. fold st in Q. rewrite Q.
    rewrite Eg, Hm. reflexivity.
  - intros HD. destruct (dget (p_dict st) n) as [m|] eqn:Eg.
    + destruct E as (d' & _ & _ & HD' & _). congruence.
    + rewrite Hc, C. reflexivity.
Qed.

(** The order of the names of a copy is that of the original. *)
Theorem C94_copy_order : forall ro h,
  let st := exec_all (p_init ro) h in
  exists keep, names (copied st) = filter keep (names st).
Proof.
  intros ro h st. exists (fun n => contains (copied st) n). 
  destruct (entry_reach ro h) as (_ & HN & _). fold st in HN.
  pose proof (copied_dget ro h) as C. cbv zeta in C. fold st in C.
  assert (K : forall n, contains (copied st) n = match dget (p_dict st) n with Some m => m_recordable m | None => false end).
  { intros n. unfold contains. specialize (C n).
    destruct (dget (p_dict (copied st)) n) as [m|] eqn:Eg.
    - assert (D : dmem n (p_dict (copied st)) = true) by (apply dmem_spec; eapply dget_Some_key; exact Eg).
      rewrite D. destruct (dget (p_dict st) n) as [m'|]; [|discriminate]. destruct (m_recordable m'); congruence.
    - assert (D : dmem n (p_dict (copied st)) = false) by (apply dmem_false; apply dget_None; exact Eg).
      rewrite D. destruct (dget (p_dict st) n) as [m'|]; [|reflexivity]. destruct (m_recordable m'); congruence. }
  assert (F : forall d : dict meta, NoDup (dkeys d) ->
     map fst (filter (fun e => m_recordable (snd e)) d) =
     filter (fun n => match dget d n with Some m => m_recordable m | None => false end) (dkeys d)).
  { clear. induction d as [|[k m] d IH]; simpl; intros HN; [reflexivity|].
    inversion HN as [|? ? Hni Hnd]; subst. rewrite String.eqb_refl.
    assert (Eq : filter (fun n => match (if (n =? k)%string then Some m else dget d n) with
                   Some m0 => m_recordable m0 | None => false end) (dkeys d) =
                 filter (fun n => match dget d n with Some m0 => m_recordable m0 | None => false end) (dkeys d)).
    { apply filter_ext_in. intros a Ha. destruct (String.eqb_spec a k) as [->|]; [contradiction|reflexivity]. }
    destruct (m_recordable m); simpl; rewrite (IH Hnd), <- Eq; reflexivity. }
  rewrite (filter_ext _ _ K). unfold names at 2. rewrite <- (F _ HN).
  unfold copied, names. destruct (p_all_recordable st) eqn:Ea; [|reflexivity].
  pose proof (tidy_reach ro h) as T. fold st in T.
  unfold dkeys. f_equal. symmetry.
  assert (A : forall e, In e (p_dict st) -> m_recordable (snd e) = true).
  { intros [k m] Hi. simpl. apply (T k m); [apply In_dget; assumption|exact Ea]. }
  revert A. generalize (p_dict st). induction d as [|e d IH]; simpl; intros A; [reflexivity|].
  rewrite (A e (or_introl eq_refl)). f_equal. apply IH; auto.
Qed.

Definition secret (v : pv) : decl :=
  {| d_default := Some v; d_values := VsNone; d_types := TsNone; d_upper := None; d_lower := None;
     d_check := None; d_allow_none := false; d_recordable := false |}.

(** The full claim is false: a parameter that is not recordable is lost by copying, not
    only left out of a record. *)
Theorem C94_copy_reads_alike_refuted : exists h n v,
  let st := exec_all (p_init false) h in
  declarations_accepted h (p_init false) /\ getitem st n = Ok v /\ getitem (copied st) n <> getitem st n.
Proof.
  exists [CDeclare "a" (secret (PInt 1)); CDeclare "b" plain; CSet "b" (PInt 2)], "a"%string, (PInt 1).
  split; [|split; [reflexivity|discriminate]].
  intros h1 n d h2 E. destruct h1 as [|c1 [|c2 [|c3 [|c4 h1]]]]; try discriminate;
    injection E; intros; subst; try discriminate; reflexivity.
Qed.

(** *** Non-vacuity *)
Example items_sample :
  items (exec_all (p_init false) [CDeclare "a" plain; CDeclare "b" (int_upto (Some (PInt 2)) 5); CSet "b" (PInt 3);
                                  CDeclare "c" plain; CUndeclare "c"]) =
  [("a"%string, None); ("b"%string, Some (PInt 3))].
Proof. reflexivity. Qed.
Example copied_sample :
  items (copied (exec_all (p_init false) [CDeclare "a" (secret (PInt 1)); CDeclare "b" plain; CSet "b" (PInt 2)])) =
  [("b"%string, Some (PInt 2))].
Proof. reflexivity. Qed.

Print Assumptions C61_items.
Print Assumptions C94_copy_partial.
Print Assumptions C94_copy_order.
Print Assumptions C94_copy_reads_alike_refuted.
