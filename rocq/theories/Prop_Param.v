(** C34, C35, C61: parameters of models and custom operations. *)
From Coq Require Import QArith.
From Verif Require Import PyBase ParamModel ParamSpec ParamProofs.
Set Implicit Arguments.
Close Scope Q_scope.
Open Scope list_scope.

(** Whatever can be read, after any history of calls (some of which may have raised),
    is the default of the declaration in force or satisfies that declaration. *)
Theorem C34_readable_is_default_or_valid : forall ro h n v,
  getitem (exec_all (p_init ro) h) n = Ok v ->
  exists d, declared h n = Some d /\ (d_default d = Some v \/ satisfies n d v).
Proof.
  intros ro h n v H. destruct (entry_reach ro h) as (_ & _ & E). specialize (E n).
  unfold getitem in H. destruct (dget _ n) as [m|]; [|discriminate].
  destruct E as (d & val & set & HD & W & -> & Hs). simpl in H.
  destruct set; [|discriminate]. destruct (Hs eq_refl) as (v' & -> & Hv').
  injection H as ->. exists d. split; [exact HD|]. destruct Hv' as [?|[_ ?]]; auto.
Qed.

(** If no declaration was rejected, whatever can be read satisfies the declaration in
    force: the values, types, bounds and check given there. *)
Theorem C34_readable_is_valid : forall ro h n v,
  declarations_accepted h (p_init ro) ->
  getitem (exec_all (p_init ro) h) n = Ok v ->
  exists d, declared h n = Some d /\ satisfies n d v.
Proof.
  intros ro h n v HA H. destruct (C34_readable_is_default_or_valid _ _ _ H) as (d & HD & [Hd|Hs]); [|eauto].
  exists d. split; [exact HD|].
  destruct (declared_from_In _ _ _ HD) as [E|(h1 & h2 & E)]; [discriminate|].
  destruct (accepted_default _ _ _ (HA _ _ _ _ E)) as [_ Hv]. auto.
Qed.

(** An assignment is accepted exactly when the parameter is declared, the dictionary
    is not read-only and the value satisfies the declaration; it is then read back. *)
Theorem C34_assignment : forall ro h n v,
  let st := exec_all (p_init ro) h in
  let (st', e) := setitem st n v in
  (e = None <-> ro = false /\ exists d, declared h n = Some d /\ satisfies n d v) /\
  (e = None -> getitem st' n = Ok v) /\
  (e <> None -> st' = st) /\
  (forall k, k <> n -> getitem st' k = getitem st k) /\
  (ro = true -> e = Some KeyError).
Proof.
  intros ro h n v st. pose proof (entry_reach ro h) as E. fold st in E.
  destruct (setitem_cases n v E) as [(d & HD & -> & Hsat & ->)|(Hno & e & -> & Hk)].
  - split; [|split; [|split; [|split]]]; try congruence.
    + split; [intros _; split; [reflexivity|exists d; auto]|reflexivity].
    + intros _. unfold getitem; simpl. rewrite dget_dset_same. reflexivity.
    + intros k Hk. unfold getitem; simpl. rewrite dget_dset_other by exact Hk. reflexivity.
  - split; [|split; [|split; [|split]]]; try congruence.
    + split; [congruence|]. intros (-> & d & HD & Hs).
      destruct Hno as [H|[H|(d' & H & Hn)]]; try congruence.
    + intros ->. rewrite Hk by auto. reflexivity.
Qed.

(** In a read-only dictionary only declared defaults can ever be read. *)
Theorem C34_read_only : forall h n v,
  getitem (exec_all (p_init true) h) n = Ok v ->
  exists d, declared h n = Some d /\ d_default d = Some v.
Proof.
  intros h n v H. destruct (entry_reach true h) as (_ & _ & E). specialize (E n).
  unfold getitem in H. destruct (dget _ n) as [m|]; [|discriminate].
  destruct E as (d & val & set & HD & W & -> & Hs). simpl in H.
  destruct set; [|discriminate]. destruct (Hs eq_refl) as (v' & -> & [Hv'|[Hv' _]]); [|discriminate].
  injection H as ->. exists d. auto.
Qed.

Definition plain : decl :=
  {| d_default := None; d_values := VsNone; d_types := TsNone; d_upper := None; d_lower := None;
     d_check := None; d_allow_none := false; d_recordable := true |}.
(** [declare(n, default=v, upper=u, types=t)] *)
Definition int_upto (v : option pv) (u : Z) : decl :=
  {| d_default := v; d_values := VsNone; d_types := TsType TyInt; d_upper := Some (PInt u);
     d_lower := Some (PInt 0); d_check := None; d_allow_none := false; d_recordable := true |}.

(** The claim fails for the default of a rejected declaration: the declaration raises
    but leaves the invalid default readable. *)
Theorem C34_rejected_default_refuted : exists h n d v,
  snd (declare (exec_all (p_init false) h) n d) = Some ValueError /\
  declared (h ++ [CDeclare n d]) n = Some d /\
  getitem (exec_all (p_init false) (h ++ [CDeclare n d])) n = Ok v /\
  ~ satisfies n d v.
Proof.
  exists [], "n"%string, (int_upto (Some (PInt 7)) 5), (PInt 7).
  repeat split; try reflexivity.
  intros [[[H _]|H] _]; [discriminate|].
  pose proof (w_upper H eq_refl) as H1. apply plt_not_above in H1. discriminate.
Qed.

(** A parameter declared with [types=bool] accepts every value equal to True or False,
    such as the integer 1, which is not a bool. *)
Theorem C34_bool_type_refuted : exists h n d v,
  d_types d = TsType TyBool /\
  declarations_accepted h (p_init false) /\ declared h n = Some d /\
  getitem (exec_all (p_init false) h) n = Ok v /\ ~ has_type v TyBool.
Proof.
  exists [CDeclare "flag" {| d_default := None; d_values := VsNone; d_types := TsType TyBool;
      d_upper := None; d_lower := None; d_check := None; d_allow_none := false; d_recordable := true |};
      CSet "flag" (PInt 1)], "flag"%string. eexists. exists (PInt 1).
  split; [|split; [|split; [reflexivity|split; [reflexivity|]]]].
  - reflexivity.
  - intros h1 n d h2 E. destruct h1 as [|c1 [|c2 [|c3 h1]]]; try discriminate;
      injection E; intros; subst; try discriminate. reflexivity.
  - intros H; inversion H.
Qed.

(** A parameter whose [types] were given as a list or set is accepted by [declare] but
    can never be assigned anything other than an allowed None. *)
Theorem C34_list_of_types_unusable : forall ro h n d ts v,
  declared h n = Some d -> d_types d = TsListOrSet ts -> ~ (v = PNone /\ none_allowed d) ->
  snd (setitem (exec_all (p_init ro) h) n v) <> None.
Proof.
  intros ro h n d ts v HD Ht Hn.
  pose proof (C34_assignment ro h n v) as H. cbv zeta in H.
  destruct (setitem _ n v) as [st' e]. destruct H as (H & _). simpl. intros He.
  apply H in He. destruct He as (_ & d' & HD' & [[Hs|Hs] _]).
  - rewrite HD in HD'; injection HD' as <-. contradiction.
  - rewrite HD in HD'; injection HD' as <-.
    assert (type_allowed (d_types d) v) as Ha by (apply (w_types Hs); congruence).
    rewrite Ht in Ha. inversion Ha.
Qed.

(** *** C61 reading, membership and iteration *)

(** Reading is determined call by call. *)
Theorem C61_reading : forall ro h,
  let st := exec_all (p_init ro) h in
  (forall n, getitem (p_init ro) n = Err KeyError) /\
  (forall n d, well_formed d ->
     getitem (fst (declare st n d)) n = match d_default d with Some v => Ok v | None => Err RuntimeError end /\
     forall k, k <> n -> getitem (fst (declare st n d)) k = getitem st k) /\
  (forall n d, ~ well_formed d -> fst (declare st n d) = st /\ snd (declare st n d) <> None) /\
  (forall n, getitem (fst (undeclare st n)) n = Err KeyError /\
     forall k, k <> n -> getitem (fst (undeclare st n)) k = getitem st k).
Proof.
  intros ro h st. repeat split.
  - rewrite (declare_wf _ _ H); simpl. unfold getitem; simpl. rewrite dget_dset_same; simpl.
    destruct (d_default d); reflexivity.
  - intros k Hk. rewrite (declare_wf _ _ H); simpl. unfold getitem; simpl.
    rewrite dget_dset_other by exact Hk. reflexivity.
  - apply declare_bad; assumption.
  - apply declare_bad; assumption.
  - unfold getitem; simpl. rewrite dget_ddel_same; [reflexivity|].
    destruct (entry_reach ro h) as (_ & HN & _). exact HN.
  - intros k Hk. unfold getitem; simpl. rewrite dget_ddel_other by exact Hk. reflexivity.
Qed.

(** The names listed and tested are exactly the declared ones, each once; reading any
    other name raises KeyError, reading a declared one never does. *)
Theorem C61_declared_names : forall ro h,
  let st := exec_all (p_init ro) h in
  NoDup (names st) /\
  (forall n, In n (names st) <-> exists d, declared h n = Some d) /\
  (forall n, contains st n = true <-> exists d, declared h n = Some d) /\
  (forall n, getitem st n = Err KeyError <-> declared h n = None).
Proof.
  intros ro h st. destruct (entry_reach ro h) as (_ & HN & E). fold st in HN, E.
  assert (Hin : forall n, In n (names st) <-> exists d, declared h n = Some d).
  { intros n. specialize (E n). unfold names. destruct (dget (p_dict st) n) as [m|] eqn:Eg.
    - destruct E as (d & _ & _ & HD & _). split; [eauto|]. intros _. eapply dget_Some_key; exact Eg.
    - apply dget_None in Eg. split; [contradiction|]. intros (d & HD). congruence. }
  split; [exact HN|]. split; [exact Hin|]. split.
  - intros n. rewrite <- Hin. unfold contains. apply dmem_spec.
  - intros n. specialize (E n). unfold getitem. destruct (dget (p_dict st) n) as [m|].
    + destruct E as (d & val & set & HD & _ & -> & Hs). simpl. split; [|congruence].
      destruct set; [|discriminate]. destruct (Hs eq_refl) as (v & -> & _). discriminate.
    + split; auto.
Qed.

(** *** C35 update *)

(** An update is accepted exactly when every one of its assignments is acceptable on
    its own; every value is then read back (the last one for each name). *)
Theorem C35_accepted_update : forall ro h l,
  let st := exec_all (p_init ro) h in
  snd (update st l) = None <->
  forall n v, In (n, v) l -> ro = false /\ exists d, declared h n = Some d /\ satisfies n d v.
Proof.
  intros ro h l st. pose proof (entry_reach ro h) as E. fold st in E. clearbody st.
  revert st E. induction l as [|[n v] l IH]; intros st E; simpl.
  - split; [intros _ n v []|reflexivity].
  - pose proof (entry_set n v E) as E'.
    destruct (setitem_cases n v E) as [(d & HD & -> & Hsat & Es)|(Hno & e & Es & _)];
      rewrite Es in *; simpl in E' |- *.
    + rewrite (IH _ E'). split.
      * intros H k w [Ek|Hk]; [injection Ek as <- <-; eauto|auto].
      * intros H k w Hk. apply H; auto.
    + split; [discriminate|]. intros H. exfalso. destruct (H n v (or_introl eq_refl)) as (-> & d & HD & Hs).
      destruct Hno as [H1|[H1|(d' & H1 & Hn)]]; try congruence.
Qed.

(** After any update, raising or not, the assignments of some prefix of the dictionary
    have been made - all of it when the update returned - and nothing else has
    changed: every name reads the last value given in that prefix, or as before. *)
Theorem C35_update_partial : forall ro h l,
  let st := exec_all (p_init ro) h in
  exists l1 l2, l = l1 ++ l2 /\
  (snd (update st l) = None -> l2 = []) /\
  (snd (update st l) <> None -> exists n v l3, l2 = (n, v) :: l3 /\
      ~ (ro = false /\ exists d, declared h n = Some d /\ satisfies n d v)) /\
  (forall n v, In (n, v) l1 -> ro = false /\ exists d, declared h n = Some d /\ satisfies n d v) /\
  forall n, getitem (fst (update st l)) n =
            match dget (rev l1) n with Some v => Ok v | None => getitem st n end.
Proof.
  intros ro h l st. pose proof (entry_reach ro h) as E. fold st in E. clearbody st.
  revert st E. induction l as [|[n v] l IH]; intros st E; simpl.
  - exists [], []. repeat split; try congruence; try (intros; contradiction).
  - pose proof (entry_set n v E) as E'.
    destruct (setitem_cases n v E) as [(d & HD & -> & Hsat & Es)|(Hno & e & Es & _)];
      rewrite Es in *; simpl in E' |- *.
    + destruct (IH _ E') as (l1 & l2 & -> & H1 & H2 & H3 & H4).
      exists ((n, v) :: l1), l2. split; [reflexivity|]. split; [exact H1|]. split; [exact H2|].
      split; [intros k w [Ek|Hk]; [injection Ek as <- <-; eauto|auto]|].
      intros k. rewrite H4. simpl rev.
      assert (Happ : dget (rev l1 ++ [(n, v)]) k =
         match dget (rev l1) k with Some x => Some x | None => if String.eqb k n then Some v else None end).
      { generalize (rev l1) as q. induction q as [|[a b] q IHq]; simpl; [reflexivity|].
        destruct (String.eqb k a); [reflexivity|exact IHq]. }
      rewrite Happ; clear Happ. destruct (dget (rev l1) k); [reflexivity|].
      unfold getitem; simpl. destruct (String.eqb_spec k n) as [->|Hne].
      * rewrite dget_dset_same. reflexivity.
      * rewrite dget_dset_other by exact Hne. reflexivity.
    + exists [], ((n, v) :: l). split; [reflexivity|]. split; [discriminate|]. split.
      * intros _. exists n, v, l. split; [reflexivity|]. intros (-> & d & HD & Hs).
        destruct Hno as [H1|[H1|(d' & H1 & Hn)]]; try congruence.
      * split; [intros ? ? []|]. intros k; reflexivity.
Qed.

(** The full claim is false: an update that raises has already made the assignments
    before the offending one. *)
Theorem C35_atomic_update_refuted : exists h l n,
  let st := exec_all (p_init false) h in
  snd (update st l) <> None /\ getitem (fst (update st l)) n <> getitem st n.
Proof.
  exists [CDeclare "a" plain; CSet "a" (PInt 1)],
         [("a"%string, PInt 2); ("b"%string, PInt 3)], "a"%string.
  cbv. split; discriminate.
Qed.

(** *** Non-vacuity *)
Definition sample : list call :=
  [ CDeclare "n" (int_upto (Some (PInt 2)) 5);
    CSet "n" (PInt 9);                         (* raises: above the upper bound *)
    CSet "n" (PInt 4);
    CUpdate [("n"%string, PBool true); ("m"%string, PNone)] ].  (* raises at m *)
Example sample_accepted : declarations_accepted sample (p_init false).
Proof.
  intros h1 n d h2 E.
  destruct h1 as [|c1 [|c2 [|c3 [|c4 [|c5 h1]]]]]; try discriminate;
    injection E; intros; subst; try discriminate; reflexivity.
Qed.
Example sample_reads : getitem (exec_all (p_init false) sample) "n" = Ok (PBool true).
Proof. reflexivity. Qed.
Example sample_valid : satisfies "n" (int_upto (Some (PInt 2)) 5) (PInt 4) /\
  ~ satisfies "n" (int_upto (Some (PInt 2)) 5) (PInt 9) /\
  ~ satisfies "n" (int_upto (Some (PInt 2)) 5) (PStr "x").
Proof.
  assert (W : well_formed (int_upto (Some (PInt 2)) 5)) by (apply well_formedb_spec; reflexivity).
  assert (H : forall v, satisfies "n" (int_upto (Some (PInt 2)) 5) v ->
     assert_valid "n" (meta_of (int_upto (Some (PInt 2)) 5) None false) v = Ok tt)
    by (intros v; apply assert_valid_spec; exact W).
  repeat split; try (intros Hs; apply H in Hs; discriminate).
  - right. constructor; simpl; try discriminate.
    + intros _ _. constructor. constructor.
    + intros u E; injection E as <-. apply plt_not_above. reflexivity.
    + intros u E; injection E as <-. apply plt_not_above. reflexivity.
  - simpl; discriminate.
Qed.
Example list_types_case : exists ts,
  declared [CDeclare "k" {| d_default := None; d_values := VsNone; d_types := TsListOrSet [TyInt];
     d_upper := None; d_lower := None; d_check := None; d_allow_none := true; d_recordable := true |}] "k" = Some ts /\
  d_types ts = TsListOrSet [TyInt].
Proof. eexists; split; reflexivity. Qed.

Print Assumptions C34_readable_is_default_or_valid.
Print Assumptions C34_readable_is_valid.
Print Assumptions C34_assignment.
Print Assumptions C34_read_only.
Print Assumptions C34_rejected_default_refuted.
Print Assumptions C34_bool_type_refuted.
Print Assumptions C34_list_of_types_unusable.
Print Assumptions C61_reading.
Print Assumptions C61_declared_names.
Print Assumptions C35_accepted_update.
Print Assumptions C35_update_partial.
Print Assumptions C35_atomic_update_refuted.
