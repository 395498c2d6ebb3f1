From Coq Require Import QArith.
From Verif Require Import PyBase ParamModel ParamSpec.
Set Implicit Arguments.
Close Scope Q_scope.
Open Scope list_scope.

Lemma well_formedb_spec d : well_formedb d = true <-> well_formed d.
Proof.
  unfold well_formedb, well_formed.
  destruct (d_values d), (d_types d); split; try discriminate; try (intros; reflexivity);
    try (intros _; repeat split; congruence || (left; reflexivity) || (right; reflexivity));
    intros (H1 & H2 & [H3|H3]); congruence.
Qed.

Lemma peq_spec a b : peq a b = true <-> same_value a b.
Proof.
  split.
  - unfold peq. destruct (num a) as [x|] eqn:Ea, (num b) as [y|] eqn:Eb; intros H;
      try (apply Qeq_bool_iff in H; eapply same_number; eassumption);
      destruct a, b; simpl in *; try discriminate; try apply same_object.
    + apply Nat.eqb_eq in H; subst; apply same_object.
    + apply String.eqb_eq in H; subst; apply same_object.
    + apply andb_true_iff in H. destruct H as [H1 H2]. apply Nat.eqb_eq in H1, H2; subst.
      apply same_object.
  - intros H; destruct H as [a b x y Ha Hb E|a].
    + unfold peq; rewrite Ha, Hb. apply Qeq_bool_iff; exact E.
    + unfold peq. destruct (num a) as [x|] eqn:E.
      * apply Qeq_bool_iff; reflexivity.
      * destruct a; simpl in *; try discriminate; try reflexivity.
        -- apply Nat.eqb_refl.
        -- apply String.eqb_refl.
        -- rewrite !Nat.eqb_refl; reflexivity.
Qed.

Lemma pin_spec v vs : pin v vs = true <-> exists w, In w vs /\ same_value v w.
Proof.
  unfold pin. rewrite existsb_exists. split; intros (w & H1 & H2); exists w; split; auto;
    apply peq_spec; exact H2.
Qed.

Lemma isinst1_spec v t : isinst1 v t = true <-> has_type v t.
Proof.
  split.
  - destruct t, v; simpl; try discriminate; intros H; try constructor.
    apply Nat.eqb_eq in H; subst; constructor.
  - intros H; destruct H; simpl; try reflexivity. apply Nat.eqb_refl.
Qed.

Lemma isinst_spec v ts : isinst v ts = Ok true <-> type_allowed ts v.
Proof.
  destruct ts as [|t|l|l|]; simpl; split; intros H; try discriminate; try (inversion H; fail).
  - injection H as H. constructor. apply isinst1_spec; exact H.
  - inversion H as [? ? Ht|]; subst. f_equal. apply isinst1_spec; exact Ht.
  - injection H as H. apply existsb_exists in H. destruct H as (t & Hi & Ht).
    econstructor; [exact Hi|apply isinst1_spec; exact Ht].
  - inversion H as [|? t ? Hi Ht]; subst. f_equal. apply existsb_exists.
    exists t; split; [exact Hi|apply isinst1_spec; exact Ht].
Qed.

Lemma plt_not_above v u : plt u v = Ok false <-> not_above v u.
Proof.
  split.
  - unfold plt. destruct (num u) as [y|] eqn:Eu, (num v) as [x|] eqn:Ev; intros H.
    + injection H as H. apply negb_false_iff in H. apply Qle_bool_iff in H.
      eapply na_num; eassumption.
    + destruct v; simpl in *; try discriminate; destruct u; simpl in *; try discriminate;
        apply na_nan_l; reflexivity.
    + destruct u; simpl in *; try discriminate; destruct v; simpl in *; try discriminate;
        apply na_nan_r; reflexivity.
    + destruct u, v; simpl in *; try discriminate.
      * apply na_nan_l; reflexivity.
      * injection H as H. apply na_str; exact H.
  - intros H; destruct H as [v u x y Hv Hu Hle|i u Hu|i v Hv|s t Hst]; unfold plt.
    + rewrite Hu, Hv. f_equal. apply negb_false_iff. apply Qle_bool_iff; exact Hle.
    + destruct u; simpl in *; try discriminate; reflexivity.
    + destruct v; simpl in *; try discriminate; reflexivity.
    + simpl. rewrite Hst; reflexivity.
Qed.

(** The entry stored for a declaration, up to its current value. *)
Definition meta_of (d : decl) (val : option pv) (set : bool) : meta :=
  {| m_val := val;
     m_values := match d_types d, d_values d with
                 | TsType TyBool, _ => Some [PBool true; PBool false]
                 | _, VsColl l => Some l
                 | _, _ => None
                 end;
     m_types := d_types d; m_upper := d_upper d; m_lower := d_lower d; m_check := d_check d;
     m_set := set;
     m_allow_none := match d_default d with Some PNone => true | _ => d_allow_none d end;
     m_recordable := d_recordable d |}.

Lemma declare_wf st n d : well_formed d ->
  declare st n d =
  (set_dict (note_recordable st (d_recordable d)) (dset (p_dict st) n
     (meta_of d (d_default d) (match d_default d with Some _ => true | None => false end))),
   match d_default d with
   | None => None
   | Some v => match assert_valid n (meta_of d (d_default d) true) v with
               | Ok _ => None | Err e => Some e end
   end).
Proof.
  intros W. apply well_formedb_spec in W. unfold well_formedb in W. unfold declare, meta_of.
  destruct d as [df vs ts up lo ck an]; simpl in *.
  destruct vs as [|l|], ts as [|t|l'|l'|]; try discriminate;
    destruct df as [v|]; simpl; try reflexivity;
    match goal with |- context [assert_valid ?a ?b ?c] => destruct (assert_valid a b c) end;
    reflexivity.
Qed.

Lemma declare_bad st n d : ~ well_formed d -> fst (declare st n d) = st /\ snd (declare st n d) <> None.
Proof.
  intros W. unfold declare.
  assert (E : well_formedb d = false).
  { destruct (well_formedb d) eqn:E; [|reflexivity]. apply well_formedb_spec in E; contradiction. }
  unfold well_formedb in E.
  destruct (d_values d), (d_types d); try discriminate; split; try reflexivity; discriminate.
Qed.

Lemma bind_unit_Ok {A} (x : res unit) (k : res A) r : bind x (fun _ => k) = Ok r <-> x = Ok tt /\ k = Ok r.
Proof. destruct x as [[]|]; simpl; split; [tauto|tauto|discriminate|intros [? ?]; discriminate]. Qed.

Lemma check_vt_spec d val set v (W : well_formed d) :
  check_values_types (meta_of d val set) v = Ok tt <->
  (forall vs, d_values d = VsColl vs -> exists w, In w vs /\ same_value v w) /\
  (d_types d <> TsNone -> d_types d <> TsType TyBool -> type_allowed (d_types d) v) /\
  (d_types d = TsType TyBool -> exists b, same_value v (PBool b)).
Proof.
  destruct W as (W1 & W2 & W3).
  unfold check_values_types, meta_of; cbn [m_values m_types].
  assert (Hpin : forall l, raise_if (negb (pin v l)) ValueError (Ok tt) = Ok tt <->
            exists w, In w l /\ same_value v w).
  { intros l. rewrite <- pin_spec. unfold raise_if. destruct (pin v l); simpl; split; congruence. }
  assert (Hisi : forall ts, ts <> TsNone ->
    (bind (isinst v ts) (fun b => raise_if (negb b) TypeError (Ok tt)) = Ok tt <-> type_allowed ts v)).
  { intros ts _. rewrite <- isinst_spec. destruct (isinst v ts) as [[]|]; simpl; split; try congruence. }
  destruct (d_types d) as [|t|l'|l'|] eqn:Et; try congruence.
  - destruct (d_values d) as [|l|] eqn:Ev; try congruence.
    + split; [intros _|reflexivity]. repeat split; congruence.
    + rewrite Hpin. split.
      * intros H. repeat split; try congruence. intros vs E; injection E as <-; exact H.
      * intros (H & _ & _). apply H; reflexivity.
  - destruct W3 as [W3|W3]; [|discriminate]. rewrite W3.
    destruct t; try (rewrite Hisi by congruence; split;
      [intros H; repeat split; try congruence; intros; exact H | intros (_ & H & _); apply H; congruence]).
    rewrite Hpin. split.
    + intros (w & Hw & Hs). repeat split; try congruence.
      intros _. destruct Hw as [<-|[<-|[]]]; eexists; exact Hs.
    + intros (_ & _ & H). destruct (H eq_refl) as ([] & Hb); eexists; (split; [|exact Hb]); simpl; auto.
  - destruct W3 as [W3|W3]; [|discriminate]. rewrite W3. rewrite Hisi by congruence.
    split; [intros H; repeat split; try congruence; intros; exact H | intros (_ & H & _); apply H; congruence].
  - destruct W3 as [W3|W3]; [|discriminate]. rewrite W3. rewrite Hisi by congruence.
    split; [intros H; repeat split; try congruence; intros; exact H | intros (_ & H & _); apply H; congruence].
Qed.

Lemma check_upper_spec d val set v :
  check_upper (meta_of d val set) v = Ok tt <-> (forall u, d_upper d = Some u -> not_above v u).
Proof.
  unfold check_upper; simpl. destruct (d_upper d) as [u|]; [|split; [discriminate|reflexivity]].
  split.
  - intros H u' E; injection E as <-. apply plt_not_above.
    destruct (plt u v) as [[]|]; simpl in H; congruence.
  - intros H. specialize (H u eq_refl). apply plt_not_above in H. rewrite H; reflexivity.
Qed.

Lemma check_lower_spec d val set v :
  check_lower (meta_of d val set) v = Ok tt <-> (forall l, d_lower d = Some l -> not_above l v).
Proof.
  unfold check_lower; simpl. destruct (d_lower d) as [u|]; [|split; [discriminate|reflexivity]].
  split.
  - intros H u' E; injection E as <-. apply plt_not_above.
    destruct (plt v u) as [[]|]; simpl in H; congruence.
  - intros H. specialize (H u eq_refl). apply plt_not_above in H. rewrite H; reflexivity.
Qed.

Lemma check_user_spec n d val set v :
  check_user n (meta_of d val set) v = Ok tt <-> (forall f, d_check d = Some f -> f n v = None).
Proof.
  unfold check_user; simpl. destruct (d_check d) as [f|]; [|split; [discriminate|reflexivity]].
  destruct (f n v) eqn:E; split; try congruence.
  - intros H. specialize (H f eq_refl). congruence.
Qed.

Lemma within_iff d v : within d v <->
  (forall vs, d_values d = VsColl vs -> exists w, In w vs /\ same_value v w) /\
  (d_types d <> TsNone -> d_types d <> TsType TyBool -> type_allowed (d_types d) v) /\
  (d_types d = TsType TyBool -> exists b, same_value v (PBool b)) /\
  (forall u, d_upper d = Some u -> not_above v u) /\
  (forall l, d_lower d = Some l -> not_above l v).
Proof. split; [intros []; auto|intros (?&?&?&?&?); constructor; auto]. Qed.

Lemma assert_valid_spec n d val set v (W : well_formed d) :
  assert_valid n (meta_of d val set) v = Ok tt <-> satisfies n d v.
Proof.
  unfold assert_valid. rewrite bind_unit_Ok, check_user_spec. unfold satisfies.
  apply and_iff_compat_r.
  assert (Hn : is_pnone v && m_allow_none (meta_of d val set) = true <-> v = PNone /\ none_allowed d).
  { unfold none_allowed; simpl. rewrite andb_true_iff. split.
    - intros [H1 H2]. split; [destruct v; try discriminate; reflexivity|].
      destruct (d_default d) as [[]|]; auto.
    - intros [-> H]. split; [reflexivity|]. destruct H as [H|H]; [destruct (d_default d) as [[]|]; auto|rewrite H; reflexivity]. }
  destruct (is_pnone v && m_allow_none (meta_of d val set)) eqn:E; simpl.
  - assert (E' := proj1 Hn eq_refl). tauto.
  - assert (~ (v = PNone /\ none_allowed d)) by (intros H; apply Hn in H; discriminate).
    rewrite !bind_unit_Ok, within_iff.
    rewrite check_vt_spec, check_upper_spec, check_lower_spec by exact W. tauto.
Qed.

Lemma assert_valid_cases n d val set v (W : well_formed d) :
  (assert_valid n (meta_of d val set) v = Ok tt /\ satisfies n d v) \/
  (exists e, assert_valid n (meta_of d val set) v = Err e /\ ~ satisfies n d v).
Proof.
  destruct (assert_valid n (meta_of d val set) v) as [[]|e] eqn:E.
  - left; split; [reflexivity|]. eapply assert_valid_spec; eassumption.
  - right; exists e; split; [reflexivity|]. intros H.
    apply assert_valid_spec with (val := val) (set := set) in H; [congruence|exact W].
Qed.

(** Relation between a state and the declarations in force. *)
Definition entry_ok (D : string -> option decl) (ro : bool) (st : params) : Prop :=
  p_read_only st = ro /\ NoDup (dkeys (p_dict st)) /\
  forall n, match dget (p_dict st) n with
            | None => D n = None
            | Some m => exists d val set, D n = Some d /\ well_formed d /\ m = meta_of d val set /\
                 (set = true -> exists v, val = Some v /\
                    (d_default d = Some v \/ (ro = false /\ satisfies n d v)))
            end.

Definition upd (D : string -> option decl) (n : string) (o : option decl) : string -> option decl :=
  fun x => if String.eqb x n then o else D x.

Lemma dget_ddel_other {V} (d : dict V) k k' : k' <> k -> dget (ddel d k) k' = dget d k'.
Proof.
  intros Hne. induction d as [|[a v] r IH]; simpl; [reflexivity|].
  destruct (String.eqb_spec k a) as [->|H1]; simpl.
  - destruct (String.eqb_spec k' a); [congruence|reflexivity].
  - rewrite IH; reflexivity.
Qed.

Lemma In_dkeys_ddel {V} (d : dict V) k x : In x (dkeys (ddel d k)) -> In x (dkeys d).
Proof.
  induction d as [|[a v] r IH]; simpl; [tauto|].
  destruct (String.eqb_spec k a); simpl; [auto|intros [H|H]; auto].
Qed.

Lemma dget_ddel_same {V} (d : dict V) k : NoDup (dkeys d) -> dget (ddel d k) k = None.
Proof.
  induction d as [|[a v] r IH]; simpl; [reflexivity|]. intros HN.
  inversion HN as [|? ? Hni Hnd]; subst.
  destruct (String.eqb_spec k a) as [->|H1]; simpl.
  - apply dget_None; exact Hni.
  - destruct (String.eqb_spec k a); [congruence|auto].
Qed.

Lemma NoDup_ddel {V} (d : dict V) k : NoDup (dkeys d) -> NoDup (dkeys (ddel d k)).
Proof.
  induction d as [|[a v] r IH]; simpl; [auto|]. intros HN.
  inversion HN as [|? ? Hni Hnd]; subst.
  destruct (String.eqb_spec k a) as [->|H1]; simpl; [exact Hnd|].
  constructor; [intros H; apply Hni; eapply In_dkeys_ddel; exact H|auto].
Qed.

Lemma entry_declare D ro st n d : entry_ok D ro st ->
  entry_ok (if well_formedb d then upd D n (Some d) else D) ro (fst (declare st n d)).
Proof.
  intros (Hro & HN & H). destruct (well_formedb d) eqn:W.
  - apply well_formedb_spec in W. rewrite (declare_wf _ _ W); simpl. split; [exact Hro|].
    split; [apply NoDup_dset; exact HN|].
    intros x. unfold upd; simpl. destruct (String.eqb_spec x n) as [->|Hne].
    + rewrite dget_dset_same. exists d, (d_default d). eexists. repeat split; try apply W.
      intros Hs. destruct (d_default d) as [v|]; [|discriminate]. exists v; auto.
    + rewrite dget_dset_other by exact Hne. apply H.
  - assert (W' : ~ well_formed d) by (intros W'; apply well_formedb_spec in W'; congruence).
    destruct (declare_bad st n W') as [-> _]. repeat split; assumption.
Qed.

Lemma entry_undeclare D ro st n : entry_ok D ro st -> entry_ok (upd D n None) ro (fst (undeclare st n)).
Proof.
  intros (Hro & HN & H). split; [exact Hro|]. split; [apply NoDup_ddel; exact HN|].
  intros x; unfold upd; simpl. destruct (String.eqb_spec x n) as [->|Hne].
  - rewrite dget_ddel_same by exact HN. reflexivity.
  - rewrite dget_ddel_other by exact Hne. apply H.
Qed.

(** The single assignment, in terms of the declaration in force. *)
Lemma setitem_cases D ro st n v : entry_ok D ro st ->
  (exists d, D n = Some d /\ ro = false /\ satisfies n d v /\
      setitem st n v = (set_dict st (dset (p_dict st) n (meta_of d (Some v) true)), None)) \/
  ((D n = None \/ ro = true \/ exists d, D n = Some d /\ ~ satisfies n d v) /\
   exists e, setitem st n v = (st, Some e) /\
      (D n = None \/ ro = true -> e = KeyError)).
Proof.
  intros (Hro & HN & H). unfold setitem. specialize (H n). destruct (dget (p_dict st) n) as [m|] eqn:E.
  - destruct H as (d & val & set & HD & W & -> & Hs). rewrite Hro. destruct ro.
    + right; split; [auto|]. exists KeyError; auto.
    + destruct (@assert_valid_cases n d val set v W) as [[-> Hsat]|(e & -> & Hns)].
      * left. exists d. split; [exact HD|]. split; [reflexivity|]. split; [exact Hsat|]. reflexivity.
      * right. split; [right; right; exists d; auto|]. exists e. split; [reflexivity|].
        intros [H1|H1]; congruence.
  - right. split; [auto|]. exists KeyError; auto.
Qed.

Lemma entry_set D ro st n v : entry_ok D ro st -> entry_ok D ro (fst (setitem st n v)).
Proof.
  intros H. destruct (setitem_cases n v H) as [(d & HD & -> & Hsat & ->)|(_ & e & -> & _)]; [|exact H].
  destruct H as (Hro & HN & H). simpl. split; [exact Hro|]. split; [apply NoDup_dset; exact HN|].
  intros x; simpl. destruct (String.eqb_spec x n) as [->|Hne].
  - rewrite dget_dset_same. exists d, (Some v), true. split; [exact HD|].
    assert (W : well_formed d).
    { specialize (H n). destruct (dget (p_dict st) n); [|congruence].
      destruct H as (d' & _ & _ & HD' & W & _). congruence. }
    split; [exact W|]. split; [reflexivity|]. intros _; exists v; auto.
  - rewrite dget_dset_other by exact Hne. apply H.
Qed.

Lemma entry_update D ro l st : entry_ok D ro st -> entry_ok D ro (fst (update st l)).
Proof.
  revert st; induction l as [|[n v] l IH]; intros st H; simpl; [exact H|].
  pose proof (entry_set n v H) as H1. destruct (setitem st n v) as [st' [e|]]; simpl in *; auto.
Qed.

Definition decl_after (D : string -> option decl) (h : list call) : string -> option decl :=
  fun n => declared_from (D n) h n.

Lemma entry_ext D D' ro st : (forall n, D n = D' n) -> entry_ok D ro st -> entry_ok D' ro st.
Proof.
  intros E (H1 & H2 & H3). split; [exact H1|]. split; [exact H2|]. intros n. specialize (H3 n).
  rewrite <- E. exact H3.
Qed.

Lemma entry_all h : forall D ro st, entry_ok D ro st -> entry_ok (decl_after D h) ro (exec_all st h).
Proof.
  induction h as [|c h IH]; intros D ro st H; [exact H|].
  simpl exec_all. destruct c as [n d|n|n v|l]; simpl exec.
  - eapply entry_ext; [|apply IH, entry_declare, H]. intros x. unfold decl_after; simpl.
    destruct (well_formedb d); unfold upd; [|rewrite andb_false_r; reflexivity].
    rewrite andb_true_r. reflexivity.
  - eapply entry_ext; [|apply IH, entry_undeclare, H]. intros x. unfold decl_after, upd; simpl. reflexivity.
  - eapply entry_ext; [|apply IH, entry_set, H]. intros x; reflexivity.
  - eapply entry_ext; [|apply IH, entry_update, H]. intros x; reflexivity.
Qed.

Lemma entry_init ro : entry_ok (fun _ => None) ro (p_init ro).
Proof. split; [reflexivity|]. split; [constructor|]. intros n; reflexivity. Qed.

Lemma entry_reach ro h : entry_ok (declared h) ro (exec_all (p_init ro) h).
Proof. eapply entry_ext; [|apply entry_all, entry_init]. intros n; reflexivity. Qed.

(** Accepted declarations have valid defaults. *)
Lemma accepted_default st n d : snd (declare st n d) = None ->
  well_formed d /\ forall v, d_default d = Some v -> satisfies n d v.
Proof.
  intros H. destruct (well_formedb d) eqn:W.
  - apply well_formedb_spec in W. split; [exact W|]. intros v Hv.
    rewrite (declare_wf _ _ W) in H; simpl in H. rewrite Hv in H.
    destruct (@assert_valid_cases n d (Some v) true v W) as [[_ Hs]|(e & He & _)]; [exact Hs|].
    rewrite He in H; discriminate.
  - assert (W' : ~ well_formed d) by (intros W'; apply well_formedb_spec in W'; congruence).
    destruct (declare_bad st n W') as [_ Hb]. congruence.
Qed.

Lemma declared_from_In h : forall s n d, declared_from s h n = Some d ->
  s = Some d \/ exists h1 h2, h = h1 ++ CDeclare n d :: h2.
Proof.
  induction h as [|c h IH]; intros s n d H; simpl in H; [auto|].
  assert (step : forall s', declared_from s' h n = Some d -> (s' = Some d -> s = Some d \/ c = CDeclare n d) ->
     s = Some d \/ (exists h1 h2, c :: h = h1 ++ CDeclare n d :: h2)).
  { intros s' H' Hs. destruct (IH _ _ _ H') as [E|(h1 & h2 & ->)].
    - destruct (Hs E) as [E2|E2]; [auto|]. right; exists [], h; simpl. rewrite E2; reflexivity.
    - right. exists (c :: h1), h2; reflexivity. }
  destruct c as [m d'|m|m v|l]; eapply step; try exact H; try tauto.
  - destruct (String.eqb_spec n m) as [->|]; simpl; [|tauto].
    destruct (well_formedb d'); [|tauto]. intros E; injection E as ->; auto.
  - destruct (String.eqb n m); [discriminate|tauto].
Qed.
