(** Programs that follow the rules build well-formed hierarchies: the tree of models. *)
From Verif Require Import PyBase NamesModel NamesProofs PromotionsModel PromotionsSpec HierSpec ExprModel ExprSpec UnflatModel UnflatSpec UnflatProofs FlattenModel FlattenSpec ExprProofs ExprProofs3
  EffectProofs CompileSpec WorldModel WorldSpec WorldProofs WorldProofs2 WorldProofs3 WorldProofs4.
From Coq Require Import Lia.
Set Implicit Arguments.
Local Open Scope list_scope.

Lemma all_some_In {A} (l : list (option A)) xs x : all_some l = Some xs -> In x xs -> In (Some x) l.
Proof.
  revert xs. induction l as [|[a|] r IH]; intros xs H Hx; cbn in H; try discriminate; [injection H as <-; destruct Hx|].
  destruct (all_some r) as [ys|]; [|discriminate]. injection H as <-. destruct Hx as [<-|Hx]; [left; reflexivity|right; eapply IH; eauto].
Qed.
Lemma all_some_length {A} (l : list (option A)) xs : all_some l = Some xs -> length xs = length l.
Proof.
  revert xs. induction l as [|[a|] r IH]; intros xs H; cbn in H; try discriminate; [injection H as <-; reflexivity|].
  destruct (all_some r) as [ys|]; [|discriminate]. injection H as <-. cbn. f_equal. apply IH. reflexivity.
Qed.
Lemma all_some_nth {A} (l : list (option A)) xs k x : all_some l = Some xs -> nth_error xs k = Some x -> nth_error l k = Some (Some x).
Proof.
  revert xs k. induction l as [|[a|] r IH]; intros xs k H Hx; cbn in H; try discriminate; [injection H as <-; destruct k; discriminate|].
  destruct (all_some r) as [ys|]; [|discriminate]. injection H as <-. destruct k as [|k]; cbn in *; [congruence|]. eapply IH; eauto.
Qed.
Lemma map_fst_combine {A B} (a : list A) (b : list B) : length a = length b -> map fst (combine a b) = a.
Proof. revert b. induction a as [|x a IH]; intros [|y b] H; cbn in *; try lia; [reflexivity|]. f_equal. apply IH. lia. Qed.
Lemma nth_combine {A B} (a : list A) (b : list B) k x : nth_error (combine a b) k = Some x -> nth_error a k = Some (fst x) /\ nth_error b k = Some (snd x).
Proof. revert b k. induction a as [|y a IH]; intros [|z b] [|k] H; cbn in *; try discriminate; [injection H as <-; auto|apply IH, H]. Qed.

Section Tree.
  Variables (w : world) (shp : nat -> shape).
  Definition entry (i : nat) : string * shape := (name_in (w_heap w) i, shp i).

  Lemma tree_inv f k um m : tree f w shp k = Some (um, m) ->
    exists f' wm l, f = S f' /\ nth_error (w_models w) k = Some wm /\ all_some (map (fun t => tree f' w shp (snd t)) (wm_subs wm)) = Some l /\ length l = length (wm_subs wm) /\
      um = UM (wm_ins wm) (wm_outs wm) (wm_decls wm) (combine (sub_names wm) (map fst l)) /\
      m = Mdl (map entry (wm_ins wm)) (map entry (wm_outs wm)) (map entry (wm_decls wm)) (wm_conns wm) (wm_dvs wm) (wm_cons wm) (wm_obj wm) (combine (map fst (wm_subs wm)) (map snd l)).
  Proof.
    destruct f as [|f]; cbn; [discriminate|]. destruct (nth_error (w_models w) k) as [wm|] eqn:E; [|discriminate].
    destruct (all_some _) as [l|] eqn:A; [|discriminate]. intros H. injection H as <- <-. exists f, wm, l. pose proof (@all_some_length _ _ _ A) as L. rewrite map_length in L. auto 8.
  Qed.
  Lemma tree_um_at um p um' : um_at um p um' -> forall f k m, tree f w shp k = Some (um, m) -> exists f' k' m', tree f' w shp k' = Some (um', m').
  Proof.
    induction 1 as [um|ins outs decls subs s sm p um' Hs A IH]; intros f k m H; [eauto|].
    apply tree_inv in H. destruct H as (f' & wm & l & _ & _ & AL & LL & E & _). injection E as -> -> -> ->.
    apply in_combine_r in Hs. apply in_map_iff in Hs. destruct Hs as ([um2 m2] & E & Hx). cbn in E. subst um2.
    apply (@all_some_In _ _ _ _ AL) in Hx. apply in_map_iff in Hx. destruct Hx as (t & Ht & _). eapply IH, Ht.
  Qed.
  Lemma tree_sub_at m p m' : sub_at m p m' -> forall f k um, tree f w shp k = Some (um, m) -> exists f' k' um', tree f' w shp k' = Some (um', m').
  Proof.
    induction 1 as [m|m nm pr sm p m' Hs A IH]; intros f k um H; [eauto|].
    apply tree_inv in H. destruct H as (f' & wm & l & _ & _ & AL & LL & _ & E). subst m. cbn in Hs.
    apply in_combine_r in Hs. apply in_map_iff in Hs. destruct Hs as ([um2 m2] & E & Hx). cbn in E. subst m2.
    apply (@all_some_In _ _ _ _ AL) in Hx. apply in_map_iff in Hx. destruct Hx as (t & Ht & _). eapply IH, Ht.
  Qed.
End Tree.

Section Final.
  Variables (l : list wevent) (shp : nat -> shape).
  Let w := whistory l.
  Let h := w_heap w.
  Hypothesis FR : follows_rules l.
  Hypothesis FI : finished l.
  Let IV : inv (w_count w) (wst l) := inv_finished FR FI.
  Local Notation chosen_name := (chosen_name (w_count w)).
  Local Notation oinv := (oinv (w_count w)).
  Let own (i k : nat) : Prop := nth_error (owners l) i = Some k.

  Lemma has_owner i ob : nth_error h i = Some ob -> exists k, own i k.
  Proof.
    intros E. unfold own. destruct (nth_error (owners l) i) as [k|] eqn:Q; [eauto|]. apply nth_error_None in Q. apply nth_lt in E. pose proof (i_own IV) as L. cbn in L. unfold h, w in E. lia.
  Qed.
  Lemma object i ob : nth_error h i = Some ob -> exists k, own i k /\ oinv (wst l) i k ob.
  Proof. intros E. destruct (has_owner _ E) as (k & Hk). exists k. split; [exact Hk|]. exact (i_obj IV E Hk). Qed.
  Lemma SI : sinv h.
  Proof. exact (i_sinv IV). Qed.
  Lemma num_used i ob : nth_error h i = Some ob -> (ob_num ob < w_count w)%N.
  Proof. intros E. apply (i_few IV). eapply nth_error_In, E. Qed.
  Lemma num_small i ob : nth_error h i = Some ob -> (ob_num ob < 62 * 63 ^ 4)%N.
  Proof. intros E. eapply N.lt_le_trans; [|exact (fin_few _ FI)]. apply (i_few IV). eapply nth_error_In, E. Qed.
  Lemma num_inj i j a b : nth_error h i = Some a -> nth_error h j = Some b -> ob_num a = ob_num b -> i = j.
  Proof.
    intros Ei Ej E. pose proof (i_num IV) as N. cbn in N. fold w in N. fold h in N. eapply NoDup_nth_error with (l := map ob_num h); [exact N| |].
    - rewrite map_length. eapply nth_lt, Ei.
    - rewrite !nth_error_map, Ei, Ej. cbn. congruence.
  Qed.
  Lemma hex_inj i j a b : nth_error h i = Some a -> nth_error h j = Some b -> hex_id (ob_num a) = hex_id (ob_num b) -> i = j.
  Proof. intros Ei Ej E. eapply num_inj; [exact Ei|exact Ej|]. apply hex_id_inj; [eapply num_small; exact Ei|eapply num_small; exact Ej|exact E]. Qed.

  Lemma W_computed o v : writes h o v -> computed_by h v o.
  Proof. intros (ob & E & Oo & Hv). destruct (ok_op (@SI _ _ E) Oo) as [_ H]. apply H, Hv. Qed.
  Lemma R_var o v : variable h v -> reads h v o -> exists ob, nth_error h v = Some ob /\ ob_deps ob = [o] /\ operation h o.
  Proof.
    intros (ob & E & Oo) (ob' & E' & Ha). rewrite E in E'. injection E' as <-.
    destruct (ok_var (@SI _ _ E) Oo) as [_ [H|(d & H & Hd)]]; rewrite H in Ha; [destruct Ha|]. destruct Ha as [<-|[]]. exists ob. auto.
  Qed.

  Lemma w_alternates : alternates h.
  Proof.
    intros a b [H|H].
    - destruct H as (ob & E & Ha). destruct (is_op ob) eqn:Oo.
      + left. destruct (ok_op (@SI _ _ E) Oo) as [H1 _]. split; [apply H1, Ha|exists ob; auto].
      + right. assert (V : variable h b) by (exists ob; auto). split; [|exact V]. destruct (@R_var a b V) as (_ & _ & _ & H); [exists ob; auto|exact H].
    - right. split; [destruct H as (ob & E & Oo & _); exists ob; auto|]. eapply computed_variable, W_computed, H.
  Qed.
  Lemma w_op_names : op_names_apart h.
  Proof.
    intros a b n (oa & Ea & Oa) (ob & Eb & Ob) (oa' & Ea' & Na) (ob' & Eb' & Nb). rewrite Ea in Ea'. injection Ea' as <-. rewrite Eb in Eb'. injection Eb' as <-.
    destruct (@object _ _ Ea) as (ka & _ & Ia). destruct (@object _ _ Eb) as (kb & _ & Ib). pose proof (o_op Ia Oa) as Ha.
    destruct (o_name Ib) as [Hb|Hb].
    - assert (a = b) by (eapply hex_inj; [exact Ea|exact Eb|congruence]). subst. congruence.
    - apply (Hb (ob_num oa)); [exact (@num_used _ _ Ea)|congruence].
  Qed.
  Lemma w_listed : results_listed h.
  Proof.
    intros o v V. split.
    - intros H. destruct (@R_var _ _ V H) as (ob & E & D & Oo). destruct (@object _ _ E) as (k & _ & Io). apply (o_link Io); [|rewrite D; left; reflexivity].
      destruct V as (ob' & E' & Hv). congruence.
    - intros H. destruct (@W_computed _ _ H) as (ob & E & D & _). exists ob. split; [exact E|]. rewrite D. left. reflexivity.
  Qed.
  Lemma w_one : one_producer h.
  Proof. intros a b v Ha Hb. destruct (@W_computed _ _ Ha) as (oa & Ea & Da & _). destruct (@W_computed _ _ Hb) as (ob & Eb & Db & _). congruence. Qed.
  Lemma w_distinct : results_distinct h.
  Proof. intros o ob E _. destruct (@object _ _ E) as (k & _ & Io). apply (o_nodup Io). Qed.
  Lemma w_outputs : only_outputs_computed h.
  Proof. intros o v Hw. destruct (@W_computed _ _ Hw) as (ob & E & _ & H). exists ob. split; [exact E|]. destruct H as [H|[H _]]; auto. Qed.
  Lemma w_computed o : output_object h o -> exists a, writes h a o.
  Proof.
    intros (ob & E & K). destruct (@object _ _ E) as (k & _ & Io).
    assert (V : is_op ob = false) by (unfold is_op; destruct K as [K|K]; rewrite K; reflexivity).
    assert (D : ob_deps ob <> []).
    { destruct K as [K|K]; [exact (ok_out (@SI _ _ E) K)|]. apply (ok_con (@SI _ _ E) K). exact (fin_assigned _ FI _ _ E K). }
    destruct (ok_var (@SI _ _ E) V) as [_ [H|(d & H & _)]]; [contradiction|]. exists d. apply (o_link Io V). rewrite H. left. reflexivity.
  Qed.

  (** What a model mentions belongs to it. *)
  Lemma lists_of f k m : nth_error (w_models w) k = Some m -> lists f w k = f m.
  Proof. intros E. unfold lists. rewrite E. reflexivity. Qed.
  Lemma leaf_owned k m i : nth_error (w_models w) k = Some m -> In i (wm_ins m ++ wm_outs m ++ wm_decls m) -> own i k /\ exists ob, nth_error h i = Some ob.
  Proof.
    intros E Hi. rewrite !in_app_iff in Hi. destruct Hi as [Hi|[Hi|Hi]].
    - destruct (@i_ins _ _ IV k i) as (ob & Eo & Ow & _); [cbn; fold w; rewrite (@lists_of wm_ins _ _ E); exact Hi|]. split; [exact Ow|exists ob; exact Eo].
    - destruct (@i_outs _ _ IV k i) as (ob & Eo & Ow & _); [cbn; fold w; rewrite (@lists_of wm_outs _ _ E); exact Hi|]. split; [exact Ow|exists ob; exact Eo].
    - destruct (@i_decls _ _ IV k i) as (ob & Eo & Ow & _); [cbn; fold w; rewrite (@lists_of wm_decls _ _ E); exact Hi|]. split; [exact Ow|exists ob; exact Eo].
  Qed.
  Lemma needed_owned k leaves o : (forall i, In i leaves -> own i k) -> needed h leaves o -> own o k.
  Proof.
    intros H. induction 1 as [x Hx|x y Hx IH Hr|x y Hx IH Hw]; [auto| |].
    - destruct Hr as (ob & E & Hy). destruct (@object _ _ E) as (k' & Hk & Io). assert (k' = k) by (unfold own in *; congruence). subst k'. exact (o_deps Io _ Hy).
    - destruct Hw as (ob & E & _ & Hy). destruct (@object _ _ E) as (k' & Hk & Io). assert (k' = k) by (unfold own in *; congruence). subst k'. exact (o_outs Io _ Hy).
  Qed.
  Lemma scope_owned k m o : nth_error (w_models w) k = Some m -> scope h (wm_ins m) (wm_outs m ++ wm_decls m) o -> own o k.
  Proof.
    intros E [Hi|Hn]; [apply (@leaf_owned _ _ o E); apply in_app_iff; auto|]. eapply needed_owned; [|exact Hn].
    intros i Hi. apply (@leaf_owned _ _ i E). apply in_app_iff. right. exact Hi.
  Qed.
  Lemma own_variable k m o : nth_error (w_models w) k = Some m -> own o k -> variable h o ->
    (auto_named h o /\ output_object h o /\ ~ declared_object h o) \/ In o (wm_ins m ++ wm_outs m ++ wm_decls m).
  Proof.
    intros E Ho (ob & Eo & Vo). pose proof (i_obj IV Eo Ho) as Io. rewrite !in_app_iff.
    destruct (ob_kind ob) eqn:K.
    - right. left. destruct (o_in Io K) as (H & _). cbn in H. fold w in H. rewrite (@lists_of wm_ins _ _ E) in H. exact H.
    - right. right. right. destruct (o_decl Io K) as (H & _). cbn in H. fold w in H. rewrite (@lists_of wm_decls _ _ E) in H. exact H.
    - destruct (o_name Io) as [Hn|Hn].
      + left. split; [exists ob; auto|]. split; [exists ob; auto|]. intros (ob' & E' & K'). congruence.
      + right. right. left. destruct (fin_registered _ FI _ _ _ Eo K Hn Ho) as (m' & E' & H). fold w in E'. congruence.
    - right. right. left. destruct (o_con Io K) as (H & _). cbn in H. fold w in H. rewrite (@lists_of wm_outs _ _ E) in H. exact H.
    - unfold is_op in Vo. rewrite K in Vo. discriminate.
  Qed.
  (** Listed variables have chosen names without dots. *)
  Lemma leaf_named k m i : nth_error (w_models w) k = Some m -> In i (wm_ins m ++ wm_outs m ++ wm_decls m) ->
    chosen_name (name_in h i) /\ has_dot (name_in h i) = false.
  Proof.
    intros E Hi. rewrite !in_app_iff in Hi. unfold name_in. destruct Hi as [Hi|[Hi|Hi]].
    - destruct (@i_ins _ _ IV k i) as (ob & Eo & Ow & K & D); [cbn; fold w; rewrite (@lists_of wm_ins _ _ E); exact Hi|].
      pose proof (i_obj IV Eo Ow) as Io. cbn in Eo. fold w in Eo. fold h in Eo. rewrite Eo. split; [apply (o_in Io K)|exact D].
    - destruct (@i_outs _ _ IV k i) as (ob & Eo & Ow & _ & C & D); [cbn; fold w; rewrite (@lists_of wm_outs _ _ E); exact Hi|].
      cbn in Eo. fold w in Eo. fold h in Eo. rewrite Eo. auto.
    - destruct (@i_decls _ _ IV k i) as (ob & Eo & Ow & K & D); [cbn; fold w; rewrite (@lists_of wm_decls _ _ E); exact Hi|].
      pose proof (i_obj IV Eo Ow) as Io. cbn in Eo. fold w in Eo. fold h in Eo. rewrite Eo. split; [apply (o_decl Io K)|exact D].
  Qed.
  Lemma named_in i n : named h i n -> name_in h i = n.
  Proof. intros (ob & E & N). unfold name_in. rewrite E. exact N. Qed.

  Lemma w_names k m : nth_error (w_models w) k = Some m -> names_apart h (scope h (wm_ins m) (wm_outs m ++ wm_decls m)) (sub_names m).
  Proof.
    intros E. pose proof (fin_names _ FI _ _ E) as ND. fold w in ND. fold h in ND. apply NoDup_app_iff in ND. destruct ND as (ND & _ & DJ).
    assert (SO := @subs_history _ FR _ _ E). destruct SO as (_ & SN).
    (* an object in scope has the id as name, or is listed *)
    assert (K : forall a ob, scope h (wm_ins m) (wm_outs m ++ wm_decls m) a -> nth_error h a = Some ob ->
              ob_name ob = hex_id (ob_num ob) \/ In a (wm_ins m ++ wm_outs m ++ wm_decls m)).
    { intros a ob Sa Ea. destruct (is_op ob) eqn:Oo; [left; destruct (@object _ _ Ea) as (k' & _ & Io); exact (o_op Io Oo)|].
      destruct (@own_variable _ _ _ E (@scope_owned _ _ _ E Sa)) as [((ob' & E' & Hn) & _)|H]; [exists ob; auto| |auto]. left. congruence. }
    split.
    - intros a b n Sa Sb (oa & Ea & Na) (ob & Eb & Nb).
      destruct (K a oa Sa Ea) as [Ka|Ka], (K b ob Sb Eb) as [Kb|Kb].
      + eapply hex_inj; [exact Ea|exact Eb|congruence].
      + exfalso. destruct (@leaf_named _ _ _ E Kb) as [C _]. unfold name_in in C. rewrite Eb in C. apply (C (ob_num oa)); [exact (@num_used _ _ Ea)|congruence].
      + exfalso. destruct (@leaf_named _ _ _ E Ka) as [C _]. unfold name_in in C. rewrite Ea in C. apply (C (ob_num ob)); [exact (@num_used _ _ Eb)|congruence].
      + clear -ND Ka Kb Ea Eb Na Nb. apply In_nth_error in Ka, Kb. destruct Ka as (i & Hi), Kb as (j & Hj).
        assert (i = j).
        { eapply NoDup_nth_error; [exact ND|rewrite map_length; eapply nth_lt, Hi|]. rewrite !nth_error_map, Hi, Hj. cbn. unfold name_in. rewrite Ea, Eb. congruence. }
        subst j. congruence.
    - intros a n Sa (oa & Ea & Na) Hn. destruct (K a oa Sa Ea) as [Ka|Ka].
      + destruct (SN n Hn) as (_ & _ & C). apply (C (ob_num oa)); [exact (@num_used _ _ Ea)|congruence].
      + apply (DJ n); [|exact Hn]. apply in_map_iff. exists a. split; [unfold name_in; rewrite Ea; exact Na|exact Ka].
  Qed.

  Lemma listed_entries (P : nat -> Prop) ids : (forall i, In i ids -> P i /\ exists ob, nth_error h i = Some ob) ->
    Forall2 (fun o xs => P o /\ named h o (fst xs) /\ shp o = snd xs) ids (map (entry w shp) ids).
  Proof.
    intros H. induction ids as [|i r IH]; cbn; constructor.
    - destruct (H i (or_introl eq_refl)) as (Hp & ob & E). split; [exact Hp|]. split; [|reflexivity]. exists ob. split; [exact E|]. cbn. unfold name_in. fold h. rewrite E. reflexivity.
    - apply IH. intros j Hj. apply H. right. exact Hj.
  Qed.
  Lemma w_hierarchy f : forall k um m, tree f w shp k = Some (um, m) -> hierarchy h shp um m.
  Proof.
    induction f as [|f IH]; intros k um m H; [discriminate|]. apply tree_inv in H. destruct H as (f' & wm & tl & Ef & E & AL & LL & -> & ->). injection Ef as <-.
    constructor; cbn [m_inputs m_outputs m_declared m_subs].
    - apply listed_entries. intros i Hi. destruct (@i_ins _ _ IV k i) as (ob & Eo & _ & K & _); [cbn; fold w; rewrite (@lists_of wm_ins _ _ E); exact Hi|].
      split; [exists ob; auto|exists ob; exact Eo].
    - apply listed_entries. intros i Hi. destruct (@i_outs _ _ IV k i) as (ob & Eo & _ & K & _); [cbn; fold w; rewrite (@lists_of wm_outs _ _ E); exact Hi|].
      split; [|exists ob; exact Eo]. exists ob. split; [exact Eo|]. unfold is_output in K. destruct (ob_kind ob); try discriminate; auto.
    - apply listed_entries. intros i Hi. destruct (@i_decls _ _ IV k i) as (ob & Eo & _ & K & _); [cbn; fold w; rewrite (@lists_of wm_decls _ _ E); exact Hi|].
      split; [exists ob; auto|exists ob; exact Eo].
    - clear -LL. unfold sub_names. revert tl LL. induction (wm_subs wm) as [|t r IHr]; intros [|x tl] LL; cbn in *; try lia; constructor; [reflexivity|]. apply IHr. lia.
    - intros j a b Ha Hb. apply nth_combine in Ha, Hb. destruct Ha as [_ Ha], Hb as [_ Hb]. rewrite nth_error_map in Ha, Hb.
      destruct (nth_error tl j) as [x|] eqn:Ej; [|discriminate]. cbn in Ha, Hb. injection Ha as <-. injection Hb as <-.
      apply (@all_some_nth _ _ _ _ _ AL) in Ej. rewrite nth_error_map in Ej. destruct (nth_error (wm_subs wm) j) as [t|]; [|discriminate]. cbn in Ej. injection Ej as Ej.
      apply (IH (snd t)). rewrite Ej. destruct x; reflexivity.
  Qed.

  Theorem program_well_formed f k um m : tree f w shp k = Some (um, m) -> well_formed h um m shp.
  Proof.
    intros TR.
    assert (AT : forall p ins outs decls subs, um_at um p (UM ins outs decls subs) ->
        exists k' m', nth_error (w_models w) k' = Some m' /\ ins = wm_ins m' /\ outs = wm_outs m' /\ decls = wm_decls m' /\ map fst subs = sub_names m').
    { intros p ins outs decls subs A. destruct (@tree_um_at _ _ _ _ _ A _ _ _ TR) as (f' & k' & m' & T). apply tree_inv in T. destruct T as (f2 & wm & tl & _ & E & AL & LL & Eu & _).
      injection Eu as -> -> -> ->. exists k', wm. split; [exact E|]. split; [reflexivity|]. split; [reflexivity|]. split; [reflexivity|]. apply map_fst_combine. unfold sub_names. rewrite !map_length. lia. }
    assert (AS : forall p m', sub_at m p m' -> exists k' wm, nth_error (w_models w) k' = Some wm /\
        m_inputs m' = map (entry w shp) (wm_ins wm) /\ m_outputs m' = map (entry w shp) (wm_outs wm) /\ m_declared m' = map (entry w shp) (wm_decls wm) /\
        map fst (m_subs m') = map fst (wm_subs wm)).
    { intros p m' A. destruct (@tree_sub_at _ _ _ _ _ A _ _ _ TR) as (f' & k' & um' & T). apply tree_inv in T. destruct T as (f2 & wm & tl & _ & E & AL & LL & _ & ->).
      exists k', wm. cbn. repeat (split; [assumption || reflexivity|]). apply map_fst_combine. rewrite !map_length. lia. }
    assert (VN : forall p m' kd x s, sub_at m p m' -> In (x, s) (vars kd m') -> chosen_name x /\ has_dot x = false).
    { intros p m' kd x s A Hx. destruct (AS p m' A) as (k' & wm & E & E1 & E2 & E3 & _).
      assert (Q : exists i, In i (wm_ins wm ++ wm_outs wm ++ wm_decls wm) /\ name_in h i = x).
      { destruct kd; cbn in Hx; rewrite ?E1, ?E2, ?E3 in Hx; apply in_map_iff in Hx; destruct Hx as (i & Ei & Hi); unfold entry in Ei; injection Ei as Ei _;
          exists i; rewrite !in_app_iff; auto. }
      destruct Q as (i & Hi & <-). exact (@leaf_named _ _ _ E Hi). }
    assert (SC : forall p o, occurs h um p o -> exists k' m', nth_error (w_models w) k' = Some m' /\ own o k').
    { intros p o (ins & outs & decls & subs & A & Ho). destruct (AT _ _ _ _ _ A) as (k' & m' & E & -> & -> & -> & _). exists k', m'. split; [exact E|].
      apply (@scope_owned _ _ _ E). destruct Ho as [Ho|Ho]; [left; exact Ho|right]. clear -Ho. induction Ho as [x Hx|x y _ IH Hr|x y _ IH Hw].
      - apply needed_leaf. apply in_app_iff. auto.
      - eapply needed_dep; eassumption.
      - eapply needed_out; eassumption. }
    split.
    - eapply w_hierarchy, TR.
    - intros p m' A. destruct (AS p m' A) as (k' & wm & E & _ & _ & _ & ES). destruct (@subs_history _ FR _ _ E) as (S1 & S2).
      assert (EN : map (fun t => fst (fst t)) (m_subs m') = sub_names wm).
      { unfold sub_names. rewrite <- (map_map fst fst), ES, map_map. reflexivity. }
      split; [rewrite EN; exact S1|]. split; [|intros kd x s Hx; eapply VN; eassumption].
      intros nm pr sm Hs. destruct (S2 nm) as (Q1 & Q2 & _); [rewrite <- EN; apply in_map_iff; exists (nm, pr, sm); auto|]. auto.
    - intros p ins outs decls subs i A Hi. destruct (AT _ _ _ _ _ A) as (k' & m' & E & -> & -> & -> & _).
      destruct (@leaf_owned _ _ i E) as (_ & ob & Eo); [apply in_app_iff; auto|]. eapply nth_lt, Eo.
    - apply sinv_no_dangling, SI.
    - intros p ins outs decls subs o A Sc Vo. destruct (AT _ _ _ _ _ A) as (k' & m' & E & -> & -> & -> & _).
      destruct (@own_variable _ _ _ E (@scope_owned _ _ _ E Sc) Vo) as [(H1 & _ & H2)|H]; auto.
    - intros p kd x s (m' & A & Hx) i ob Ei. apply (VN p m' kd x s A Hx). exact (@num_used _ _ Ei).
    - exact w_alternates.
    - exact w_op_names.
    - intros p ins outs decls subs A. destruct (AT _ _ _ _ _ A) as (k' & m' & E & -> & -> & -> & ->). exact (@w_names _ _ E).
    - exact w_listed.
    - exact w_one.
    - exact w_distinct.
    - exact w_outputs.
    - intros p o _. apply w_computed.
    - intros p o Ho Vo (ob & Eo & Hn). destruct (SC p o Ho) as (k' & m' & E & Ow).
      destruct (@own_variable _ _ _ E Ow Vo) as [(_ & H & _)|H]; [exact H|]. exfalso. destruct (@leaf_named _ _ _ E H) as [C _]. unfold name_in in C. rewrite Eo in C. apply (C (ob_num ob)); [exact (@num_used _ _ Eo)|congruence].
  Qed.
End Final.
