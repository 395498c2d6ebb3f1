(** The graph of a model built by a history of calls. *)
From Verif Require Import PyBase NamesModel NamesProofs Digraph ExprModel ExprSpec UnflatModel UnflatSpec UnflatProofs UnflatProofs2 ExprProofs ExprProofs2.
Set Implicit Arguments.

Lemma hex_id_inj a b : (a < 62 * 63 ^ 4)%N -> (b < 62 * 63 ^ 4)%N -> hex_id a = hex_id b -> a = b.
Proof.
  intros Ha Hb. unfold hex_id. pose proof (gen_hex_name_total a) as Ta. pose proof (gen_hex_name_total b) as Tb.
  destruct (gen_hex_name a) as [x|] eqn:Ea; [|congruence]. destruct (gen_hex_name b) as [y|] eqn:Eb; [|congruence].
  intros ->. apply gen_hex_name_inj; congruence.
Qed.

(** Expression graphs alternate and every variable has one producer, whatever the history. *)
Theorem expression_graph l : let h := b_heap (history l) in
  (forall a b, flows h a b -> (variable h a /\ operation h b) \/ (operation h a /\ variable h b)) /\
  (forall a b v, variable h v -> flows h a v -> flows h b v -> a = b).
Proof.
  cbn zeta. set (h := b_heap (history l)). pose proof (history_sinv l) as S. fold h in S.
  assert (W : forall a v, writes h a v -> computed_by h v a).
  { intros a v (ob & E & O & Hv). destruct (ok_op (S _ _ E) O) as [_ H]. apply H, Hv. }
  assert (R : forall a v, variable h v -> reads h v a -> exists ob, nth_error h v = Some ob /\ ob_deps ob = [a] /\ operation h a).
  { intros a v (ob & E & O) (ob' & E' & Ha). rewrite E in E'. injection E' as <-.
    destruct (ok_var (S _ _ E) O) as [_ [H|(d & H & Hd)]]; rewrite H in Ha; [destruct Ha|]. destruct Ha as [<-|[]]. exists ob. auto. }
  split.
  - intros a b [H|H].
    + destruct H as (ob & E & Ha). destruct (is_op ob) eqn:O.
      * left. destruct (ok_op (S _ _ E) O) as [H1 _]. split; [apply H1, Ha|exists ob; auto].
      * right. assert (V : variable h b) by (exists ob; auto). split; [|exact V]. destruct (R a b V) as (_ & _ & _ & H); [exists ob; auto|exact H].
    + right. split; [destruct H as (ob & E & O & _); exists ob; auto|]. eapply computed_variable, W, H.
  - intros a b v V Ha Hb.
    assert (P : forall x, flows h x v -> exists ob, nth_error h v = Some ob /\ ob_deps ob = [x]).
    { intros x [H|H]; [destruct (R x v V H) as (ob & E & D & _); eauto|]. destruct (W _ _ H) as (ob & E & D & _). eauto. }
    destruct (P a Ha) as (o1 & E1 & D1). destruct (P b Hb) as (o2 & E2 & D2). congruence.
Qed.

Lemma sinv_no_dangling h : sinv h -> no_dangling h.
Proof.
  intros S x y [(ob & E & Hy)|(ob & E & O & Hy)].
  - destruct (is_op ob) eqn:O.
    + destruct (ok_op (S _ _ E) O) as [H _]. destruct (H y Hy) as (ob' & E' & _). apply nth_error_Some. congruence.
    + destruct (ok_var (S _ _ E) O) as [_ [H|(d & H & (ob' & E' & _))]]; rewrite H in Hy; [destruct Hy|]. destruct Hy as [<-|[]]. apply nth_error_Some. congruence.
  - destruct (ok_op (S _ _ E) O) as [_ H]. destruct (H y Hy) as (ob' & E' & _). apply nth_error_Some. congruence.
Qed.

Section History.
  Variables (l : list event) (subs : list (string * umodel)).
  Let s := history l.
  Let h := b_heap s.
  Hypothesis Clean : forall e, In e l -> clean_event (b_count s) e.
  Hypothesis Few : (b_count s <= 62 * 63 ^ 4)%N.
  Hypothesis Subs : map fst subs = b_subs s.

  Let N := ninv_history (nm := true) l Clean (fun H => match Bool.diff_true_false H with end).

  Lemma num_small o ob : nth_error h o = Some ob -> (ob_num ob < 62 * 63 ^ 4)%N.
  Proof. intros E. pose proof (n_num N _ E) as Q. eapply N.lt_le_trans; [exact Q|exact Few]. Qed.
  (** Operations and variables never share a name. *)
  Lemma op_var_names a b n : operation h a -> variable h b -> named h a n -> named h b n -> False.
  Proof.
    intros (oa & Ea & Oa) (ob & Eb & Ob) (oa' & Ea' & Na) (ob' & Eb' & Nb). rewrite Ea in Ea'. injection Ea' as <-. rewrite Eb in Eb'. injection Eb' as <-.
    assert (Ha := n_op N _ Ea Oa). destruct (n_name N _ Eb) as [Hb|Hb].
    - assert (ob_num oa = ob_num ob).
      { apply hex_id_inj; [eapply num_small; exact Ea|eapply num_small; exact Eb|congruence]. }
      assert (a = b) by (eapply (n_inj N); eassumption). subst. congruence.
    - apply (Hb (ob_num oa)); [exact (n_num N _ Ea)|congruence].
  Qed.
  Lemma op_sub_names a n : operation h a -> named h a n -> ~ In n (map fst subs).
  Proof.
    intros (oa & Ea & Oa) (oa' & Ea' & Na) Hn. rewrite Ea in Ea'. injection Ea' as <-. rewrite Subs in Hn. apply (n_subs N) in Hn.
    apply (Hn (ob_num oa) (n_num N _ Ea)). rewrite <- (n_op N _ Ea Oa). exact Na.
  Qed.
  Lemma op_names a b n : operation h a -> operation h b -> named h a n -> named h b n -> a = b.
  Proof.
    intros (oa & Ea & Oa) (ob & Eb & Ob) (oa' & Ea' & Na) (ob' & Eb' & Nb). rewrite Ea in Ea'. injection Ea' as <-. rewrite Eb in Eb'. injection Eb' as <-.
    eapply (n_inj N); [exact Ea|exact Eb|]. apply hex_id_inj; [eapply num_small; exact Ea|eapply num_small; exact Eb|].
    rewrite <- (n_op N _ Ea Oa), <- (n_op N _ Eb Ob). congruence.
  Qed.
  Lemma ins_valid i : In i (b_ins s) -> i < length h.
  Proof. intros Hi. destruct (n_ins N i Hi) as (ob & E & _). apply nth_error_Some. change (nth_error h i = Some ob) in E; congruence. Qed.
  Lemma scope_kind i : i < length h -> variable h i \/ operation h i.
  Proof.
    intros L. destruct (nth_error h i) as [ob|] eqn:E; [|apply nth_error_None in E; lia].
    destruct (is_op ob) eqn:O; [right|left]; exists ob; auto.
  Qed.

  Theorem history_builds p : (forall v n, variable h v -> named h v n -> In n (b_subs s) -> exists i, In i (b_ins s) /\ named h i n) ->
    (forall x sm, In (x, sm) subs -> buildable h sm) ->
    exists u, construct_all h p (UM (b_ins s) (b_outs s) (b_decls s) subs) = Ok u.
  Proof.
    intros VS HS. apply construct_all_ok; [apply sinv_no_dangling, history_sinv|]. constructor; [| |exact HS].
    - intros i Hi. rewrite !in_app_iff in Hi. apply nth_error_Some. destruct Hi as [Hi|[Hi|Hi]].
      + apply ins_valid in Hi. apply nth_error_Some. exact Hi.
      + destruct (n_outs N i Hi) as (ob & E & _). change (nth_error h i = Some ob) in E; congruence.
      + destruct (n_decls N i Hi) as (ob & E & _). change (nth_error h i = Some ob) in E; congruence.
    - split.
      + intros a b n _ _ Na Nb Va. destruct (scope_kind (i := b)) as [H|H]; [destruct Nb as (ob & E & _); apply nth_error_Some; congruence|exact H|].
        exfalso. exact (op_var_names H Va Nb Na).
      + intros a n _ Va Na Hn. rewrite Subs in Hn. exact (VS a n Va Na Hn).
  Qed.

  (** Operations have their own nodes. *)
  Theorem history_operations p u x :
    construct_all h p (UM (b_ins s) (b_outs s) (b_decls s) subs) = Ok u ->
    operation h x -> needed h (b_outs s) x -> node (ug_graph u) (NObj p x).
  Proof.
    intros H Ox Hx.
    destruct (@graph_of_model h p _ _ _ subs u ins_valid H) as (f & F1 & F2 & F3 & F4 & F5 & _).
    assert (UP : forall z, needed h (b_outs s) z -> needed h (b_outs s ++ b_decls s) z).
    { intros z. apply needed_mono. intros w Hw. apply in_app_iff. auto. }
    pose proof (UP _ Hx) as Hx'.
    assert (FX : f x = NObj p x).
    { destruct Ox as (ob & E & O). assert (Ox : operation h x) by (exists ob; auto).
      assert (Nx : named h x (ob_name ob)) by (exists ob; auto).
      destruct (F1 x (or_intror Hx')) as [(o & Eo & Ho & Hn)|(n & En & Hn & Nn)].
      - pose proof (proj1 (Hn _) Nx) as No. rewrite Eo. f_equal.
        destruct (scope_kind (i := o)) as [V|Oo].
        + destruct No as (ob' & E' & _). apply nth_error_Some. congruence.
        + exfalso. exact (op_var_names Ox V Nx No).
        + exact (op_names Oo Ox No Nx).
      - exfalso. exact (op_sub_names Ox Nn Hn). }
    assert (Z : exists z, needed h (b_outs s ++ b_decls s) z /\ (flows h x z \/ flows h z x)).
    { assert (PD : forall z, reads h x z -> exists z, needed h (b_outs s ++ b_decls s) z /\ (flows h x z \/ flows h z x)).
      { intros z Hr. exists z. split; [eapply needed_dep; [exact Hx'|exact Hr]|]. right. left. exact Hr. }
      destruct Hx as [x Hx|z x Hz Hr|z x Hz Hw].
      - destruct (n_outs N x Hx) as (ob & E & O & _). change (nth_error h x = Some ob) in E. exfalso.
        destruct Ox as (ob' & E' & O'). rewrite E in E'. injection E' as <-. unfold is_output, is_op in *. destruct (ob_kind ob); discriminate.
      - exists z. split; [apply UP, Hz|]. left. left. exact Hr.
      - exfalso. destruct (expression_graph l) as [BI _]. destruct (BI z x (or_intror Hw)) as [[V _]|[_ V]].
        + destruct V as (o1 & E1 & O1), Hw as (o2 & E2 & O2 & _). change (nth_error h z = Some o1) in E1. congruence.
        + exact (variable_not_op V Ox). }
    destruct Z as (z & Hz & Hf). apply F4. right. right.
    destruct Hf as [Hf|Hf]; [exists x, z|exists z, x]; rewrite FX; auto.
  Qed.

  (** The graph alternates variables and operations and each variable node has one producer,
      provided that no two computed variables share a name. *)
  Theorem history_graph p u :
    (forall a b n, variable h a -> variable h b -> (exists x, flows h x a) -> (exists x, flows h x b) -> named h a n -> named h b n -> a = b) ->
    construct_all h p (UM (b_ins s) (b_outs s) (b_decls s) subs) = Ok u ->
    (forall a b, edge (ug_graph u) a b -> exists x y, a = NObj p x /\ b = NObj p y /\
        ((variable h x /\ operation h y) \/ (operation h x /\ variable h y))) /\
    (forall a b v, variable h v -> edge (ug_graph u) a (NObj p v) -> edge (ug_graph u) b (NObj p v) -> a = b).
  Proof.
    intros PU H. destruct (expression_graph l) as [BI ON]. fold s h in BI, ON.
    destruct (@graph_of_model h p _ _ _ subs u ins_valid H) as (f & F1 & F2 & F3 & F4 & F5 & _).
    assert (FO : forall x, needed h (b_outs s ++ b_decls s) x -> operation h x -> exists o, f x = NObj p o /\ operation h o /\ o = x).
    { intros x Hx Ox. destruct Ox as (ob & E & O). assert (Ox : operation h x) by (exists ob; auto).
      assert (Nx : named h x (ob_name ob)) by (exists ob; auto).
      destruct (F1 x (or_intror Hx)) as [(o & Eo & Ho & Hn)|(n & En & Hn & Nn)].
      - pose proof (proj1 (Hn _) Nx) as No. exists o. split; [exact Eo|].
        destruct (scope_kind (i := o)) as [V|Oo].
        + destruct No as (ob' & E' & _). apply nth_error_Some. congruence.
        + exfalso. exact (op_var_names Ox V Nx No).
        + split; [exact Oo|]. exact (op_names Oo Ox No Nx).
      - exfalso. exact (op_sub_names Ox Nn Hn). }
    split.
    - intros a b E. apply F3 in E. destruct E as (x & y & Hx & Hy & Hf & -> & ->).
      destruct (BI x y Hf) as [[V O]|[O V]].
      + destruct (F5 x Hx V) as (o & Eo & Vo). destruct (FO y Hy O) as (o' & Eo' & Oo' & _). exists o, o'. auto.
      + destruct (F5 y Hy V) as (o & Eo & Vo). destruct (FO x Hx O) as (o' & Eo' & Oo' & _). exists o', o. auto.
    - intros a b v V Ea Eb. apply F3 in Ea, Eb.
      destruct Ea as (x & y & Hx & Hy & Hf & -> & Ey). destruct Eb as (x' & y' & Hx' & Hy' & Hf' & -> & Ey').
      assert (VY : forall z w, needed h (b_outs s ++ b_decls s) z -> flows h w z -> NObj p v = f z -> variable h z).
      { intros z w Hz Hwz Ez. destruct (BI w z Hwz) as [[_ O]|[_ Vz]]; [|exact Vz].
        destruct (FO z Hz O) as (o & Eo & Oo & _). rewrite Eo in Ez. injection Ez as <-. exfalso. exact (variable_not_op V Oo). }
      pose proof (VY y x Hy Hf Ey) as Vy. pose proof (VY y' x' Hy' Hf' Ey') as Vy'.
      assert (y = y').
      { destruct Vy as (oy & Ny & Oy). destruct Vy' as (oy' & Ny' & Oy').
        assert (K : ob_name oy = ob_name oy').
        { apply (F2 y y' (ob_name oy) (ob_name oy')); [right; exact Hy|right; exact Hy'|exists oy; auto|exists oy'; auto|congruence]. }
        apply (PU y y' (ob_name oy)); [exists oy; auto|exists oy'; auto|eauto|eauto|exists oy; auto|exists oy'; auto]. }
      subst y'. f_equal. exact (ON x x' y Vy Hf Hf').
  Qed.

  (** Without operations that name their own results, computed variables have distinct names. *)
  Theorem history_names : (forall e, In e l -> unnamed_results e) ->
    forall a b n, variable h a -> variable h b -> (exists x, flows h x a) -> (exists x, flows h x b) -> named h a n -> named h b n -> a = b.
  Proof.
    intros UN. pose proof (ninv_history (nm := false) l Clean (fun _ => UN)) as M. fold s in M. pose proof (history_sinv l) as S. fold s h in S.
    assert (K : forall v, variable h v -> (exists x, flows h x v) -> exists ob, nth_error h v = Some ob /\
       (ob_name ob = hex_id (ob_num ob) \/ (In v (b_outs s) /\ chosen_name (b_count s) (ob_name ob)))).
    { intros v (ob & E & O) (x & Hx). exists ob. split; [exact E|].
      assert (D : ob_deps ob <> []).
      { destruct Hx as [(ob' & E' & Hx)|(op & E' & O' & Hx)].
        - rewrite E in E'. injection E' as <-. intros D. rewrite D in Hx. destruct Hx.
        - destruct (ok_op (S _ _ E') O') as [_ H]. destruct (H v Hx) as (ob' & E'' & D & _). rewrite E in E''. injection E'' as <-. rewrite D. discriminate. }
      assert (OUT : In v (b_outs s) -> chosen_name (b_count s) (ob_name ob)).
      { intros Hi. destruct (n_outs M v Hi) as (o & Eo & _ & C). fold h in Eo. rewrite E in Eo. injection Eo as <-. exact C. }
      destruct (ob_kind ob) eqn:Kd.
      - exfalso. apply D. apply (n_leaf M _ E). auto.
      - exfalso. apply D. apply (n_leaf M _ E). auto.
      - destruct (n_out M _ E Kd eq_refl) as [H|H]; auto.
      - right. pose proof (n_con M _ E Kd) as Hi. auto.
      - unfold is_op in O. rewrite Kd in O. discriminate. }
    intros a b n Va Vb Pa Pb (oa & Ea & Na) (ob & Eb & Nb).
    destruct (K a Va Pa) as (oa' & Ea' & Ka). destruct (K b Vb Pb) as (ob' & Eb' & Kb). rewrite Ea in Ea'. injection Ea' as <-. rewrite Eb in Eb'. injection Eb' as <-.
    destruct Ka as [Ka|[Ka Ca]], Kb as [Kb|[Kb Cb]].
    - apply (n_inj M _ _ Ea Eb). apply hex_id_inj; [pose proof (n_num M _ Ea); lia|pose proof (n_num M _ Eb); lia|congruence].
    - exfalso. apply (Cb (ob_num oa)); [exact (n_num M _ Ea)|congruence].
    - exfalso. apply (Ca (ob_num ob)); [exact (n_num M _ Eb)|congruence].
    - apply (n_uniq M (n := n) Ka Kb); [exists oa|exists ob]; auto.
  Qed.
End History.
