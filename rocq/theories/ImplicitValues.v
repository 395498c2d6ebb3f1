(** Which supplied values the value of a variable depends on. *)
From Verif Require Import PyBase NamesModel NamesProofs PromotionsModel PromotionsSpec HierSpec Digraph TopoSpec ExprModel UnflatModel UnflatSpec
  FlatModel FlattenModel FlattenSpec CompileModel CompileSpec ExecProofs CompileProofs Prop_Compile ImplicitModel ImplicitSpec ImplicitSpec2 ImplicitProofs ImplicitProofs2.
Local Open Scope list_scope.

Lemma deps_reads h x y : In y (deps_of h x) <-> reads h x y.
Proof.
  unfold deps_of, reads. split.
  - destruct (nth_error h x) as [ob|] eqn:E; [eauto|intros []].
  - intros (ob & -> & H). exact H.
Qed.
Lemma named_name_of h o n : named h o n -> name_of h o = n.
Proof. intros (ob & E & H). unfold name_of. now rewrite E. Qed.
Lemma dotted_nil x : dotted [] x = x.
Proof. reflexivity. Qed.

Lemma Forall2_left {A B} (R : A -> B -> Prop) l1 l2 k a : Forall2 R l1 l2 -> nth_error l1 k = Some a -> exists b, nth_error l2 k = Some b /\ R a b.
Proof.
  intros F. revert k. induction F as [|x y l1 l2 H F IH]; intros [|k]; cbn; try discriminate.
  - intros E. injection E as <-. eauto.
  - apply IH.
Qed.

Section Values.
  Context {V : Type} (h : list obj) (shp : nat -> shape) (dflt : nat -> bool) (m : model) (c : compiled).
  Context (ins outs decls : list nat) (subs : list (string * umodel)).
  Notation um := (UM ins outs decls subs).
  Context (apply : nat -> list V -> nat -> V).
  Hypothesis (WF : well_formed h um m shp) (TI : inputs_not_targets h um m) (CO : compile h shp dflt um m = Ok c).

  Definition here (o : nat) : Prop := In o ins \/ needed h outs o.
  Lemma here_occurs o : here o -> occurs h um [] o.
  Proof. intros H. exists ins, outs, decls, subs. split; [constructor|exact H]. Qed.
  Lemma needed_incl l l' o : incl l l' -> needed h l o -> needed h l' o.
  Proof. intros I H. induction H; [apply needed_leaf; auto|eapply needed_dep; eauto|eapply needed_out; eauto]. Qed.

  Lemma out_object o : In o outs -> output_object h o.
  Proof.
    pose proof (f_hierarchy WF) as H. inversion H as [? ? ? ? ? _ F _ _ _]; subst. intros Ho.
    apply In_nth_error in Ho as [k Ek]. destruct (Forall2_left _ _ _ _ _ F Ek) as (y & _ & O & _). exact O.
  Qed.
  Lemma leaf_declared o : here o -> variable h o -> leaf h o -> In o ins \/ In o decls.
  Proof.
    intros Ho Vo L.
    assert (NO : ~ output_object h o).
    { intros O. destruct (f_computed WF [] o (here_occurs o Ho) O) as (a & Wa). apply (f_listed WF a o Vo) in Wa.
      apply deps_reads in Wa. rewrite L in Wa. destruct Wa. }
    destruct (f_uses_own WF [] ins outs decls subs o) as [[A _]|I]; [constructor| |exact Vo| |].
    - destruct Ho as [Ho|Ho]; [now left|right]. eapply needed_incl; [|exact Ho]. apply incl_appl, incl_refl.
    - exfalso. apply NO. eapply (f_generated WF); [apply here_occurs, Ho|exact Vo|exact A].
    - rewrite !in_app_iff in I. destruct I as [I|[I|I]]; auto. exfalso. apply NO, out_object, I.
  Qed.
  Lemma here_name o : here o -> variable h o -> exists n, named h o n /\ promoted_ns m [] n [].
  Proof. intros _ (ob & E & _). exists (ob_name ob). split; [exists ob; auto|constructor]. Qed.

  (** The value of a variable without dependencies. *)
  Lemma leaf_value o init val : here o -> variable h o -> leaf h o -> supplied h um m o -> solves h um m apply init val ->
    val [] o = init (name_of h o).
  Proof.
    intros Ho Vo L (n & Nn & Only & NT) S. rewrite (named_name_of _ _ _ Nn). destruct (leaf_declared o Ho Vo L) as [I|I].
    - apply (s_inputs _ _ _ _ _ _ S). exists n, []. split; [|split; [constructor|reflexivity]].
      split; [exact Nn|]. exists ins, outs, decls, subs. split; [constructor|exact I].
    - apply (s_free _ _ _ _ _ _ S); [apply here_occurs, Ho| |exact Only|exact NT].
      exists n, []. split; [|split; [constructor|reflexivity]]. split; [exact Nn|]. exists ins, outs, decls, subs. split; [constructor|exact I].
  Qed.

  (** Two solutions agree on a set of variables closed under "is computed from" if the supplied
      values agree on its leaves. *)
  Context (init init' : string -> V).
  Notation val := (result h shp dflt apply init c).
  Notation val' := (result h shp dflt apply init' c).
  Context (D : nat -> Prop).
  Hypothesis (D_here : forall o, D o -> here o /\ variable h o).
  Hypothesis (D_step : forall o y, D o -> step h o y -> D y).
  Hypothesis (D_leaf : forall o, D o -> leaf h o -> supplied h um m o /\ init (name_of h o) = init' (name_of h o)).

  Lemma In_nth_pos (l : list nat) v : In v l -> exists k, nth_error l k = Some v.
  Proof. apply In_nth_error. Qed.

  Lemma agree : forall o, D o -> val [] o = val' [] o.
  Proof.
    destruct (c87_order h shp dflt um m c WF TI CO) as (ND & _ & _ & OP & VAR & ARG & RES & PREC).
    pose proof (c87_program_solves_model V h shp dflt um m c apply init WF TI CO) as S.
    pose proof (c87_program_solves_model V h shp dflt um m c apply init' WF TI CO) as S'.
    assert (G : forall k l1 l2 o, length l1 = k -> c_order c = l1 ++ node_of h c [] o :: l2 -> D o -> val [] o = val' [] o).
    { induction k as [k IH] using lt_wf_ind. intros l1 l2 o Lk E Do. destruct (D_here o Do) as [Ho Vo].
      destruct (deps_of h o) as [|a rest] eqn:Ed.
      - destruct (D_leaf o Do Ed) as [Sup Eq]. rewrite (leaf_value o init val Ho Vo Ed Sup S), (leaf_value o init' val' Ho Vo Ed Sup S'). exact Eq.
      - assert (Ra : reads h o a) by (apply deps_reads; rewrite Ed; now left).
        assert (Na : needed h outs a \/ False).
        { destruct Ho as [Ho|Ho]; [exfalso|left; eapply needed_dep; eassumption].
          assert (IO : input_object h o).
          { pose proof (f_hierarchy WF) as H. inversion H as [? ? ? ? ? F _ _ _ _]; subst. apply In_nth_error in Ho as [i Ei]. destruct (Forall2_left _ _ _ _ _ F Ei) as (y & _ & O & _). exact O. }
          pose proof (proj1 (f_listed WF a o Vo) Ra) as Wa. destruct (f_outputs WF a o Wa) as (ob & Eo & K). destruct IO as (ob' & Eo' & K').
          rewrite Eo in Eo'. injection Eo' as <-. destruct K; congruence. }
        destruct Na as [Na|[]]. assert (Ha : here a) by now right.
        pose proof (proj1 (f_listed WF a o Vo) Ra) as Wa. pose proof Wa as (ob & Eb & Oa & Io).
        assert (Opa : operation h a) by (exists ob; auto).
        apply In_nth_pos in Io as [j Ej].
        rewrite (s_operations _ _ _ _ _ _ S [] a ob j o (here_occurs a Ha) Eb Oa Ej), (s_operations _ _ _ _ _ _ S' [] a ob j o (here_occurs a Ha) Eb Oa Ej).
        f_equal. apply map_ext_in. intros y Iy.
        assert (St : step h o y). { exists a. split; [rewrite Ed; now left|]. apply deps_reads. exists ob; auto. }
        pose proof (D_step o y Do St) as Dy. destruct (D_here y Dy) as [Hy Vy].
        (* the node of y precedes the node of o *)
        assert (E1 : edge (c_graph c) (node_of h c [] y) (NObj [] a)).
        { apply (ARG [] a _ (here_occurs a Ha) Opa). exists y. split; [exists ob; auto|reflexivity]. }
        assert (E2 : edge (c_graph c) (NObj [] a) (node_of h c [] o)).
        { apply (RES [] a _ (here_occurs a Ha) Opa). exists o. split; [exact Wa|reflexivity]. }
        pose proof (precedes_trans ND (PREC _ _ E1) (PREC _ _ E2)) as Pr.
        pose proof (@precedes_split _ _ _ _ _ _ ND Pr E) as Il. apply in_split in Il as (j1 & j2 & Ej1).
        apply (IH (length j1)) with (l1 := j1) (l2 := j2 ++ node_of h c [] o :: l2); [|reflexivity| |exact Dy].
        + rewrite <- Lk, Ej1, app_length. cbn. lia.
        + rewrite E, Ej1, <- app_assoc. reflexivity. }
    intros o Do. destruct (D_here o Do) as [Ho Vo]. pose proof (VAR [] o (here_occurs o Ho) Vo) as I. apply in_split in I as (l1 & l2 & E).
    exact (G _ l1 l2 o eq_refl E Do).
  Qed.
End Values.

Section Recorded.
  Context {V : Type} (h : list obj) (shp : nat -> shape) (dflt : nat -> bool) (m : model) (c : compiled).
  Context (ins outs decls : list nat) (subs : list (string * umodel)).
  Notation um := (UM ins outs decls subs).
  Context (apply : nat -> list V -> nat -> V) (init init' : string -> V).
  Hypothesis (WF : well_formed h um m shp) (TI : inputs_not_targets h um m) (CO : compile h shp dflt um m = Ok c).

  Lemma needed_step r o y : In r outs -> (o = r \/ needed h outs o) -> variable h o -> step h o y -> needed h outs y /\ variable h y.
  Proof.
    intros Ir Ho Vo (a & Ia & Iy). apply deps_reads in Ia, Iy.
    assert (No : needed h outs o) by (destruct Ho as [->|Ho]; [now apply needed_leaf|exact Ho]).
    split; [eapply needed_dep; [eapply needed_dep; eassumption|exact Iy]|].
    assert (Wa := proj1 (f_listed WF a o Vo) Ia). destruct Wa as (ob & Eb & Oa & _).
    destruct (f_alternates WF y a (or_introl Iy)) as [[K _]|[_ (ob' & Eb' & K)]]; [exact K|congruence].
  Qed.
  (** The value of [r] depends only on its inputs, if these are supplied. *)
  Lemma determined r : In r outs -> (forall v, inputs_of h r v -> supplied h um m v /\ init (name_of h v) = init' (name_of h v)) ->
    result h shp dflt apply init c [] r = result h shp dflt apply init' c [] r.
  Proof.
    intros Ir Hs.
    assert (Vr : variable h r).
    { edestruct out_object as (ob & E & K); try exact Ir; try eassumption. exists ob. split; [exact E|].
      unfold is_op. destruct K as [->| ->]; reflexivity. }
    assert (DI : forall o, (o = r \/ uses h (name_of h r) r o) -> needed h outs o /\ variable h o).
    { intros o [->|U]; [split; [now apply needed_leaf|exact Vr]|].
      revert U. generalize (name_of h r). intros self U. revert Ir Vr. clear Hs. induction U as [x y St _|x y z _ IH St _]; intros Ir Vr.
      - eapply needed_step; [exact Ir|now left| exact Vr|exact St].
      - destruct (IH Ir Vr) as [IH1 IH2]. eapply needed_step; [exact Ir|right; exact IH1|exact IH2|exact St]. }
    apply (@agree V h shp dflt m c ins outs decls subs apply WF TI CO init init' (fun o => o = r \/ uses h (name_of h r) r o)).
    - intros o Do. destruct (DI o Do) as [N Vo]. split; [right; exact N|exact Vo].
    - intros o y Do St. destruct (string_dec (name_of h y) (name_of h r)) as [En|Nn].
      + left.
        assert (Ny : needed h outs y /\ variable h y). { destruct (DI o Do) as [N Vo]. eapply needed_step; [exact Ir|right; exact N|exact Vo|exact St]. }
        assert (Inc : incl outs (outs ++ decls)) by apply incl_appl, incl_refl.
        destruct (f_names WF [] ins outs decls subs) as [NA _]; [constructor|].
        destruct Ny as [Ny (oy & Ey & _)]. destruct Vr as (or & Er & _).
        apply (NA y r (ob_name or)).
        * right. eapply needed_incl; eassumption.
        * right. apply needed_leaf, in_app_iff. auto.
        * exists oy. split; [exact Ey|]. unfold name_of in En. rewrite Ey, Er in En. exact En.
        * exists or; auto.
      + right. destruct Do as [->|U]; [now constructor|econstructor; eassumption].
    - intros o [->|U] L.
      + exfalso. edestruct out_object as (ob & E & K); try exact Ir; try eassumption.
        destruct (f_computed WF [] r) as (a & Wa); [exists ins, outs, decls, subs; split; [constructor|right; now apply needed_leaf]|exists ob; auto|].
        apply (f_listed WF a r Vr) in Wa. apply deps_reads in Wa. rewrite L in Wa. destruct Wa.
      + apply Hs. split; assumption.
    - now left.
  Qed.
End Recorded.
