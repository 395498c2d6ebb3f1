(** Values depend only on which variables are linked. *)
From Verif Require Import PyBase NamesModel PromotionsModel PromotionsSpec HierModel HierSpec Digraph TopoModel FlatModel ExprModel UnflatModel UnflatSpec
  FlattenModel FlattenSpec CompileModel CompileSpec HierProofs CompileProofs IterModel IterSpec Prop_Iter LookupProofs AcceptSpec DependSpec DependProofs SubProofs ViewProofs LinkSpec.
Local Open Scope list_scope.

Section L.
  Context (it : iteration) (h : list obj) (shp : nat -> shape) (dflt : nat -> bool) (um : umodel) (m : model) (c : compiled).
  Context (L : lawful it) (WF : well_formed h um m shp) (TI : inputs_not_targets h um m) (H : compile_in it h shp dflt um m = Ok c).
  Definition free p o := exists n, called h um m p KDeclared o n /\ unsupplied h um m n.

  Lemma free_linked p o p' o' : linked h um m p o p' o' -> free p o <-> free p' o'.
  Proof.
    induction 1 as [p o Ho Vo|p k o p' k' o' n Ho Ho' C C'|p0 a b na nb p k o p' k' o' D R R' Ho Ho' C C'|p o p' o' _ IH|p o p' o' p'' o'' _ IH1 _ IH2].
    - tauto.
    - assert (G : forall p k o p' k' o', called h um m p k o n -> called h um m p' k' o' n -> free p o -> free p' o').
      { intros p1 k1 o1 p2 k2 o2 C1 C2 (n' & F & U). destruct (called_fun h shp um m WF _ _ _ _ _ _ C1 F) as [_ <-]. exists n. split; [|exact U].
        destruct U as [U _]. rewrite <- (U _ _ _ C2). exact C2. }
      split; eapply G; eassumption.
    - destruct (c_enforced it h shp dflt um m c L WF TI H) as (_ & AC & _). destruct (AC _ _ _ D) as (na' & nb' & Ra & Rb & _ & ps & ks & os & _ & _ & Cs & K & _).
      destruct (compiled_maps _ _ _ _ _ _ _ H) as (mp & MP). pose proof (resolves_fun _ _ _ _ _ (f_named WF) MP R Ra) as <-.
      split; intros (n & F & U1 & U2); exfalso.
      + destruct (called_fun h shp um m WF _ _ _ _ _ _ C F) as [_ <-]. apply K. eapply U1, Cs.
      + destruct (called_fun h shp um m WF _ _ _ _ _ _ C' F) as [_ <-]. apply U2. exists p0, a, b. auto.
    - tauto.
    - tauto.
  Qed.
  (** A declared variable is free, or it is linked to one that is not declared. *)
  Lemma free_or_fed p o n : occurs h um p o -> called h um m p KDeclared o n ->
    unsupplied h um m n \/ exists p' k o' n', linked h um m p o p' o' /\ called h um m p' k o' n' /\ k <> KDeclared.
  Proof.
    intros Ho C. assert (Vo : variable h o) by (eapply called_variable; eassumption).
    assert (D : declared_object h o) by exact (called_kind h shp um m WF _ _ _ _ C).
    destruct (d_kept it h shp dflt um m c L WF TI H p o Ho Vo) as (p1 & o1 & E & Ho1 & Vo1 & _).
    assert (S : forall p2 k2 o2 n2, called h um m p2 k2 o2 n2 -> k2 <> KDeclared -> feeds h um m p2 o2 p o -> p2 = p1 /\ o2 = o1 /\ exists n3, called h um m p1 k2 o1 n3).
    { intros p2 k2 o2 n2 C2 K F. assert (Ho2 : occurs h um p2 o2) by (eapply called_occurs; eassumption). assert (Vo2 : variable h o2) by (eapply called_variable; eassumption).
      assert (ND : ~ declared_object h o2). { intros D2. apply K. eapply (kinds_excl h o2 k2 KDeclared); [exact (called_kind h shp um m WF _ _ _ _ C2)|exact D2]. }
      apply (v_feeds it h shp dflt um m c L WF TI H p2 o2 p o Ho2 Vo2 ND Ho Vo) in F.
      rewrite (node_of_source it h shp dflt um m c p2 o2 L WF TI H Ho2 Vo2 ND) in F. rewrite E in F. injection F as -> ->. eauto. }
    assert (Q : declared_object h o1 \/ ~ declared_object h o1).
    { unfold declared_object. destruct (nth_error h o1) as [ob|]; [|right; intros (ob & X & _); discriminate].
      destruct (ob_kind ob) eqn:Kb; try (right; intros (ob' & X & Y); injection X as <-; congruence). left. eauto. }
    destruct Q as [Q|Q].
    - left. assert (NS : forall p2 k2 o2 n2, called h um m p2 k2 o2 n2 -> feeds h um m p2 o2 p o -> k2 = KDeclared).
      { intros p2 k2 o2 n2 C2 F. assert (NK : ~ k2 <> KDeclared).
        { intros K. destruct (S _ _ _ _ C2 K F) as (_ & _ & n3 & C3). apply K. eapply (kinds_excl h o1 k2 KDeclared); [exact (called_kind h shp um m WF _ _ _ _ C3)|exact Q]. }
        destruct k2; try reflexivity; exfalso; apply NK; discriminate. }
      split; [intros p2 k2 o2 C2; eapply NS; [exact C2|]; right; left; exists k2, KDeclared, n; auto|].
      intros (p0 & a & b & Dc & R). destruct (c_enforced it h shp dflt um m c L WF TI H) as (_ & AC & _).
      destruct (AC _ _ _ Dc) as (na & nb & Ra & Rb & _ & ps & ks & os & _ & _ & Cs & K & _). apply K. eapply NS; [exact Cs|]. right. right. exists p0, a, b, na, n, ks, KDeclared. auto.
    - right. assert (F : feeds h um m p1 o1 p o).
      { apply (v_feeds it h shp dflt um m c L WF TI H p1 o1 p o Ho1 Vo1 Q Ho Vo). rewrite E. exact (node_of_source it h shp dflt um m c p1 o1 L WF TI H Ho1 Vo1 Q). }
      assert (NK : forall k1 n1, called h um m p1 k1 o1 n1 -> k1 <> KDeclared) by (intros k1 n1 C1 ->; exact (Q (called_kind h shp um m WF _ _ _ _ C1))).
      destruct F as [[<- <-]|[(k1 & k2 & n1 & C1 & C2)|(p0 & a & b & pa & pb & k1 & k2 & Dc & Ra & Rb & C1 & C2)]]; [destruct (Q D)| |].
      + exists p1, k1, o1, n1. split; [eapply l_name; eassumption|]. eauto.
      + exists p1, k1, o1, pa. split; [apply l_sym; eapply l_conn; eassumption|]. eauto.
  Qed.
  Lemma linked_equal V (apply : nat -> list V -> nat -> V) init val : solves h um m apply init val -> forall p o p' o', linked h um m p o p' o' -> val p o = val p' o'.
  Proof.
    intros [_ S2 S3 _ _] p o p' o' K. induction K as [p o Ho Vo|p k o p' k' o' n Ho Ho' C C'|p0 a b na nb p k o p' k' o' D R R' Ho Ho' C C'| |]; try congruence; [eapply S2; eassumption|symmetry; eapply S3; eassumption].
  Qed.
  Lemma same_node p o p' o' : linked h um m p o p' o' <->
    occurs h um p o /\ variable h o /\ occurs h um p' o' /\ variable h o' /\ node_of h c p o = node_of h c p' o'.
  Proof.
    split.
    - induction 1 as [p o Ho Vo|p k o p' k' o' n Ho Ho' C C'|p0 a b na nb p k o p' k' o' D R R' Ho Ho' C C'|p o p' o' _ IH|p o p' o' p'' o'' _ IH1 _ IH2]; [auto| | | |].
      + split; [exact Ho|]. split; [eapply called_variable; eassumption|]. split; [exact Ho'|]. split; [eapply called_variable; eassumption|]. eapply d_same_name; eassumption.
      + split; [exact Ho|]. split; [eapply called_variable; eassumption|]. split; [exact Ho'|]. split; [eapply called_variable; eassumption|]. symmetry. eapply d_connected; eassumption.
      + destruct IH as (A1 & A2 & A3 & A4 & A5). auto.
      + destruct IH1 as (A1 & A2 & A3 & A4 & A5), IH2 as (B1 & B2 & B3 & B4 & B5). do 4 (split; [assumption|]). congruence.
    - intros (Ho & Vo & Ho' & Vo' & E).
      assert (G : forall p o p1 o1, occurs h um p o -> variable h o -> occurs h um p1 o1 -> variable h o1 -> node_of h c p o = NObj p1 o1 -> linked h um m p1 o1 p o).
      { intros q v p1 o1 Hq Vq H1 V1 Eq. apply (d_share it h shp dflt um m c L WF TI H (linked h um m p1 o1)) with (p' := p1) (o' := o1); try assumption; [| |apply l_self; assumption].
        - intros p2 k o2 p3 k' o3 n H2 H3 C2 C3 K. eapply l_trans; [exact K|eapply l_name; eassumption].
        - intros p0 a b pa pb p2 k o2 p3 k' o3 D R R' H2 H3 C2 C3 K. eapply l_trans; [exact K|eapply l_conn; eassumption]. }
      destruct (d_kept it h shp dflt um m c L WF TI H p o Ho Vo) as (p1 & o1 & E1 & H1 & V1 & _).
      eapply l_trans; [apply l_sym, (G p o p1 o1 Ho Vo H1 V1 E1)|]. rewrite E in E1. exact (G p' o' p1 o1 Ho' Vo' H1 V1 E1).
  Qed.
End L.

Section T.
  Context (it it' : iteration) (h : list obj) (shp : nat -> shape) (dflt dflt' : nat -> bool) (um : umodel) (m m' : model) (c c' : compiled).
  Context (L : lawful it) (WF : well_formed h um m shp) (TI : inputs_not_targets h um m) (H : compile_in it h shp dflt um m = Ok c).
  Context (L' : lawful it') (WF' : well_formed h um m' shp) (TI' : inputs_not_targets h um m') (H' : compile_in it' h shp dflt' um m' = Ok c').
  Context (EQ : forall p o p' o', linked h um m p o p' o' <-> linked h um m' p o p' o').

  Lemma called_in p k o n : called h um m p k o n -> exists n', called h um m' p k o n'.
  Proof. intros (x & q & M & _). destruct (called_total h shp um m' WF' p k o x M) as (q' & _ & C). eauto. Qed.
  Lemma called_back p k o n : called h um m' p k o n -> exists n', called h um m p k o n'.
  Proof. intros (x & q & M & _). destruct (called_total h shp um m WF p k o x M) as (q' & _ & C). eauto. Qed.
  Lemma free_kept p o n n' : occurs h um p o -> called h um m p KDeclared o n -> unsupplied h um m n -> called h um m' p KDeclared o n' -> unsupplied h um m' n'.
  Proof.
    intros Ho C U C'. destruct (free_or_fed it' h shp dflt' um m' c' L' WF' TI' H' p o n' Ho C') as [X|(p1 & k & o1 & n1 & K & C1 & NK)]; [exact X|exfalso]. apply EQ in K.
    destruct (proj1 (free_linked it h shp dflt um m c L WF TI H _ _ _ _ K) (ex_intro _ n (conj C U))) as (n2 & F & _).
    destruct (called_back _ _ _ _ C1) as (n3 & C3). destruct (called_fun h shp um m WF _ _ _ _ _ _ C3 F) as [E _]. exact (NK E).
  Qed.
  Lemma linked_solves V (apply : nat -> list V -> nat -> V) init init' :
    (forall p o n n', called h um m p KInput o n -> called h um m' p KInput o n' -> init n = init' n') ->
    (forall p o n n', occurs h um p o -> called h um m p KDeclared o n -> called h um m' p KDeclared o n' -> unsupplied h um m n -> unsupplied h um m' n' -> init n = init' n') ->
    solves h um m apply init (result h shp dflt' apply init' c').
  Proof.
    intros I1 I2. pose proof (in_solves it' h shp dflt' um m' c' L' WF' TI' H' V apply init') as S. pose proof (linked_equal h um m' V apply init' _ S) as Q. destruct S as [S1 _ _ S4 S5]. split.
    - exact S1.
    - intros p k o p' k' o' n Ho Ho' C C'. apply Q, EQ. eapply l_name; eassumption.
    - intros p0 a b pa pb p k o p' k' o' D R R' Ho Ho' C C'. symmetry. apply Q, EQ. eapply l_conn; eassumption.
    - intros p o n C. destruct (called_in _ _ _ _ C) as (n' & C'). rewrite (I1 p o n n' C C'). apply S4, C'.
    - intros p o n Ho C U1 U2. destruct (called_in _ _ _ _ C) as (n' & C'). pose proof (free_kept p o n n' Ho C (conj U1 U2) C') as U'.
      rewrite (I2 p o n n' Ho C C' (conj U1 U2) U'). destruct U' as [U1' U2']. apply S5; assumption.
  Qed.
  Lemma linked_result V (apply : nat -> list V -> nat -> V) init init' :
    (forall p o n n', called h um m p KInput o n -> called h um m' p KInput o n' -> init n = init' n') ->
    (forall p o n n', occurs h um p o -> called h um m p KDeclared o n -> called h um m' p KDeclared o n' -> unsupplied h um m n -> unsupplied h um m' n' -> init n = init' n') ->
    forall p o, occurs h um p o -> variable h o -> result h shp dflt' apply init' c' p o = result h shp dflt apply init c p o.
  Proof. intros I1 I2 p o Ho Vo. exact (in_unique it h shp dflt um m c L WF TI H V apply init _ (linked_solves V apply init init' I1 I2) p o Ho Vo). Qed.
End T.
