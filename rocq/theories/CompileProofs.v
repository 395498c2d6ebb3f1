(** The flat graph of a compiled model, in terms of the objects of the model. *)
From Verif Require Import PyBase NamesModel NamesProofs PromotionsModel PromotionsSpec PromotionsProofs PromotionsProofs2 HierModel HierSpec HierProofs Digraph
  FlatModel FlatSpec FlatProofs ConnProofs ConnProofs2 ExprModel UnflatModel UnflatSpec UnflatProofs UnflatProofs2 FlattenModel FlattenSpec FlattenProofs
  FlattenProofs2 FlattenProofs3 FlattenProofs4 TopoModel TopoSpec TopoProofs CompileModel CompileSpec ExecProofs.
From Coq Require Import Permutation.

(** The passes in sequence, whatever the order in which the sets of submodels and of
    redundant targets are visited. *)
Definition compiles h shp dflt um m c : Prop := exists r u g g1,
  resolve m None = Ok r /\ built h um u /\
  c_p2u c = rp_p2u r /\ c_u2p c = create_reverse_map (rp_p2u r) /\
  flatten h (rp_p2u r) (create_reverse_map (rp_p2u r)) u = Ok (g, c_log c) /\
  merge_auto_any irnode_eqb (node_attr h shp dflt (c_log c)) g g1 /\
  merge_connections irnode_eqb (node_attr h shp dflt (c_log c)) g1 (collect_connections m "") (rp_p2u r) (create_reverse_map (rp_p2u r))
    = Ok (c_graph c, c_p2n c, c_u2n c, c_conns c) /\
  flat_sorted_nodes irnode_eqb (c_graph c) = Ok (c_order c) /\
  rep_connections m = Ok (c_connections c) /\ rep_design_variables m = Ok (c_dvs c) /\ rep_constraints m = Ok (c_cons c) /\
  exists m', rep_objective m = Ok (c_objective c, m').
Lemma compile_compiles h shp dflt um m c : compile h shp dflt um m = Ok c -> compiles h shp dflt um m c.
Proof.
  unfold compile. intros H. apply inv_bind' in H. destruct H as (r & R & H). cbv zeta in H.
  apply inv_bind' in H. destruct H as (cs & CS & H). apply inv_bind' in H. destruct H as (dvs & DV & H).
  apply inv_bind' in H. destruct H as ([ob m'] & OB & H). apply inv_bind' in H. destruct H as (csts & CT & H).
  apply inv_bind' in H. destruct H as (u & U & H). apply inv_bind' in H. destruct H as ([g log] & F & H). cbn [fst snd] in H.
  apply inv_bind' in H. destruct H as (g1 & M & H). apply inv_bind' in H. destruct H as ([[[g2 p2n] u2n] conns] & MC & H).
  apply inv_bind' in H. destruct H as (order & S & H). injection H as <-. exists r, u, g, g1. cbn [c_p2u c_u2p c_connections c_dvs c_objective c_cons c_log c_graph c_p2n c_u2n c_conns c_order].
  split; [exact R|]. split; [apply built_self, U|]. repeat (split; [first [reflexivity|eassumption|apply merge_auto_any_self; eassumption]|]). eauto.
Qed.

Section C.
  Context (h : list obj) (shp : nat -> shape) (dflt : nat -> bool) (um : umodel) (m : model) (c : compiled).
  Hypothesis (WF : well_formed h um m shp) (TI : inputs_not_targets h um m).
  Context (r : rp) (u : ugraph) (g g1 : digraph irnode).
  Hypothesis (R : resolve m None = Ok r) (B : built h um u).
  Hypothesis (F : flatten h (rp_p2u r) (create_reverse_map (rp_p2u r)) u = Ok (g, c_log c)).
  Local Notation attr := (node_attr h shp dflt (c_log c)).
  Hypothesis (M : merge_auto_any irnode_eqb attr g g1).
  Hypothesis (MC : merge_connections irnode_eqb attr g1 (collect_connections m "") (rp_p2u r) (create_reverse_map (rp_p2u r))
    = Ok (c_graph c, c_p2n c, c_u2n c, c_conns c)).
  Hypothesis (SO : flat_sorted_nodes irnode_eqb (c_graph c) = Ok (c_order c)).

  Local Notation HI := (f_hierarchy WF).
  Local Notation W := (f_named WF).
  Local Notation IE := (f_inputs WF).
  Local Notation UO := (f_uses_own WF).
  Local Notation CN := (f_chosen WF).
  Local Notation AL := (f_alternates WF).
  Local Notation ON := (f_op_names WF).
  Local Notation occ := (occurs h um).
  Local Notation call := (called h um m).

  Lemma kind_var o k : (match k with KInput => input_object h o | KOutput => output_object h o | KDeclared => declared_object h o end) -> variable h o.
  Proof.
    intros K. destruct k; destruct K as (ob & E & K); exists ob; (split; [exact E|]); unfold is_op; [|destruct K as [K|K]|]; rewrite K; reflexivity.
  Qed.
  Lemma op_not_var o : operation h o -> variable h o -> False.
  Proof. intros (a & E & O) (b & E' & O'). congruence. Qed.

  (** ** Members *)
  Lemma member_kind p k o x : member h um p k o x ->
    match k with KInput => input_object h o | KOutput => output_object h o | KDeclared => declared_object h o end.
  Proof. intros Hm. destruct (member_own HI Hm) as (s & _ & _ & K). exact K. Qed.
  Lemma kinds_excl o k k' :
    match k with KInput => input_object h o | KOutput => output_object h o | KDeclared => declared_object h o end ->
    match k' with KInput => input_object h o | KOutput => output_object h o | KDeclared => declared_object h o end -> k = k'.
  Proof.
    intros K K'. destruct k, k'; try reflexivity; destruct K as (ob & E & K); destruct K' as (ob' & E' & K'); rewrite E in E'; injection E' as <-;
      try (destruct K as [K|K]); try (destruct K' as [K'|K']); congruence.
  Qed.
  Lemma called_kind p k o pn : call p k o pn ->
    match k with KInput => input_object h o | KOutput => output_object h o | KDeclared => declared_object h o end.
  Proof. intros (x & q & Hm & _). eapply member_kind, Hm. Qed.
  Lemma um_at_sub p um' : um_at um p um' -> exists m', sub_at m p m'.
  Proof. intros A. destruct (hier_at HI A) as (m' & A' & _). eauto. Qed.
  Lemma member_path p k o x : member h um p k o x -> exists m', sub_at m p m'.
  Proof. intros (_ & i & ou & d & s & A & _). eapply um_at_sub, A. Qed.
  Lemma called_total p k o x : member h um p k o x -> exists q, promoted_ns m p x q /\ call p k o (dotted q x).
  Proof.
    intros Hm. destruct (member_path _ _ _ _ Hm) as (m' & A). destruct (promoted_ns_total _ _ _ x A) as (q & Hq). exists q. split; [exact Hq|]. exists x, q. auto.
  Qed.

  (** ** Graph of one model *)
  Lemma decl_object p ins outs decls subs d : um_at um p (UM ins outs decls subs) -> In d decls -> declared_object h d.
  Proof.
    intros A Hd. destruct (hier_at HI A) as (m' & _ & H'). inversion H' as [? ? ? ? ? _ _ F3 _ _]; subst.
    destruct (Forall2_In_l _ _ _ _ F3 Hd) as ([x s] & _ & K & _). exact K.
  Qed.
  Lemma out_object p ins outs decls subs d : um_at um p (UM ins outs decls subs) -> In d outs -> output_object h d.
  Proof.
    intros A Hd. destruct (hier_at HI A) as (m' & _ & H'). inversion H' as [? ? ? ? ? _ F2 _ _ _]; subst.
    destruct (Forall2_In_l _ _ _ _ F2 Hd) as ([x s] & _ & K & _). exact K.
  Qed.
  Lemma in_object p ins outs decls subs d : um_at um p (UM ins outs decls subs) -> In d ins -> input_object h d.
  Proof.
    intros A Hd. destruct (hier_at HI A) as (m' & _ & H'). inversion H' as [? ? ? ? ? F1 _ _ _ _]; subst.
    destruct (Forall2_In_l _ _ _ _ F1 Hd) as ([x s] & _ & K & _). exact K.
  Qed.
  Lemma not_both o : declared_object h o -> output_object h o -> False.
  Proof. intros K K'. pose proof (kinds_excl o KDeclared KOutput K K'). discriminate. Qed.
  Lemma input_not_output o : input_object h o -> output_object h o -> False.
  Proof. intros K K'. pose proof (kinds_excl o KInput KOutput K K'). discriminate. Qed.

  Lemma writes_op o v : writes h o v -> operation h o.
  Proof. intros (ob & E & O & _). exists ob. auto. Qed.
  Lemma out_var v : output_object h v -> variable h v.
  Proof. intros K. exact (kind_var v KOutput K). Qed.
  Lemma flows_into_var a v : variable h v -> flows h a v -> writes h a v.
  Proof. intros V [Hr|Hw]; [apply (f_listed WF a v V), Hr|exact Hw]. Qed.
  Lemma reads_flows_op a o : operation h o -> flows h a o -> reads h o a.
  Proof. intros O [Hr|Hw]; [exact Hr|]. exfalso. apply (op_not_var o O). apply out_var, (f_outputs WF _ _ Hw). Qed.

  Lemma at_graph p ins outs decls subs : um_at um p (UM ins outs decls subs) ->
    exists u', graph_at u p (ug_graph u') /\ construct_all h p (UM ins outs decls subs) = Ok u'.
  Proof.
    assert (G : forall um0 m0 p0 u0, well_named m0 -> hierarchy h shp um0 m0 -> construct_all h p0 um0 = Ok u0 -> forall q um', um_at um0 q um' ->
      exists u', graph_at u0 q (ug_graph u') /\ construct_all h (p0 ++ q) um' = Ok u').
    { intros um0 m0 p0 u0 W0 H0 B0 q um' A. revert m0 p0 u0 W0 H0 B0. induction A as [um0|i0 o0 d0 subs0 s sm q um' Hs A IH]; intros m0 p0 u0 W0 H0 B0.
      - exists u0. rewrite app_nil_r. split; [apply graph_at_here|exact B0].
      - destruct (@sub_graphs _ _ _ _ _ _ _ B0) as (S1 & S2 & _).
        assert (Hn : In s (map fst (ug_subs u0))) by (apply S2; apply (in_map fst) in Hs; exact Hs).
        apply in_map_iff in Hn. destruct Hn as ([s' su] & E & Hsu). cbn in E. subst s'. destruct (S1 s su Hsu) as (sm' & Hs' & C).
        pose proof H0 as H0'. inversion H0' as [? ? ? ? ? _ _ _ FS HS]; subst.
        assert (A1 : um_at (UM i0 o0 d0 subs0) [s] sm) by (econstructor; [exact Hs|constructor]).
        assert (A2 : um_at (UM i0 o0 d0 subs0) [s] sm') by (econstructor; [exact Hs'|constructor]).
        pose proof (um_at_fun W0 H0 A1 A2) as E. subst sm'.
        destruct (hier_at H0 A1) as (ms & As & Hms).
        assert (Ws : well_named ms).
        { intros q' m'' A'. apply (W0 (s :: q')). inversion As as [|? ? ? ? ? ? Hi Ap]; subst. inversion Ap; subst. econstructor; eassumption. }
        destruct (IH ms (p0 ++ [s]) su Ws Hms C) as (u' & G' & C'). exists u'. rewrite <- app_assoc in C'. split; [|exact C'].
        destruct u0 as [g0 us]. econstructor; eassumption. }
    intros A. destruct B as (u0 & B0 & RO). destruct (G um m [] u0 W HI B0 p _ A) as (u' & G' & C'). exists u'. split; [apply (reordered_at _ _ RO), G'|exact C'].
  Qed.

  Lemma needed_below p ins outs decls subs x : um_at um p (UM ins outs decls subs) -> needed h (outs ++ decls) x -> x < length h.
  Proof.
    intros A Hx. assert (K : forall v, variable h v -> v < length h) by (intros v (ob & E & _); apply nth_error_Some; congruence).
    induction Hx as [x Hx|x y _ _ Hr|x y _ _ Hw]; [|apply (f_no_dangling WF x y); auto|apply (f_no_dangling WF x y); auto].
    apply in_app_iff in Hx. destruct Hx as [Hx|Hx].
    - apply K, out_var. eapply out_object; eassumption.
    - apply K. apply (kind_var x KDeclared). eapply decl_object; eassumption.
  Qed.
  Lemma model_contents p ins outs decls subs u' : um_at um p (UM ins outs decls subs) -> construct_all h p (UM ins outs decls subs) = Ok u' ->
    (forall a b, edge (ug_graph u') a b <-> exists x y, a = NObj p x /\ b = NObj p y /\ needed h outs x /\ needed h outs y /\ flows h x y) /\
    (forall a, node (ug_graph u') a <-> (exists s, In s (map fst subs) /\ a = NModel p s) \/ (exists x, a = NObj p x /\ (In x ins \/ needed h outs x))).
  Proof.
    intros A C. apply (@graph_contents h p ins outs decls subs u'); [| | | | | | |exact C].
    - intros i Hi. eapply IE; eassumption.
    - eapply (f_names WF), A.
    - intros x. eapply needed_below, A.
    - intros d y Hd Hr. pose proof (decl_object _ _ _ _ _ _ A Hd) as K. apply (not_both d K). apply (f_outputs WF y).
      apply (f_listed WF y d (kind_var d KDeclared K)), Hr.
    - intros d Hd O. apply (op_not_var d O). apply (kind_var d KDeclared). eapply decl_object; eassumption.
    - intros d y Hd Hw. apply (not_both d); [eapply decl_object; eassumption|apply (f_outputs WF y), Hw].
    - intros o Ho. pose proof (out_object _ _ _ _ _ _ A Ho) as K.
      destruct (f_computed WF p o) as (a & Ha); [|exact K|].
      + exists ins, outs, decls, subs. split; [exact A|]. right. apply needed_leaf, Ho.
      + exists a. apply (f_listed WF a o (out_var o K)), Ha.
  Qed.

  (** ** The flat graph *)
  Lemma flat_node p o : node g (NObj p o) <-> occ p o.
  Proof.
    destruct (@flat_union _ _ _ _ _ _ _ IE B F) as (_ & HN & _). rewrite HN. split.
    - intros (_ & q & gq & G & Hx). pose proof (@graph_at_path _ _ _ _ _ (built_ug_ok IE B) G Hx) as P. cbn in P. subst q.
      destruct (@built_at _ _ _ _ _ B G) as (um' & u' & A & C & E). destruct um' as [ins outs decls subs]. cbn in C. subst gq.
      destruct (model_contents _ _ _ _ _ _ A C) as (_ & N). apply N in Hx. destruct Hx as [(s & _ & E)|(x & E & Hx)]; [discriminate|].
      injection E as <-. exists ins, outs, decls, subs. auto.
    - intros (ins & outs & decls & subs & A & Hx). split; [intros (q & s & E); discriminate|].
      destruct (at_graph _ _ _ _ _ A) as (u' & G & C). exists p, (ug_graph u'). split; [exact G|].
      destruct (model_contents _ _ _ _ _ _ A C) as (_ & N). apply N. right. exists o. auto.
  Qed.
  Lemma flat_is_obj x : node g x -> exists p o, x = NObj p o.
  Proof.
    destruct (@flat_union _ _ _ _ _ _ _ IE B F) as (_ & HN & _). rewrite HN. intros (Nm & _). destruct x as [p s|p o]; [|eauto].
    exfalso. apply Nm. exists p, s. reflexivity.
  Qed.
  Lemma flat_edge a b : edge g a b <-> exists p x y, a = NObj p x /\ b = NObj p y /\ flows h x y /\
    exists ins outs decls subs, um_at um p (UM ins outs decls subs) /\ needed h outs x /\ needed h outs y.
  Proof.
    destruct (@flat_union _ _ _ _ _ _ _ IE B F) as (_ & _ & HE). rewrite HE. split.
    - intros (_ & _ & q & gq & G & He). destruct (@built_at _ _ _ _ _ B G) as (um' & u' & A & C & E). destruct um' as [ins outs decls subs].
      cbn in C. subst gq. destruct (model_contents _ _ _ _ _ _ A C) as (N & _). apply N in He. destruct He as (x & y & -> & -> & Hx & Hy & Hf).
      exists q, x, y. split; [reflexivity|]. split; [reflexivity|]. split; [exact Hf|]. exists ins, outs, decls, subs. auto.
    - intros (p & x & y & -> & -> & Hf & ins & outs & decls & subs & A & Hx & Hy). split; [intros (q & s & E); discriminate|].
      split; [intros (q & s & E); discriminate|]. destruct (at_graph _ _ _ _ _ A) as (u' & G & C). exists p, (ug_graph u'). split; [exact G|].
      destruct (model_contents _ _ _ _ _ _ A C) as (N & _). apply N. exists x, y. auto.
  Qed.
  Lemma op_needed p o : occ p o -> operation h o -> exists ins outs decls subs, um_at um p (UM ins outs decls subs) /\ needed h outs o.
  Proof.
    intros (ins & outs & decls & subs & A & [Hi|Hn]) O; [|exists ins, outs, decls, subs; auto].
    exfalso. apply (op_not_var o O). apply (kind_var o KInput). eapply in_object; eassumption.
  Qed.
  (** Arguments and results of an operation that occurs also occur. *)
  Lemma arg_edge p o d : occ p o -> operation h o -> reads h o d -> edge g (NObj p d) (NObj p o) /\ occ p d.
  Proof.
    intros Ho O Hr. destruct (op_needed _ _ Ho O) as (ins & outs & decls & subs & A & Hn). pose proof (needed_dep _ _ _ _ Hn Hr) as Hd. split.
    - apply flat_edge. exists p, d, o. split; [reflexivity|]. split; [reflexivity|]. split; [left; exact Hr|]. exists ins, outs, decls, subs. auto.
    - exists ins, outs, decls, subs. auto.
  Qed.
  Lemma res_edge p o v : occ p o -> writes h o v -> edge g (NObj p o) (NObj p v) /\ occ p v.
  Proof.
    intros Ho Hw. destruct (op_needed _ _ Ho (writes_op _ _ Hw)) as (ins & outs & decls & subs & A & Hn). pose proof (needed_out _ _ _ _ Hn Hw) as Hv. split.
    - apply flat_edge. exists p, o, v. split; [reflexivity|]. split; [reflexivity|]. split; [right; exact Hw|]. exists ins, outs, decls, subs. auto.
    - exists ins, outs, decls, subs. auto.
  Qed.
  (** The producer of an output that occurs, occurs. *)
  Lemma producer p v : occ p v -> output_object h v -> exists o, writes h o v /\ occ p o.
  Proof.
    intros Hv K. destruct (f_computed WF p v Hv K) as (o & Hw). exists o. split; [exact Hw|].
    destruct Hv as (ins & outs & decls & subs & A & [Hi|Hn]).
    - exfalso. eapply input_not_output; [eapply in_object; eassumption|exact K].
    - exists ins, outs, decls, subs. split; [exact A|]. right. eapply needed_dep; [exact Hn|]. apply (f_listed WF o v (out_var v K)), Hw.
  Qed.
  (** A variable that occurs has a generated name and is an output, or is called something. *)
  Lemma var_kind p o : occ p o -> variable h o -> (auto_named h o /\ ~ declared_object h o) \/ exists k pn, call p k o pn.
  Proof.
    intros (ins & outs & decls & subs & A & Ho) V.
    assert (S : scope h ins (outs ++ decls) o).
    { destruct Ho as [Ho|Ho]; [left; exact Ho|right]. eapply needed_mono; [|exact Ho]. intros y Hy. apply in_app_iff. auto. }
    destruct (UO p ins outs decls subs o A S V) as [K|K]; [left; exact K|right].
    destruct (hier_at HI A) as (m' & A' & H'). destruct (own_var _ H' K) as (k & x & s & Hv & Nm & D).
    assert (Hm : member h um p k o x).
    { split; [exact Nm|]. exists ins, outs, decls, subs. split; [exact A|]. destruct D as [(D & -> & _)|[(D & -> & _)|(D & -> & _)]]; exact D. }
    destruct (called_total _ _ _ _ Hm) as (q & _ & Hc). eauto.
  Qed.
  Lemma called_not_auto p k o pn : call p k o pn -> ~ auto_named h o.
  Proof.
    intros (x & q & Hm & _) (ob & E & A). destruct (member_own HI Hm) as (s & Hv & (ob' & E' & Nm) & _). rewrite E in E'. injection E' as <-.
    eapply (CN _ _ _ _ Hv); [eassumption|congruence].
  Qed.
  Lemma called_attr p k o pn : occ p o -> call p k o pn -> exists v, attr (NObj p o) = NVar v /\ va_pname v = pn /\ va_auto v = false /\
    va_class v = match k with KInput => CInput | KOutput => COutput | KDeclared => CDeclared end.
  Proof.
    intros Ho Hc. pose proof (called_not_auto _ _ _ _ Hc) as NA. destruct Hc as (x & q & Hm & Hq & ->). apply flat_node in Ho.
    destruct (@promoted_names h shp dflt um m r u g (c_log c) p k o x q HI W R IE B F Hm Ho Hq) as (v & A & _ & P & _ & K).
    exists v. split; [exact A|]. split; [exact P|]. split; [|exact K]. destruct (kind_var o k (member_kind _ _ _ _ Hm)) as (ob & E & O).
    destruct (@attr_var h shp dflt (c_log c) p o ob E O) as (v' & A' & _ & AA & _). rewrite A in A'. injection A' as <-. rewrite AA.
    apply String.eqb_neq. intros E'. apply NA. exists ob. auto.
  Qed.
  Lemma attr_variable x v : attr x = NVar v -> exists p o, x = NObj p o /\ variable h o.
  Proof. intros A. destruct (@attr_NVar h shp dflt (c_log c) x v A) as (p & o & ob & -> & E & O). exists p, o. split; [reflexivity|]. exists ob. auto. Qed.
  Lemma attr_op p o : operation h o -> forall v, attr (NObj p o) <> NVar v.
  Proof. intros O v A. destruct (attr_variable _ _ A) as (p' & o' & E & V). injection E as <- <-. exact (op_not_var o O V). Qed.
  (** A node with a user-chosen name. *)
  Lemma named_called x v : node g x -> attr x = NVar v -> va_auto v = false -> exists p o k, x = NObj p o /\ occ p o /\ call p k o (va_pname v).
  Proof.
    intros Hx A NA. destruct (attr_variable _ _ A) as (p & o & -> & V). apply flat_node in Hx. exists p, o.
    destruct (var_kind p o Hx V) as [[K _]|(k & pn & Hc)].
    - exfalso. destruct K as (ob & E & K). pose proof V as (ob' & E' & O). rewrite E in E'. injection E' as <-.
      destruct (@attr_var h shp dflt (c_log c) p o ob E O) as (v' & A' & _ & AA & _). rewrite A in A'. injection A' as <-. rewrite K, String.eqb_refl in AA. congruence.
    - exists k. split; [reflexivity|]. split; [exact Hx|]. destruct (called_attr _ _ _ _ Hx Hc) as (v' & A' & P & _). rewrite A in A'. injection A' as <-.
      rewrite P. exact Hc.
  Qed.

  (** ** Declared variables *)
  Definition rep1_ok (rep1 : irnode -> irnode) : Prop :=
    wf g1 /\ quotient g g1 rep1 /\ no_var_var_edge attr g1 /\
    (forall p o, occ p o -> ~ declared_object h o -> rep1 (NObj p o) = NObj p o) /\
    (forall p k o pn, occ p o -> call p k o pn -> exists p' k' o', rep1 (NObj p o) = NObj p' o' /\ occ p' o' /\ call p' k' o' pn /\ rep1 (NObj p' o') = NObj p' o') /\
    (forall p k o p' k' o' pn, occ p o -> occ p' o' -> call p k o pn -> call p' k' o' pn -> rep1 (NObj p o) = rep1 (NObj p' o')).

  Lemma names_inj p k x s q p' k' x' s' q' : has_var m p k x s -> promoted_ns m p x q -> has_var m p' k' x' s' -> promoted_ns m p' x' q' ->
    dotted q x = dotted q' x' -> q = q' /\ x = x'.
  Proof.
    intros Hv Hq Hv' Hq'. exact (dotted_inj q x q' x' (promoted_ns_names _ _ _ _ _ _ W Hv Hq) (promoted_ns_names _ _ _ _ _ _ W Hv' Hq')
      (has_var_no_dot _ _ _ _ _ W Hv) (has_var_no_dot _ _ _ _ _ W Hv')).
  Qed.
  Lemma same_object p o o' k k' pn : occ p o -> occ p o' -> call p k o pn -> call p k' o' pn -> o = o'.
  Proof.
    intros Ho Ho' (x & q & Hm & Hq & E) (x' & q' & Hm' & Hq' & E'). subst pn.
    destruct (member_own HI Hm) as (s & Hv & Nm & _), (member_own HI Hm') as (s' & Hv' & Nm' & _).
    destruct (names_inj _ _ _ _ _ _ _ _ _ _ Hv Hq Hv' Hq' E') as [_ <-]. destruct Ho as (ins & outs & decls & subs & A & Ho), Ho' as (ins' & outs' & decls' & subs' & A' & Ho').
    pose proof (um_at_fun W HI A A') as EU. injection EU as <- <- <- <-.
    assert (S : forall y, In y ins \/ needed h outs y -> scope h ins (outs ++ decls) y).
    { intros y [Hy|Hy]; [left; exact Hy|right]. eapply needed_mono; [|exact Hy]. intros z Hz. apply in_app_iff. auto. }
    destruct (f_names WF _ _ _ _ _ A) as [NA _]. exact (NA o o' x (S _ Ho) (S _ Ho') Nm Nm').
  Qed.
  Lemma not_declared k : k <> KDeclared -> forall p o pn, call p k o pn -> ~ declared_object h o.
  Proof. intros K p o pn Hc D. apply K. exact (kinds_excl o k KDeclared (called_kind _ _ _ _ Hc) D). Qed.

  (** Which declared variable is kept when there is no source. *)
  Definition rep1_pref (rep1 : irnode -> irnode) : Prop := forall p o pn, occ p o -> call p KDeclared o pn ->
    (forall s sv, node g s -> source_node attr s sv -> va_pname sv <> pn) -> preferred attr (candidates attr g pn) (rep1 (NObj p o)).
  Lemma rep1_exists_pref : exists rep1, rep1_ok rep1 /\ rep1_pref rep1.
  Proof.
    assert (Wg : wf g) by (apply (@flatten_spec _ _ _ _ _ _ (built_ug_ok IE B) F)).
    pose proof (@flat_no_var_var h shp dflt um m r u HI W IE B g (c_log c) F AL ON) as NVV.
    pose proof (@flat_sources_distinct h shp dflt um m r u HI W R IE B UO CN g (c_log c) F) as SD.
    destruct (@auto_one_node_any _ irnode_eqb attr g irnode_eqb_spec Wg NVV SD) as (rep & M' & NT & T).
    destruct (M' g1 M) as [W' Q]. exists rep. split.
    2: { intros p o pn Ho Hc NS. destruct (called_attr _ _ _ _ Ho Hc) as (v & Av & Pn & _ & Cv).
      destruct (T _ _ (proj2 (flat_node p o) Ho) (conj Av Cv)) as (_ & _ & T3). rewrite <- Pn. apply T3. rewrite Pn. exact NS. }
    assert (ND : forall p o, occ p o -> ~ declared_object h o -> rep (NObj p o) = NObj p o).
    { intros p o Hx N. apply NT. intros v [Av Cv]. apply N.
      destruct (@attr_NVar h shp dflt (c_log c) _ _ Av) as (p' & o' & ob & Ex & E & O). injection Ex as <- <-. exists ob. split; [exact E|].
      destruct (@attr_var h shp dflt (c_log c) p o ob E O) as (v' & Av' & _ & _ & _ & _ & _ & _ & Ac). rewrite Av in Av'. injection Av' as <-.
      rewrite Cv in Ac. destruct (ob_kind ob); try discriminate; reflexivity. }
    (* what becomes of a declared variable *)
    assert (D : forall p o pn, occ p o -> call p KDeclared o pn ->
       (exists s, rep (NObj p o) = s /\ node g s /\ rep s = s /\ exists sv, source_node attr s sv /\ va_pname sv = pn) \/
       ((forall s sv, node g s -> source_node attr s sv -> va_pname sv <> pn) /\ In (rep (NObj p o)) (candidates attr g pn) /\
         forall t', In t' (candidates attr g pn) -> rep t' = rep (NObj p o))).
    { intros p o pn Ho Hc. destruct (called_attr _ _ _ _ Ho Hc) as (v & Av & Pn & _ & Cv).
      assert (Tx : target_node attr (NObj p o) v) by (split; [exact Av|exact Cv]). destruct (T _ _ (proj2 (flat_node p o) Ho) Tx) as (T1 & T2 & _).
      destruct (find (fun y => match attr y with NVar w => String.eqb (va_pname w) pn && match va_class w with CInput | COutput => true | _ => false end | _ => false end) (g_nodes g))
        as [y|] eqn:Fd.
      - left. apply find_some in Fd. destruct Fd as [Hy Fy]. destruct (attr y) as [w|] eqn:Ay; [|discriminate]. apply andb_true_iff in Fy. destruct Fy as [Fy Fc].
        apply String.eqb_eq in Fy. assert (Sy : source_node attr y w) by (split; [exact Ay|destruct (va_class w); auto; discriminate]).
        exists y. split; [apply (T1 y w Hy Sy); congruence|]. split; [exact Hy|]. split; [|exists w; auto]. apply NT. intros w' [Aw' Cw'].
        destruct Sy as [_ [Cw|Cw]]; congruence.
      - right. assert (NS : forall s0 sv, node g s0 -> source_node attr s0 sv -> va_pname sv <> pn).
        { intros s0 sv Hs [As Cs] Pe. pose proof (find_none _ _ Fd s0 Hs) as Fn. cbn in Fn. rewrite As, Pe, String.eqb_refl in Fn.
          destruct Cs as [C|C]; rewrite C in Fn; discriminate. }
        split; [exact NS|]. rewrite <- Pn. apply T2. rewrite Pn. exact NS. }
    assert (CA : forall t pn, In t (candidates attr g pn) <-> node g t /\ exists v, attr t = NVar v /\ va_class v = CDeclared /\ va_pname v = pn).
    { intros t pn. unfold candidates. rewrite filter_In. split.
      - intros [Ht E]. split; [exact Ht|]. destruct (attr t) as [v|]; [|discriminate]. exists v. split; [reflexivity|]. destruct (va_class v); try discriminate.
        split; [reflexivity|apply String.eqb_eq, E].
      - intros [Ht (v & Av & Cv & Pn)]. split; [exact Ht|]. rewrite Av, Cv, Pn. apply String.eqb_refl. }
    assert (NN : forall x v, node g x -> attr x = NVar v -> (exists p o pn, x = NObj p o /\ occ p o /\ call p KDeclared o pn) \/ va_class v <> CDeclared).
    { intros x v Hx Av. destruct (attr_variable _ _ Av) as (p & o & -> & V). pose proof (proj1 (flat_node p o) Hx) as Ho.
      destruct (var_kind p o Ho V) as [[_ K]|(k & pn & Hc)].
      - right. intros Cv. apply K. pose proof V as (ob & E & O). exists ob. split; [exact E|].
        destruct (@attr_var h shp dflt (c_log c) p o ob E O) as (v' & Av' & _ & _ & _ & _ & _ & _ & Ac). rewrite Av in Av'. injection Av' as <-.
        rewrite Cv in Ac. destruct (ob_kind ob); try discriminate; reflexivity.
      - destruct k; [right|right|left; exists p, o, pn; auto]; destruct (called_attr _ _ _ _ Ho Hc) as (v' & Av' & _ & _ & Cv); congruence. }
    (* a named node with promoted name pn *)
    assert (NC : forall x v, node g x -> attr x = NVar v -> (exists p k o, call p k o (va_pname v)) ->
       exists p k o, x = NObj p o /\ occ p o /\ call p k o (va_pname v)).
    { intros x v Hx Av (p0 & k0 & o0 & x0 & q0 & Hm & Hq & E0). destruct (member_own HI Hm) as (s0 & Hv & _).
      destruct (@pname_own h shp dflt um m r u HI W R IE B UO CN g (c_log c) F x v p0 k0 x0 s0 q0 Hx Av Hv Hq E0) as (p' & o' & k' & s' & -> & Ho' & Hq' & _).
      pose proof (proj1 (flat_node p' o') Hx) as Oc. destruct (attr_variable _ _ Av) as (p2 & o2 & E2 & V). injection E2 as <- <-.
      destruct (var_kind p' o' Oc V) as [[(ob & E & K) _]|(k2 & pn & Hc)].
      - exfalso. destruct Ho' as (Hv' & (ob' & E' & Nm) & _). rewrite E in E'. injection E' as <-. eapply (CN _ _ _ _ Hv'); [eassumption|congruence].
      - exists p', k2, o'. split; [reflexivity|]. split; [exact Oc|]. destruct (called_attr _ _ _ _ Oc Hc) as (v' & Av' & Pn & _). rewrite Av in Av'. injection Av' as <-.
        rewrite Pn. exact Hc. }
    assert (SRC : forall p k o pn, k <> KDeclared -> occ p o -> call p k o pn -> exists v, source_node attr (NObj p o) v /\ va_pname v = pn).
    { intros p k o pn K Ho Hc. destruct (called_attr _ _ _ _ Ho Hc) as (v & Av & Pn & _ & Cv). exists v. split; [|exact Pn]. split; [exact Av|].
      destruct k; [left; exact Cv|right; exact Cv|congruence]. }
    assert (US : forall p k o p' k' o' pn, k <> KDeclared -> k' <> KDeclared -> occ p o -> occ p' o' -> call p k o pn -> call p' k' o' pn -> NObj p o = NObj p' o').
    { intros p k o p' k' o' pn K K' Ho Ho' Hc Hc'. pose proof Hc as (x & q & Hm & Hq & E). pose proof Hc' as (x' & q' & Hm' & Hq' & E').
      destruct (member_own HI Hm) as (s & Hv & _), (member_own HI Hm') as (s' & Hv' & _). rewrite E in E'.
      destruct (names_inj _ _ _ _ _ _ _ _ _ _ Hv Hq Hv' Hq' E') as [<- <-]. assert (P : p = p') by (eapply sources_unique; [exact W|exact R|exists k; eauto|exists k'; eauto|exact Hq|exact Hq']).
      subst p'. f_equal. eapply same_object; eassumption. }
    split; [exact W'|]. split; [exact Q|]. split; [|split; [exact ND|split]].
    - assert (VV : forall y v, var_node attr (rep y) v -> exists v', var_node attr y v').
      { intros y v Hy. destruct (is_tgt attr y) eqn:Et; [apply is_tgt_spec in Et; destruct Et as [v' [Av _]]; exists v'; exact Av|].
        rewrite NT in Hy; [eauto|]. intros v' Tv. assert (K : is_tgt attr y = true) by (apply is_tgt_spec; eauto). congruence. }
      intros a b va vb He Ha Hb. apply (proj2 Q) in He. destruct He as (a' & b' & He & <- & <-).
      destruct (VV _ _ Ha) as [va' Ha'], (VV _ _ Hb) as [vb' Hb']. exact (NVV _ _ _ _ He Ha' Hb').
    - intros p k o pn Ho Hc. assert (KD : k = KDeclared \/ k <> KDeclared) by (destruct k; auto; right; discriminate). destruct KD as [->|K].
      + destruct (D p o pn Ho Hc) as [(s & Es & Hs & Fs & sv & [As _] & Ps)|(_ & Hi & Hu)].
        * destruct (NC s sv Hs As) as (p' & k' & o' & -> & Ho' & Hc'); [rewrite Ps; eauto|]. exists p', k', o'. rewrite Ps in Hc'. auto.
        * pose proof (proj1 (CA _ _) Hi) as (Hn & v & Av & Cv & Pn). destruct (NC _ v Hn Av) as (p' & k' & o' & E & Ho' & Hc'); [rewrite Pn; eauto|].
          exists p', k', o'. rewrite Pn in Hc'. split; [exact E|]. split; [exact Ho'|]. split; [exact Hc'|]. rewrite <- E. apply Hu, Hi.
      + exists p, k, o. rewrite (ND p o Ho (not_declared k K _ _ _ Hc)). auto.
    - intros p k o p' k' o' pn Ho Ho' Hc Hc'.
      assert (S1 : forall p k o p' k' o', k <> KDeclared -> k' = KDeclared -> occ p o -> occ p' o' -> call p k o pn -> call p' k' o' pn -> rep (NObj p' o') = rep (NObj p o)).
      { clear p k o p' k' o' Ho Ho' Hc Hc'. intros p k o p' k' o' K -> Ho Ho' Hc Hc'. rewrite (ND p o Ho (not_declared k K _ _ _ Hc)).
        destruct (SRC p k o pn K Ho Hc) as (v & Sv & Pn). destruct (called_attr _ _ _ _ Ho' Hc') as (v' & Av' & Pn' & _ & Cv').
        assert (Tx : target_node attr (NObj p' o') v') by (split; [exact Av'|exact Cv']). destruct (T _ _ (proj2 (flat_node p' o') Ho') Tx) as [T1 _].
        apply (T1 _ v (proj2 (flat_node p o) Ho) Sv). congruence. }
      assert (KD : forall k, k = KDeclared \/ k <> KDeclared) by (intros []; auto; right; discriminate).
      destruct (KD k) as [K|K], (KD k') as [K'|K'].
      + subst k k'. destruct (D p o pn Ho Hc) as [(s & Es & Hs & Fs & sv & Ss & Ps)|(NS & Hi & Hu)].
        * rewrite Es. destruct (called_attr _ _ _ _ Ho' Hc') as (v' & Av' & Pn' & _ & Cv').
          assert (Tx : target_node attr (NObj p' o') v') by (split; [exact Av'|exact Cv']). destruct (T _ _ (proj2 (flat_node p' o') Ho') Tx) as [T1 _].
          symmetry. apply (T1 _ sv Hs Ss). congruence.
        * symmetry. apply Hu. apply CA. split; [apply flat_node, Ho'|]. destruct (called_attr _ _ _ _ Ho' Hc') as (v' & Av' & Pn' & _ & Cv'). eauto.
      + subst k. eapply (S1 p' k' o' p KDeclared o); eauto.
      + subst k'. symmetry. eapply (S1 p k o p' KDeclared o'); eauto.
      + f_equal. eapply (US p k o p' k' o'); eassumption.
  Qed.
  Lemma rep1_exists : exists rep1, rep1_ok rep1.
  Proof. destruct rep1_exists_pref as (rep1 & H & _). eauto. Qed.

  (** ** Names and nodes *)
  Local Notation p2u := (rp_p2u r).
  Section Rep1.
    Context (rep1 : irnode -> irnode).
    Hypothesis (H1 : rep1_ok rep1).

    Lemma W1 : wf g1. Proof. apply H1. Qed.
    Lemma Q1 : quotient g g1 rep1. Proof. apply H1. Qed.
    Lemma rep1_fix p o : occ p o -> ~ declared_object h o -> rep1 (NObj p o) = NObj p o. Proof. apply H1. Qed.
    Lemma names_ne pn names : dget p2u pn = Some names -> names <> [].
    Proof. intros E. apply dget_In in E. exact (filled_p2u _ _ _ R _ _ E). Qed.

    Lemma named_rep1 p k o x q : occ p o -> member h um p k o x -> promoted_ns m p x q ->
      exists v names, named_node attr g1 p2u (rep1 (NObj p o)) v names /\ va_pname v = dotted q x /\ In (dotted p x) names.
    Proof.
      intros Ho Hm Hq. assert (Hc : call p k o (dotted q x)) by (exists x, q; auto).
      destruct H1 as (_ & Q & _ & _ & RC & _). destruct (RC p k o _ Ho Hc) as (p' & k' & o' & E & Ho' & Hc' & Fx).
      destruct (called_attr _ _ _ _ Ho' Hc') as (v & Av & Pn & Au & _).
      destruct (p2u_correct _ _ _ W R) as (_ & HR). destruct (member_own HI Hm) as (s & Hv & _).
      assert (Mt : maps_to p2u (dotted q x) (dotted p x)) by (apply HR; exists p, k, x, s, q; auto).
      destruct Mt as (names & G & Hi). exists v, names. rewrite E. split; [|auto]. split; [apply Q; split; [apply flat_node, Ho'|exact Fx]|].
      split; [exact Av|]. split; [exact Au|]. rewrite Pn. exact G.
    Qed.
    Lemma u2n_rep1 p k o x : occ p o -> member h um p k o x -> dget (c_u2n c) (dotted p x) = Some (rep1 (NObj p o)).
    Proof.
      intros Ho Hm. destruct (called_total _ _ _ _ Hm) as (q & Hq & _). destruct (named_rep1 _ _ _ _ _ Ho Hm Hq) as (v & names & Hn & _ & Hi).
      destruct (@maps_exact _ irnode_eqb attr g1 _ _ _ _ _ _ _ names_ne MC) as [_ Hu]. apply Hu. eauto.
    Qed.
    Lemma named_same x v ns y w ns' : named_node attr g1 p2u x v ns -> named_node attr g1 p2u y w ns' -> va_pname v = va_pname w -> x = y.
    Proof.
      intros Hx Hy E. pose proof Hx as (_ & _ & _ & Gx). pose proof Hy as (_ & _ & _ & Gy). rewrite E, Gy in Gx. injection Gx as ->.
      eapply names_unambiguous; [exact irnode_eqb_spec|exact MC|exact Hx|exact Hy|]. destruct ns as [|un ns]; [exfalso; exact (names_ne _ _ Gy eq_refl)|].
      exists un. split; left; reflexivity.
    Qed.
    Lemma node1 x : node g1 x -> node g x /\ rep1 x = x. Proof. apply Q1. Qed.
    Lemma denotes_called full x : denotes attr g1 p2u full x -> exists p o k pn v, x = NObj p o /\ occ p o /\ call p k o pn /\ rep1 x = x /\ resolves_to m full pn /\
      attr x = NVar v /\ va_pname v = pn.
    Proof.
      intros (v & names & (Hx & Av & Au & G) & D). destruct (node1 _ Hx) as [Hg Fx]. destruct (named_called _ _ Hg Av Au) as (p & o & k & -> & Ho & Hc).
      exists p, o, k, (va_pname v), v. split; [reflexivity|]. split; [exact Ho|]. split; [exact Hc|]. split; [exact Fx|]. split; [|auto].
      destruct D as [D|[D _]].
      - pose proof Hc as (y & q & Hm & Hq & E). destruct (member_own HI Hm) as (s & Hv & _). exists p, k, y, s, q. split; [exact Hv|]. split; [exact Hq|].
        split; [exact E|]. right. congruence.
      - destruct (p2u_correct _ _ _ W R) as (_ & HR). assert (Mt : maps_to p2u (va_pname v) full) by (exists names; auto).
        apply HR in Mt. destruct Mt as (p' & k' & y & s & q & Hv & Hq & E & E'). exists p', k', y, s, q. auto.
    Qed.

    (** ** Connections *)
    Lemma conn_triples a b ns : In (a, b, ns) (collect_connections m "") <-> exists p0, declared_conn m p0 a b /\ ns = ns_of p0.
    Proof.
      rewrite (collected _ W), in_flat_map. split.
      - intros ([p0 m'] & Hp & Hi). apply postorder_spec in Hp. apply in_map_iff in Hi. destruct Hi as ([a' b'] & E & Hi). injection E as <- <- <-.
        exists p0. split; [exists m'; auto|reflexivity].
      - intros (p0 & (m' & A & Hi) & ->). exists (p0, m'). split; [apply postorder_spec, A|]. apply in_map_iff. exists (a, b). auto.
    Qed.
    Lemma conn_name p0 a b n : declared_conn m p0 a b -> prepend_namespace (ns_of p0) n = dotted p0 n.
    Proof. intros (m' & A & _). apply prepend_ns_of, names_nonempty. exact (sub_at_names _ _ _ W A). Qed.
    Lemma conns_spec :
      Forall2 (fun cc ts => denotes attr g1 p2u (prepend_namespace (snd cc) (fst (fst cc))) (snd ts) /\
                            denotes attr g1 p2u (prepend_namespace (snd cc) (snd (fst cc))) (fst ts)) (collect_connections m "") (c_conns c) /\
      NoDup (map fst (c_conns c)) /\ (forall t s, In (t, s) (c_conns c) -> admissible attr g1 t s).
    Proof. apply (@connections_sound _ irnode_eqb irnode_eqb_spec attr g1 _ _ _ _ _ _ _ W1 (proj1 (proj2 (proj2 H1))) MC). Qed.
    Lemma conn_in t s : In (t, s) (c_conns c) -> exists p0 a b, declared_conn m p0 a b /\ denotes attr g1 p2u (dotted p0 a) s /\ denotes attr g1 p2u (dotted p0 b) t.
    Proof.
      intros Hi. destruct (Forall2_In_r _ _ _ _ (proj1 conns_spec) Hi) as ([[a b] ns] & Hc & D1 & D2). cbn in D1, D2.
      apply conn_triples in Hc. destruct Hc as (p0 & Hd & ->). rewrite (conn_name _ _ _ a Hd) in D1. rewrite (conn_name _ _ _ b Hd) in D2. exists p0, a, b. auto.
    Qed.
    Lemma conn_of p0 a b : declared_conn m p0 a b -> exists t s, In (t, s) (c_conns c) /\ denotes attr g1 p2u (dotted p0 a) s /\ denotes attr g1 p2u (dotted p0 b) t.
    Proof.
      intros Hd. assert (Hc : In (a, b, ns_of p0) (collect_connections m "")) by (apply conn_triples; eauto).
      destruct (Forall2_In_l _ _ _ _ (proj1 conns_spec) Hc) as ([t s] & Hi & D1 & D2). cbn in D1, D2.
      rewrite (conn_name _ _ _ a Hd) in D1. rewrite (conn_name _ _ _ b Hd) in D2. exists t, s. auto.
    Qed.
    (** Connections lead to declared variables. *)
    Lemma conn_target t s : In (t, s) (c_conns c) -> exists p o pn, t = NObj p o /\ occ p o /\ call p KDeclared o pn /\ connection_target m pn.
    Proof.
      intros Hi. destruct (conn_in _ _ Hi) as (p0 & a & b & Hd & _ & Dt). destruct (denotes_called _ _ Dt) as (p & o & k & pn & v & -> & Ho & Hc & Fx & Hr & _).
      assert (CT : connection_target m pn) by (exists p0, a, b; auto). exists p, o, pn. split; [reflexivity|]. split; [exact Ho|]. split; [|exact CT].
      destruct k; [exfalso; exact (TI p o pn CT Hc)|exfalso|exact Hc].
      pose proof (called_kind _ _ _ _ Hc) as K. destruct (producer _ _ Ho K) as (op & Hw & Hop). destruct (res_edge _ _ _ Hop Hw) as [He _].
      assert (He1 : edge g1 (NObj p op) (NObj p o)).
      { apply Q1. exists (NObj p op), (NObj p o). split; [exact He|]. split; [|exact Fx]. apply rep1_fix; [exact Hop|].
        intros D. apply (op_not_var op (writes_op _ _ Hw)). exact (kind_var op KDeclared D). }
      destruct (proj2 (proj2 conns_spec) _ _ Hi) as [_ NE]. exact (NE _ He1).
    Qed.

    Definition rep2_ok (rep2 : irnode -> irnode) : Prop := wf (c_graph c) /\ quotient g1 (c_graph c) rep2 /\
      (forall t s, In (t, s) (c_conns c) -> rep2 t = s /\ rep2 s = s /\ t <> s) /\ (forall x, ~ In x (map fst (c_conns c)) -> rep2 x = x).
    Lemma rep2_exists : exists rep2, rep2_ok rep2.
    Proof.
      apply (@connections_redirect _ irnode_eqb irnode_eqb_spec attr g1 _ _ _ _ _ _ _ W1 (proj1 (proj2 (proj2 H1))) MC).
      intros t s Hi. destruct (conn_target _ _ Hi) as (p & o & pn & -> & Ho & Hc & _). destruct (called_attr _ _ _ _ Ho Hc) as (v & Av & _ & _ & Cv).
      exists v. split; [exact Av|exact Cv].
    Qed.

    Section Rep2.
      Context (rep2 : irnode -> irnode).
      Hypothesis (H2 : rep2_ok rep2).
      Definition rep (x : irnode) : irnode := rep2 (rep1 x).

      Lemma Q12 : quotient g (c_graph c) rep.
      Proof.
        destruct H2 as (_ & [N2 E2] & C2 & O2). destruct Q1 as [N1 E1].
        assert (I2 : forall x, rep2 (rep2 x) = rep2 x).
        { intros x. destruct (in_dec (eqA_dec _ irnode_eqb_spec) x (map fst (c_conns c))) as [D|D]; [|rewrite (O2 x D); apply O2, D].
          apply in_map_iff in D. destruct D as ([t s] & E & Hi). cbn in E. subst t. destruct (C2 _ _ Hi) as (-> & Es & _). exact Es. }
        split.
        - intros x. rewrite N2, N1. unfold rep. split.
          + intros [[Hx E] E']. rewrite E. auto.
          + intros [Hx E]. assert (Hr : rep2 x = x) by (rewrite <- E at 1; rewrite I2; exact E).
            split; [|exact Hr]. split; [exact Hx|].
            (* rep1 x = x: otherwise x would be a declared variable merged away *)
            destruct (flat_is_obj x Hx) as (p & o & ->). pose proof (proj1 (flat_node p o) Hx) as Ho.
            assert (K : {declared_object h o} + {~ declared_object h o}).
            { unfold declared_object. destruct (nth_error h o) as [ob|] eqn:En; [|right; intros (b & Eb & _); discriminate].
              destruct (ob_kind ob) eqn:Ek; [right|left|right|right|right]; try (intros (b & Eb & Kb); injection Eb as <-; congruence). exists ob. auto. }
            destruct K as [K|K]; [|apply rep1_fix; assumption].
            destruct (var_kind p o Ho (kind_var o KDeclared K)) as [[_ NK]|(k & pn & Hc)]; [contradiction|].
            destruct H1 as (_ & _ & _ & _ & RC & RS). destruct (RC p k o pn Ho Hc) as (p' & k' & o' & E1' & Ho' & Hc' & Fx').
            destruct (in_dec (eqA_dec _ irnode_eqb_spec) (rep1 (NObj p o)) (map fst (c_conns c))) as [D|D].
            * apply in_map_iff in D. destruct D as ([t s] & Et & Hi). cbn in Et. destruct (C2 _ _ Hi) as (Es & Es' & Ne). rewrite Et in Es.
              exfalso. (* x = s is a node of g1 *)
              destruct (conn_in _ _ Hi) as (p0 & a & b & _ & Ds & _). destruct (denotes_called _ _ Ds) as (ps & os & ks & pns & vs & Ex & Hos & Hcs & Fs & _).
              rewrite <- Es, E in Fs. rewrite Fs in Et. congruence.
            * rewrite (O2 _ D) in E. exact E.
        - intros a b. rewrite E2. unfold rep. split.
          + intros (a' & b' & He & Ea & Eb). apply E1 in He. destruct He as (a2 & b2 & He & Ea2 & Eb2). exists a2, b2. subst. auto.
          + intros (a' & b' & He & Ea & Eb). exists (rep1 a'), (rep1 b'). split; [|auto]. apply E1. exists a', b'. auto.
      Qed.

      Lemma cget_spec t s : cget irnode_eqb (c_conns c) t = Some s <-> In (t, s) (c_conns c).
      Proof.
        unfold cget. pose proof (proj1 (proj2 conns_spec)) as ND. clear -ND. induction (c_conns c) as [|[t' s'] l IH]; cbn; [split; [discriminate|tauto]|].
        cbn in ND. inversion ND as [|? ? N1 N2]; subst. destruct (irnode_eqb t t') eqn:E; cbn.
        - apply irnode_eqb_spec in E. subst t'. split; [intros Es; injection Es as <-; auto|]. intros [Es|Hi]; [congruence|].
          exfalso. apply N1. apply (in_map fst) in Hi. exact Hi.
        - rewrite IH by exact N2. split; [auto|]. intros [Es|Hi]; [|exact Hi]. injection Es as -> ->.
          rewrite (proj2 (irnode_eqb_spec t t) eq_refl) in E. discriminate.
      Qed.
      Lemma rep2_cget x : rep2 x = match cget irnode_eqb (c_conns c) x with Some s => s | None => x end.
      Proof.
        destruct H2 as (_ & _ & C2 & O2). destruct (cget irnode_eqb (c_conns c) x) as [s|] eqn:E.
        - apply cget_spec in E. apply (C2 _ _ E).
        - apply O2. intros Hi. apply in_map_iff in Hi. destruct Hi as ([t s] & Et & Hi). cbn in Et. subst t. apply cget_spec in Hi. congruence.
      Qed.
      (** A node that is not a declared variable stays. *)
      Lemma rep_fix p o : occ p o -> ~ declared_object h o -> rep (NObj p o) = NObj p o.
      Proof.
        intros Ho ND. unfold rep. rewrite (rep1_fix p o Ho ND). destruct H2 as (_ & _ & _ & O2). apply O2. intros Hi. apply in_map_iff in Hi.
        destruct Hi as ([t s] & Et & Hi). cbn in Et. subst t. destruct (conn_target _ _ Hi) as (p' & o' & pn & E & _ & Hc & _). injection E as <- <-.
        apply ND. exact (called_kind _ _ _ _ Hc).
      Qed.
      Lemma node_of_rep p o : occ p o -> variable h o -> node_of h c p o = rep (NObj p o).
      Proof.
        intros Ho V. pose proof V as (ob & E & O). unfold node_of. rewrite E. destruct (String.eqb (ob_name ob) (hex_id (ob_num ob))) eqn:Ea.
        - apply String.eqb_eq in Ea. symmetry. apply rep_fix; [exact Ho|]. destruct (var_kind p o Ho V) as [[_ K]|(k & pn & Hc)]; [exact K|].
          exfalso. apply (called_not_auto _ _ _ _ Hc). exists ob. auto.
        - destruct (var_kind p o Ho V) as [[(ob' & E' & A) _]|(k & pn & x & q & Hm & Hq & Ep)].
          + exfalso. rewrite E in E'. injection E' as <-. apply String.eqb_neq in Ea. congruence.
          + pose proof Hm as ((ob' & E' & Nm) & _). rewrite E in E'. injection E' as <-. rewrite Nm, (u2n_rep1 _ _ _ _ Ho Hm). unfold rep.
            rewrite rep2_cget. reflexivity.
      Qed.
      Lemma rep_output p o : occ p o -> output_object h o -> rep (NObj p o) = NObj p o.
      Proof. intros Ho K. apply rep_fix; [exact Ho|]. intros D. exact (not_both o D K). Qed.
      Lemma rep_op p o : occ p o -> operation h o -> rep (NObj p o) = NObj p o.
      Proof. intros Ho K. apply rep_fix; [exact Ho|]. intros D. apply (op_not_var o K). exact (kind_var o KDeclared D). Qed.
      (** The representative of a variable is a variable that occurs. *)
      Lemma rep_var p o : occ p o -> variable h o -> exists p' o', rep (NObj p o) = NObj p' o' /\ occ p' o' /\ variable h o' /\ rep (NObj p' o') = NObj p' o'.
      Proof.
        intros Ho V. destruct (var_kind p o Ho V) as [[_ K]|(k & pn & Hc)]; [exists p, o; rewrite (rep_fix p o Ho K); auto|].
        destruct H1 as (_ & _ & _ & _ & RC & _). destruct (RC p k o pn Ho Hc) as (p' & k' & o' & E1 & Ho' & Hc' & Fx).
        unfold rep. rewrite E1. rewrite rep2_cget. destruct (cget irnode_eqb (c_conns c) (NObj p' o')) as [s|] eqn:Cg.
        - apply cget_spec in Cg. destruct (conn_in _ _ Cg) as (p0 & a & b & _ & Ds & _).
          destruct (denotes_called _ _ Ds) as (ps & os & ks & pns & vs & Ex & Hos & Hcs & Fs & _). subst s. exists ps, os. split; [reflexivity|]. split; [exact Hos|].
          split; [exact (kind_var os ks (called_kind _ _ _ _ Hcs))|]. rewrite Fs. destruct H2 as (_ & _ & C2 & _). apply (C2 _ _ Cg).
        - exists p', o'. split; [reflexivity|]. split; [exact Ho'|]. split; [exact (kind_var o' k' (called_kind _ _ _ _ Hc'))|].
          rewrite Fx, rep2_cget, Cg. reflexivity.
      Qed.

      (** ** Order *)
      Lemma order_nodes x : In x (c_order c) <-> node (c_graph c) x.
      Proof.
        destruct (@sorted_ok _ irnode_eqb irnode_eqb_spec (c_graph c) (proj1 H2) _ SO) as [HP _]. unfold node.
        split; apply Permutation_in; [exact HP|apply Permutation_sym, HP].
      Qed.
      Lemma order_nodup : NoDup (c_order c).
      Proof.
        destruct (@sorted_ok _ irnode_eqb irnode_eqb_spec (c_graph c) (proj1 H2) _ SO) as [HP _].
        eapply Permutation_NoDup; [apply Permutation_sym, HP|]. apply (wf_nodes _ (proj1 H2)).
      Qed.
      Lemma order_edge a b : edge (c_graph c) a b -> precedes (c_order c) a b.
      Proof. apply (@sorted_ok _ irnode_eqb irnode_eqb_spec (c_graph c) (proj1 H2) _ SO). Qed.
      Lemma order_obj x : In x (c_order c) -> exists p o, x = NObj p o /\ occ p o /\ rep x = x.
      Proof.
        intros Hx. apply order_nodes, Q12 in Hx. destruct Hx as [Hx Fx]. destruct (flat_is_obj x Hx) as (p & o & ->). exists p, o. split; [reflexivity|].
        split; [apply flat_node, Hx|exact Fx].
      Qed.
      Lemma order_op p o : occ p o -> operation h o -> In (NObj p o) (c_order c).
      Proof. intros Ho O. apply order_nodes, Q12. split; [apply flat_node, Ho|apply rep_op; assumption]. Qed.

      (** ** Execution *)
      Definition outs' (x : irnode) : list irnode :=
        match x with
        | NObj p o => match nth_error h o with Some ob => if is_op ob then map (node_of h c p) (ob_outs ob) else [] | None => [] end
        | NModel _ _ => []
        end.
      Definition args' (x : irnode) : list irnode :=
        match x with
        | NObj p o => match nth_error h o with Some ob => if is_op ob then map (node_of h c p) (ob_deps ob) else [] | None => [] end
        | NModel _ _ => []
        end.
      Lemma out_inv x b : In x (c_order c) -> In b (outs' x) -> exists p o v, x = NObj p o /\ occ p o /\ writes h o v /\ b = NObj p v /\ occ p v /\
        edge (c_graph c) x b.
      Proof.
        intros Hx Hb. destruct (order_obj x Hx) as (p & o & -> & Ho & Fx). cbn in Hb. destruct (nth_error h o) as [ob|] eqn:E; [|destruct Hb].
        destruct (is_op ob) eqn:O; [|destruct Hb]. apply in_map_iff in Hb. destruct Hb as (v & Eb & Hv).
        assert (Hw : writes h o v) by (exists ob; auto). destruct (res_edge _ _ _ Ho Hw) as [He Hov]. pose proof (f_outputs WF _ _ Hw) as K.
        rewrite (node_of_rep p v Hov (out_var v K)), (rep_output p v Hov K) in Eb. subst b. exists p, o, v. repeat (split; [solve [auto]|]).
        apply Q12. exists (NObj p o), (NObj p v). split; [exact He|]. split; [exact Fx|apply rep_output; assumption].
      Qed.
      Lemma arg_variable o d : operation h o -> reads h o d -> variable h d.
      Proof. intros O Hr. destruct (AL d o (or_introl Hr)) as [[V _]|[_ V]]; [exact V|]. exfalso. exact (op_not_var o O V). Qed.
      Lemma arg_inv x a : In x (c_order c) -> In a (args' x) -> exists p o d, x = NObj p o /\ occ p o /\ operation h o /\ reads h o d /\ occ p d /\ variable h d /\
        a = node_of h c p d /\ edge (c_graph c) a x.
      Proof.
        intros Hx Ha. destruct (order_obj x Hx) as (p & o & -> & Ho & Fx). cbn in Ha. destruct (nth_error h o) as [ob|] eqn:E; [|destruct Ha].
        destruct (is_op ob) eqn:O; [|destruct Ha]. apply in_map_iff in Ha. destruct Ha as (d & Ea & Hd).
        assert (Oo : operation h o) by (exists ob; auto). assert (Hr : reads h o d) by (exists ob; auto).
        destruct (arg_edge _ _ _ Ho Oo Hr) as [He Hod]. pose proof (arg_variable _ _ Oo Hr) as V. exists p, o, d. repeat (split; [solve [auto]|]).
        apply Q12. exists (NObj p d), (NObj p o). split; [exact He|]. split; [|exact Fx]. rewrite <- Ea. symmetry. apply node_of_rep; assumption.
      Qed.
      Lemma outs_nodup x : In x (c_order c) -> NoDup (outs' x).
      Proof.
        intros Hx. destruct (order_obj x Hx) as (p & o & -> & Ho & Fx). cbn. destruct (nth_error h o) as [ob|] eqn:E; [|constructor].
        destruct (is_op ob) eqn:O; [|constructor]. pose proof (f_distinct WF o ob E O) as ND.
        rewrite (map_ext_in _ (NObj p)).
        - apply FinFun.Injective_map_NoDup; [intros a b Eab; congruence|exact ND].
        - intros v Hv. assert (Hw : writes h o v) by (exists ob; auto). destruct (res_edge _ _ _ Ho Hw) as [_ Hov]. pose proof (f_outputs WF _ _ Hw) as K.
          rewrite (node_of_rep p v Hov (out_var v K)). apply rep_output; assumption.
      Qed.
      Lemma outs_unique x y b : In x (c_order c) -> In y (c_order c) -> In b (outs' x) -> In b (outs' y) -> x = y.
      Proof.
        intros Hx Hy Bx By. destruct (out_inv _ _ Hx Bx) as (p & o & v & -> & _ & Hw & -> & _). destruct (out_inv _ _ Hy By) as (p' & o' & v' & -> & _ & Hw' & E & _).
        injection E as <- <-. f_equal. exact (f_one WF _ _ _ Hw Hw').
      Qed.
      Lemma args_before x y a : In x (c_order c) -> In y (c_order c) -> In a (args' x) -> In a (outs' y) -> precedes (c_order c) y x.
      Proof.
        intros Hx Hy Ax Ay. destruct (arg_inv _ _ Hx Ax) as (_ & _ & _ & _ & _ & _ & _ & _ & _ & _ & E1). destruct (out_inv _ _ Hy Ay) as (_ & _ & _ & _ & _ & _ & _ & _ & E2).
        exact (precedes_trans order_nodup (order_edge _ _ E2) (order_edge _ _ E1)).
      Qed.
      Lemma in_args p o d : occ p o -> operation h o -> reads h o d -> In (node_of h c p d) (args' (NObj p o)).
      Proof.
        intros Ho (ob & E & O) (ob' & E' & Hd). rewrite E in E'. injection E' as <-. cbn. rewrite E, O. apply in_map, Hd.
      Qed.
      Lemma in_outs p o v : occ p o -> writes h o v -> In (NObj p v) (outs' (NObj p o)).
      Proof.
        intros Ho Hw. destruct (res_edge _ _ _ Ho Hw) as [_ Hov]. pose proof (f_outputs WF _ _ Hw) as K.
        rewrite <- (rep_output p v Hov K), <- (node_of_rep p v Hov (out_var v K)). destruct Hw as (ob & E & O & Hv). cbn. rewrite E, O. apply in_map, Hv.
      Qed.

      Section Values.
        Context {V : Type} (apply : nat -> list V -> nat -> V) (init : string -> V).
        Local Notation final := (run h shp dflt apply init c).
        Local Notation val := (result h shp dflt apply init c).
        Definition app' (x : irnode) : list V -> nat -> V := match x with NObj _ o => apply o | NModel _ _ => apply 0 end.

        Lemma exec_estep e e' x y : (forall z, e z = e' z) -> exec h apply c e x y = estep outs' args' app' e' x y.
        Proof.
          intros Ee. unfold exec, estep, outs', args', app'. destruct x as [p s|p o]; [apply Ee|]. destruct (nth_error h o) as [ob|]; [|apply Ee].
          destruct (is_op ob); [|apply Ee]. unfold store. rewrite (map_ext e e' Ee). destruct (position y _); [reflexivity|apply Ee].
        Qed.
        Lemma run_estep y : final y = fold_left (estep outs' args' app') (c_order c) (fun x => init (pname attr x)) y.
        Proof.
          unfold run. assert (G : forall l e e', (forall z, e z = e' z) -> forall z, fold_left (exec h apply c) l e z = fold_left (estep outs' args' app') l e' z).
          { induction l as [|x l IH]; intros e e' Ee z; cbn; [apply Ee|]. apply IH. intros w. apply exec_estep, Ee. }
          apply G. reflexivity.
        Qed.
        Lemma final_computes p o ob k v : occ p o -> nth_error h o = Some ob -> is_op ob = true -> nth_error (ob_outs ob) k = Some v ->
          val p v = apply o (map (val p) (ob_deps ob)) k.
        Proof.
          intros Ho E O Hk. unfold result at 1. rewrite run_estep.
          rewrite (@fold_computes V outs' args' app' (c_order c) order_nodup outs_nodup outs_unique args_before _ (NObj p o) k).
          - unfold app', args'. rewrite E, O. rewrite !map_map. f_equal. apply map_ext. intros d. unfold result. rewrite run_estep. reflexivity.
          - apply order_op; [exact Ho|]. exists ob. auto.
          - unfold outs'. rewrite E, O. rewrite nth_error_map, Hk. reflexivity.
        Qed.
        Lemma final_initial b : (forall x, In x (c_order c) -> ~ In b (outs' x)) -> final b = init (pname attr b).
        Proof. intros H. rewrite run_estep. apply (@fold_initial V outs' args' app' (c_order c)). exact H. Qed.
        (** A variable whose representative is not an output keeps its initial value. *)
        Lemma final_kept p o p' k' o' pn : occ p o -> variable h o -> rep (NObj p o) = NObj p' o' -> occ p' o' -> call p' k' o' pn -> k' <> KOutput ->
          val p o = init pn.
        Proof.
          intros Ho Vo E Ho' Hc NK. unfold result. rewrite (node_of_rep p o Ho Vo), E. rewrite final_initial.
          - destruct (called_attr _ _ _ _ Ho' Hc) as (v & Av & Pn & _). unfold pname, vat. rewrite Av, Pn. reflexivity.
          - intros x Hx Hi. destruct (out_inv _ _ Hx Hi) as (p2 & o2 & v2 & _ & _ & Hw & E2 & _). injection E2 as <- <-.
            apply NK. exact (kinds_excl o' k' KOutput (called_kind _ _ _ _ Hc) (f_outputs WF _ _ Hw)).
        Qed.
        Lemma val_rep p o p' o' : occ p o -> occ p' o' -> variable h o -> variable h o' -> rep (NObj p o) = rep (NObj p' o') -> val p o = val p' o'.
        Proof. intros Ho Ho' V1 V2 E. unfold result. rewrite (node_of_rep p o Ho V1), (node_of_rep p' o' Ho' V2), E. reflexivity. Qed.
        Lemma called_var p k o pn : call p k o pn -> variable h o.
        Proof. intros Hc. exact (kind_var o k (called_kind _ _ _ _ Hc)). Qed.
        Lemma input_occurs p o pn : call p KInput o pn -> occ p o.
        Proof. intros (x & q & (_ & ins & outs & decls & subs & A & Hi) & _). exists ins, outs, decls, subs. auto. Qed.
        Lemma output_occurs p o pn : call p KOutput o pn -> occ p o.
        Proof. intros (x & q & (_ & ins & outs & decls & subs & A & Hi) & _). exists ins, outs, decls, subs. split; [exact A|]. right. apply needed_leaf, Hi. Qed.
        (** Two ways to name the same variable. *)
        Lemma same_rep1 p k o full x pn : occ p o -> call p k o pn -> resolves_to m full pn -> denotes attr g1 p2u full x -> rep1 (NObj p o) = x.
        Proof.
          intros Ho Hc Hr D. destruct (denotes_called _ _ D) as (p' & o' & k' & pn' & v & -> & Ho' & Hc' & Fx & Hr' & _).
          assert (MO : exists mp, maps_of m = Ok mp) by (unfold maps_of; rewrite R; cbn [bind]; eexists; reflexivity). destruct MO as (mp & MO).
          pose proof (resolves_fun _ _ _ _ _ W MO Hr Hr') as E. subst pn'. rewrite <- Fx. destruct H1 as (_ & _ & _ & _ & _ & RS). eapply RS; eassumption.
        Qed.

        Theorem final_solves : solves h um m apply init val.
        Proof.
          split.
          - intros p o ob k v Ho E O Hk. apply final_computes; assumption.
          - intros p k o p' k' o' pn Ho Ho' Hc Hc'. apply val_rep; [assumption|assumption|eapply called_var, Hc|eapply called_var, Hc'|].
            unfold rep. f_equal. destruct H1 as (_ & _ & _ & _ & _ & RS). eapply RS; eassumption.
          - intros p0 a b pa pb p k o p' k' o' Hd Ra Rb Ho Ho' Hc Hc'. destruct (conn_of _ _ _ Hd) as (t & s & Hi & Ds & Dt).
            apply val_rep; [assumption|assumption|eapply called_var, Hc'|eapply called_var, Hc|]. unfold rep.
            rewrite (same_rep1 _ _ _ _ _ _ Ho Hc Ra Ds), (same_rep1 _ _ _ _ _ _ Ho' Hc' Rb Dt). destruct H2 as (_ & _ & C2 & _).
            destruct (C2 _ _ Hi) as (-> & -> & _). reflexivity.
          - intros p o pn Hc. pose proof (input_occurs _ _ _ Hc) as Ho. eapply final_kept; [exact Ho|eapply called_var, Hc| |exact Ho|exact Hc|discriminate].
            apply rep_fix; [exact Ho|]. apply (not_declared KInput) with (p := p) (pn := pn); [discriminate|exact Hc].
          - intros p o pn Ho Hc NS NT. destruct H1 as (_ & _ & _ & _ & RC & _). destruct (RC p KDeclared o pn Ho Hc) as (p' & k' & o' & E & Ho' & Hc' & Fx).
            pose proof (NS _ _ _ Hc') as ->. eapply final_kept; [exact Ho|eapply called_var, Hc| |exact Ho'|exact Hc'|discriminate].
            unfold rep. rewrite E. destruct H2 as (_ & _ & _ & O2). apply O2. intros Hi. apply in_map_iff in Hi. destruct Hi as ([t s] & Et & Hi). cbn in Et. subst t.
            destruct (conn_target _ _ Hi) as (p2 & o2 & pn2 & E2 & _ & Hc2 & CT). injection E2 as <- <-. apply NT.
            destruct Hc' as (x & q & Hm & Hq & Ep), Hc2 as (x2 & q2 & Hm2 & Hq2 & Ep2). pose proof Hm as (Nx & _). pose proof Hm2 as (Nx2 & _).
            pose proof (named_fun Nx Nx2) as <-. rewrite (promoted_ns_fun _ _ _ _ _ W Hq Hq2) in Ep. subst. exact CT.
        Qed.

        Theorem final_unique val' : solves h um m apply init val' -> forall p o, occ p o -> variable h o -> val' p o = val p o.
        Proof.
          intros [S1 S2 S3 S4 S5].
          (* val' agrees on the variables that share a node *)
          assert (L : forall p o p' o', occ p o -> variable h o -> rep (NObj p o) = NObj p' o' -> val' p o = val' p' o').
          { intros p o p' o' Ho Vo E. destruct (var_kind p o Ho Vo) as [[_ K]|(k & pn & Hc)].
            - rewrite (rep_fix p o Ho K) in E. injection E as <- <-. reflexivity.
            - pose proof H1 as (_ & _ & _ & _ & RC & RS). destruct (RC p k o pn Ho Hc) as (p1 & k1 & o1 & E1 & Ho1 & Hc1 & Fx1).
              rewrite (S2 p k o p1 k1 o1 pn Ho Ho1 Hc Hc1). unfold rep in E. rewrite E1, rep2_cget in E.
              destruct (cget irnode_eqb (c_conns c) (NObj p1 o1)) as [s|] eqn:Cg; [|injection E as <- <-; reflexivity]. subst s.
              apply cget_spec in Cg. destruct (conn_in _ _ Cg) as (p0 & a & b & Hd & Ds & Dt).
              destruct (denotes_called _ _ Ds) as (ps & os & ks & pns & vs & Es & Hos & Hcs & _ & Rs & _). injection Es as <- <-.
              destruct (denotes_called _ _ Dt) as (pt & ot & kt & pnt & vt & Et & Hot & Hct & _ & Rt & _). injection Et as <- <-.
              eapply S3; [exact Hd|exact Rs|exact Rt|exact Hos|exact Hot|exact Hcs|exact Hct]. }
          assert (C : forall b p o, occ p o -> variable h o -> rep (NObj p o) = b -> val' p o = final b).
          { apply (@order_ind outs' args' (c_order c) order_nodup args_before (fun b => forall p o, occ p o -> variable h o -> rep (NObj p o) = b -> val' p o = final b)).
            - (* no producer *)
              intros b NP p o Ho Vo E. destruct (rep_var p o Ho Vo) as (p' & o' & E' & Ho' & V' & Fx'). pose proof E' as E0. rewrite E in E0. clear E. subst b. rename E' into E.
              rewrite (L p o p' o' Ho Vo E).
              assert (NO' : ~ output_object h o').
              { intros K. destruct (producer _ _ Ho' K) as (op & Hw & Hop). apply (NP (NObj p' op)); [apply order_op; [exact Hop|eapply writes_op, Hw]|].
                apply in_outs; assumption. }
              assert (FK : forall k pn, call p' k o' pn -> k <> KOutput -> final (NObj p' o') = init pn).
              { intros k pn Hc NK. rewrite <- (final_kept p' o' p' k o' pn Ho' V' Fx' Ho' Hc NK). unfold result. rewrite (node_of_rep p' o' Ho' V'), Fx'. reflexivity. }
              destruct (var_kind p' o' Ho' V') as [[A _]|(k & pn & Hc)].
              + exfalso. exact (NO' (f_generated WF p' o' Ho' V' A)).
              + destruct k.
                * rewrite (S4 _ _ _ Hc). symmetry. apply (FK KInput); [exact Hc|discriminate].
                * exfalso. apply NO'. exact (called_kind _ _ _ _ Hc).
                * rewrite (FK KDeclared pn Hc) by discriminate. apply (S5 p' o' pn Ho' Hc).
                  -- (* no source: otherwise it would have been replaced *)
                     intros p2 k2 o2 Hc2. assert (KD : k2 = KDeclared \/ k2 <> KDeclared) by (destruct k2; auto; right; discriminate).
                     destruct KD as [KD|KD]; [exact KD|exfalso].
                     assert (Ho2 : occ p2 o2) by (destruct k2; [eapply input_occurs, Hc2|eapply output_occurs, Hc2|congruence]).
                     pose proof H1 as (_ & _ & _ & _ & _ & RS). pose proof (RS _ _ _ _ _ _ _ Ho' Ho2 Hc Hc2) as ER.
                     rewrite (rep1_fix p2 o2 Ho2 (not_declared k2 KD _ _ _ Hc2)) in ER.
                     unfold rep in Fx'. rewrite ER in Fx'. pose proof (rep_fix p2 o2 Ho2 (not_declared k2 KD _ _ _ Hc2)) as F2. unfold rep in F2.
                     rewrite (rep1_fix p2 o2 Ho2 (not_declared k2 KD _ _ _ Hc2)), Fx' in F2. injection F2 as <- <-.
                     apply KD. exact (kinds_excl _ k2 KDeclared (called_kind _ _ _ _ Hc2) (called_kind _ _ _ _ Hc)).
                  -- (* not connected *)
                     intros (p0 & a & b & Hd & Rb). destruct (conn_of _ _ _ Hd) as (t & s & Hi & _ & Dt).
                     pose proof (same_rep1 _ _ _ _ _ _ Ho' Hc Rb Dt) as E1. unfold rep in Fx'. rewrite E1 in Fx'. destruct H2 as (_ & _ & C2 & _).
                     destruct (C2 _ _ Hi) as (Et & Es & Ne). rewrite Et in Fx'.
                     destruct (conn_in _ _ Hi) as (q0 & a' & b' & _ & Ds & _). destruct (denotes_called _ _ Ds) as (ps & os & ks & pns & vs & _ & _ & _ & Fs & _).
                     apply Ne. rewrite <- E1, <- Fx', Fs. reflexivity.
            - (* produced by x *)
              intros x Hx IH b Hb p o Ho Vo E. destruct (out_inv _ _ Hx Hb) as (px & ox & v & -> & Hox & Hw & -> & Hov & _).
              rewrite (L p o px v Ho Vo E). pose proof Hw as (ob & Eo & Oo & Hv). apply In_nth_error in Hv. destruct Hv as (k & Hk).
              rewrite (S1 px ox ob k v Hox Eo Oo Hk).
              assert (Ev : val px v = final (NObj px v)).
              { unfold result. rewrite (node_of_rep px v Hov (out_var v (f_outputs WF _ _ Hw))), (rep_output px v Hov (f_outputs WF _ _ Hw)). reflexivity. }
              rewrite <- Ev, (final_computes px ox ob k v Hox Eo Oo Hk). f_equal. apply map_ext_in. intros d Hd.
              assert (O : operation h ox) by (exists ob; auto). assert (Hr : reads h ox d) by (exists ob; auto).
              destruct (arg_edge _ _ _ Hox O Hr) as [_ Hod]. pose proof (arg_variable _ _ O Hr) as Vd.
              unfold result. rewrite (node_of_rep px d Hod Vd). apply (IH (rep (NObj px d))); [|exact Hod|exact Vd|reflexivity].
              rewrite <- (node_of_rep px d Hod Vd). apply in_args; assumption. }
          intros p o Ho Vo. unfold result. rewrite (node_of_rep p o Ho Vo). apply (C _ p o Ho Vo eq_refl).
        Qed.

        (** When two variables share a node. *)
        Lemma node_feeds p v p' d : occ p v -> variable h v -> ~ declared_object h v -> occ p' d -> variable h d ->
          (node_of h c p v = node_of h c p' d <-> feeds h um m p v p' d).
        Proof.
          intros Ho Vv ND Ho' Vd. rewrite (node_of_rep p v Ho Vv), (node_of_rep p' d Ho' Vd), (rep_fix p v Ho ND). split.
          - intros E. destruct (var_kind p' d Ho' Vd) as [[_ K]|(k' & pn & Hc')].
            + rewrite (rep_fix p' d Ho' K) in E. injection E as -> ->. left. auto.
            + right. pose proof H1 as (_ & _ & _ & _ & RC & RS). destruct (RC p' k' d pn Ho' Hc') as (p1 & k1 & o1 & E1 & Ho1 & Hc1 & Fx1).
              unfold rep in E. rewrite E1, rep2_cget in E. destruct (cget irnode_eqb (c_conns c) (NObj p1 o1)) as [s|] eqn:Cg.
              * right. apply cget_spec in Cg. destruct (conn_in _ _ Cg) as (p0 & a & b & Hd & Ds & Dt).
                destruct (denotes_called _ _ Ds) as (ps & os & ks & pns & vs & Es & Hos & Hcs & _ & Rs & _). rewrite <- E in Es. injection Es as <- <-.
                destruct (denotes_called _ _ Dt) as (pt & ot & kt & pnt & vt & Et & Hot & Hct & _ & Rt & _). injection Et as <- <-.
                assert (En : pnt = pn).
                { destruct Hct as (x & q & Hm & Hq & ->), Hc1 as (x1 & q1 & Hm1 & Hq1 & ->). pose proof Hm as (Nx & _). pose proof Hm1 as (Nx1 & _).
                  pose proof (named_fun Nx Nx1) as <-. rewrite (promoted_ns_fun _ _ _ _ _ W Hq Hq1). reflexivity. }
                subst pnt. exists p0, a, b, pns, pn, ks, k'. auto 10.
              * left. injection E as -> ->. exists k1, k', pn. auto.
          - intros [[-> ->]|[(k & k' & pn & Hc & Hc')|(p0 & a & b & pa & pb & k & k' & Hd & Ra & Rb & Hc & Hc')]].
            + symmetry. apply rep_fix; assumption.
            + rewrite <- (rep_fix p v Ho ND). unfold rep. f_equal. destruct H1 as (_ & _ & _ & _ & _ & RS). eapply RS; eassumption.
            + destruct (conn_of _ _ _ Hd) as (t & s & Hi & Ds & Dt). rewrite <- (rep_fix p v Ho ND). unfold rep.
              rewrite (same_rep1 _ _ _ _ _ _ Ho Hc Ra Ds), (same_rep1 _ _ _ _ _ _ Ho' Hc' Rb Dt). destruct H2 as (_ & _ & C2 & _).
              destruct (C2 _ _ Hi) as (-> & -> & _). reflexivity.
        Qed.
      End Values.
      (** ** Induction over a compiled model *)
      Definition unnamed_source (pn : string) : Prop := (forall p k o, call p k o pn -> k = KDeclared) /\ ~ connection_target m pn.
      (** What holds of the variable kept in a node holds of all variables in it. *)
      Lemma share_ind (C : list string -> nat -> Prop) :
        (forall p k o p' k' o' pn, occ p o -> occ p' o' -> call p k o pn -> call p' k' o' pn -> C p o -> C p' o') ->
        (forall p0 a b pa pb p k o p' k' o', declared_conn m p0 a b -> resolves_to m (dotted p0 a) pa -> resolves_to m (dotted p0 b) pb ->
           occ p o -> occ p' o' -> call p k o pa -> call p' k' o' pb -> C p o -> C p' o') ->
        forall p o p' o', occ p o -> variable h o -> node_of h c p o = NObj p' o' -> C p' o' -> C p o.
      Proof.
        intros S2 S3 p o p' o' Ho Vo E. rewrite (node_of_rep p o Ho Vo) in E. destruct (var_kind p o Ho Vo) as [[_ K]|(k & pn & Hc)].
        - rewrite (rep_fix p o Ho K) in E. injection E as <- <-. auto.
        - pose proof H1 as (_ & _ & _ & _ & RC & RS). destruct (RC p k o pn Ho Hc) as (p1 & k1 & o1 & E1 & Ho1 & Hc1 & Fx1).
          intros HC. apply (S2 p1 k1 o1 p k o pn Ho1 Ho Hc1 Hc). unfold rep in E. rewrite E1, rep2_cget in E.
          destruct (cget irnode_eqb (c_conns c) (NObj p1 o1)) as [s|] eqn:Cg; [|injection E as <- <-; exact HC]. subst s.
          apply cget_spec in Cg. destruct (conn_in _ _ Cg) as (p0 & a & b & Hd & Ds & Dt).
          destruct (denotes_called _ _ Ds) as (ps & os & ks & pns & vs & Es & Hos & Hcs & _ & Rs & _). injection Es as <- <-.
          destruct (denotes_called _ _ Dt) as (pt & ot & kt & pnt & vt & Et & Hot & Hct & _ & Rt & _). injection Et as <- <-.
          eapply S3; [exact Hd|exact Rs|exact Rt|exact Hos|exact Hot|exact Hcs|exact Hct|exact HC].
      Qed.
      (** A declared variable that was kept has no source. *)
      Lemma kept_unsupplied p o pn : occ p o -> rep (NObj p o) = NObj p o -> call p KDeclared o pn -> unnamed_source pn.
      Proof.
        intros Ho' Fx' Hc. split.
        - intros p2 k2 o2 Hc2. assert (KD : k2 = KDeclared \/ k2 <> KDeclared) by (destruct k2; auto; right; discriminate).
          destruct KD as [KD|KD]; [exact KD|exfalso].
          assert (Ho2 : occ p2 o2).
          { destruct Hc2 as (x & q & (_ & ins & outs & decls & subs & A & Hi) & _). exists ins, outs, decls, subs. split; [exact A|].
            destruct k2; [left; exact Hi|right; apply needed_leaf, Hi|congruence]. }
          pose proof H1 as (_ & _ & _ & _ & _ & RS). pose proof (RS _ _ _ _ _ _ _ Ho' Ho2 Hc Hc2) as ER.
          rewrite (rep1_fix p2 o2 Ho2 (not_declared k2 KD _ _ _ Hc2)) in ER.
          unfold rep in Fx'. rewrite ER in Fx'. pose proof (rep_fix p2 o2 Ho2 (not_declared k2 KD _ _ _ Hc2)) as F2. unfold rep in F2.
          rewrite (rep1_fix p2 o2 Ho2 (not_declared k2 KD _ _ _ Hc2)), Fx' in F2. injection F2 as <- <-.
          apply KD. exact (kinds_excl _ k2 KDeclared (called_kind _ _ _ _ Hc2) (called_kind _ _ _ _ Hc)).
        - intros (p0 & a & b & Hd & Rb). destruct (conn_of _ _ _ Hd) as (t & s & Hi & _ & Dt).
          pose proof (same_rep1 _ _ _ _ _ _ Ho' Hc Rb Dt) as E1. unfold rep in Fx'. rewrite E1 in Fx'. destruct H2 as (_ & _ & C2 & _).
          destruct (C2 _ _ Hi) as (Et & Es & Ne). rewrite Et in Fx'.
          destruct (conn_in _ _ Hi) as (q0 & a' & b' & _ & Ds & _). destruct (denotes_called _ _ Ds) as (ps & os & ks & pns & vs & _ & _ & _ & Fs & _).
          apply Ne. rewrite <- E1, <- Fx', Fs. reflexivity.
      Qed.
      (** The variable kept in a node. *)
      Lemma kept_variable p o : occ p o -> variable h o -> exists p' o', node_of h c p o = NObj p' o' /\ occ p' o' /\ variable h o' /\ node_of h c p' o' = NObj p' o' /\
        ((exists pn, call p' KInput o' pn) \/ (exists a, occ p' a /\ writes h a o') \/ (exists pn, call p' KDeclared o' pn /\ unnamed_source pn)).
      Proof.
        intros Ho Vo. destruct (rep_var p o Ho Vo) as (p' & o' & E & Ho' & V' & Fx). exists p', o'. rewrite (node_of_rep p o Ho Vo), (node_of_rep p' o' Ho' V'). repeat (split; [assumption|]).
        assert (PR : output_object h o' -> exists a, occ p' a /\ writes h a o') by (intros K; destruct (producer _ _ Ho' K) as (op & Hw & Hop); eauto).
        destruct (var_kind p' o' Ho' V') as [[A _]|(k & pn & Hc)]; [right; left; apply PR, (f_generated WF p' o' Ho' V' A)|].
        destruct k; [left; eauto|right; left; apply PR, (called_kind _ _ _ _ Hc)|]. right. right. exists pn. split; [exact Hc|]. eapply kept_unsupplied; eassumption.
      Qed.
      Lemma grounded (C : list string -> nat -> Prop) :
        (forall p o pn, occ p o -> call p KInput o pn -> C p o) ->
        (forall p o pn, occ p o -> call p KDeclared o pn -> unnamed_source pn -> C p o) ->
        (forall p a v, occ p a -> operation h a -> writes h a v -> (forall d, reads h a d -> occ p d -> C p d) -> C p v) ->
        (forall p k o p' k' o' pn, occ p o -> occ p' o' -> call p k o pn -> call p' k' o' pn -> C p o -> C p' o') ->
        (forall p0 a b pa pb p k o p' k' o', declared_conn m p0 a b -> resolves_to m (dotted p0 a) pa -> resolves_to m (dotted p0 b) pb ->
           occ p o -> occ p' o' -> call p k o pa -> call p' k' o' pb -> C p o -> C p' o') ->
        forall p o, occ p o -> variable h o -> C p o.
      Proof.
        intros S4 S5 S1 S2 S3. pose proof (share_ind C S2 S3) as L.
        assert (G : forall b p o, occ p o -> variable h o -> node_of h c p o = b -> C p o).
        { apply (@order_ind outs' args' (c_order c) order_nodup args_before (fun b => forall p o, occ p o -> variable h o -> node_of h c p o = b -> C p o)).
          - intros b NP p o Ho Vo E. destruct (kept_variable p o Ho Vo) as (p' & o' & E' & Ho' & V' & F' & K). apply (L p o p' o' Ho Vo E').
            destruct K as [(pn & Hc)|[(a & Ha & Hw)|(pn & Hc & U)]]; [eapply S4; eassumption| |eapply S5; eassumption].
            exfalso. apply (NP (NObj p' a)); [apply order_op; [exact Ha|eapply writes_op, Hw]|]. rewrite <- E, E'. apply in_outs; assumption.
          - intros x Hx IH b Hb p o Ho Vo E. destruct (out_inv _ _ Hx Hb) as (px & ox & v & -> & Hox & Hw & -> & Hov & _).
            apply (L p o px v Ho Vo E). assert (O : operation h ox) by (eapply writes_op, Hw). apply (S1 px ox v Hox O Hw). intros d Hr Hd.
            apply (IH (node_of h c px d)); [apply in_args; assumption|exact Hd|eapply arg_variable; eassumption|reflexivity]. }
        intros p o Ho Vo. exact (G _ p o Ho Vo eq_refl).
      Qed.
      (** The edges of the compiled graph. *)
      Lemma edge_cases a b : edge (c_graph c) a b ->
        (exists p o v, occ p o /\ writes h o v /\ occ p v /\ a = NObj p o /\ b = node_of h c p v) \/
        (exists p o d, occ p o /\ operation h o /\ reads h o d /\ occ p d /\ variable h d /\ b = NObj p o /\ a = node_of h c p d).
      Proof.
        intros He. apply Q12 in He. destruct He as (a' & b' & He & Ea & Eb). apply flat_edge in He.
        destruct He as (p' & x & y & -> & -> & Hf & ins & outs & decls & subs & A & Hx & Hy).
        assert (Oy : occ p' y) by (exists ins, outs, decls, subs; auto). assert (Ox : occ p' x) by (exists ins, outs, decls, subs; auto).
        destruct (f_alternates WF x y Hf) as [[Kx Ky]|[Kx Ky]].
        - right. exists p', y, x. rewrite rep_op in Eb by assumption. rewrite <- node_of_rep in Ea by assumption. repeat (split; [solve [auto]|]).
          split; [eapply reads_flows_op; eassumption|]. auto.
        - left. exists p', x, y. rewrite rep_op in Ea by assumption. rewrite <- node_of_rep in Eb by assumption. repeat (split; [solve [auto]|]).
          split; [eapply flows_into_var; eassumption|]. auto.
      Qed.
    End Rep2.
  End Rep1.
End C.
