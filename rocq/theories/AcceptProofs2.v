(** The graph after automatic connection, and when user connections are accepted. *)
From Verif Require Import PyBase NamesModel NamesProofs PromotionsModel PromotionsSpec PromotionsProofs PromotionsProofs2 HierModel HierSpec HierProofs HierProofs2 Digraph
  FlatModel FlatSpec FlatProofs ConnProofs ConnProofs2 ExprModel UnflatModel UnflatSpec UnflatProofs UnflatProofs2 FlattenModel FlattenSpec FlattenProofs
  FlattenProofs2 FlattenProofs3 FlattenProofs4 TopoModel TopoSpec TopoProofs CompileModel CompileSpec ExecProofs CompileProofs AcceptSpec AcceptProofs.
From Coq Require Import Permutation Relations.

Lemma Forall2_nth_r {A B} (P : A -> B -> Prop) l l' n y : Forall2 P l l' -> nth_error l' n = Some y -> exists x, nth_error l n = Some x /\ P x y.
Proof.
  intros F. revert n. induction F as [|a b l l' H F IH]; intros [|n] E; try discriminate; cbn in E; [injection E as <-; exists a; auto|]. exact (IH n E).
Qed.
Lemma sub_um_at h shp um m p m' : hierarchy h shp um m -> sub_at m p m' -> exists um', um_at um p um' /\ hierarchy h shp um' m'.
Proof.
  intros H A. revert um H. induction A as [m0|m0 nm pr sm q m1 Hi A IH]; intros um H; [exists um; split; [constructor|exact H]|].
  inversion H as [ins outs decls subs ? F1 F2 F3 F4 F5]; subst. apply In_nth_error in Hi. destruct Hi as (n & Hn).
  destruct (Forall2_nth_r _ _ _ _ _ F4 Hn) as ([nm' su] & Ek & E). cbn in E. subst nm'. pose proof (F5 _ _ _ Ek Hn) as Hs. cbn [snd] in Hs.
  destruct (IH _ Hs) as (um' & A' & H'). exists um'. split; [|exact H']. econstructor; [eapply nth_error_In, Ek|exact A'].
Qed.

Section A.
  Context (h : list obj) (shp : nat -> shape) (dflt : nat -> bool) (um : umodel) (m : model) (c : compiled).
  Hypothesis (WF : well_formed h um m shp).
  Context (r : rp) (u : ugraph) (g g1 : digraph irnode).
  Hypothesis (R : resolve m None = Ok r) (B : built h um u).
  Hypothesis (F : flatten h (rp_p2u r) (create_reverse_map (rp_p2u r)) u = Ok (g, c_log c)).
  Local Notation attr := (node_attr h shp dflt (c_log c)).
  Local Notation p2u := (rp_p2u r).
  Local Notation u2p := (create_reverse_map (rp_p2u r)).
  Context (rep1 : irnode -> irnode).
  Hypothesis (H1 : rep1_ok h shp dflt um m c g g1 rep1).
  Local Notation occ := (occurs h um).
  Local Notation call := (called h um m).

  Lemma maps_ok : exists mp, maps_of m = Ok mp.
  Proof. unfold maps_of. rewrite R. cbn [bind]. eauto. Qed.
  Lemma Q1' : quotient g g1 rep1. Proof. apply H1. Qed.
  Lemma same_pn p k o pn p' k' o' : occ p o -> occ p' o' -> call p k o pn -> call p' k' o' pn -> rep1 (NObj p o) = rep1 (NObj p' o').
  Proof. intros Ho Ho' Hc Hc'. destruct H1 as (_ & _ & _ & _ & _ & RS). eapply RS; eassumption. Qed.
  Lemma rep1_op p o : occ p o -> operation h o -> rep1 (NObj p o) = NObj p o.
  Proof.
    intros Ho O. apply (@rep1_fix h shp dflt um m c g g1 rep1 H1 p o Ho). intros D. apply (@op_not_var h o O). exact (@kind_var h o KDeclared D).
  Qed.
  Lemma rep1_variable p o : occ p o -> variable h o -> exists p' o', rep1 (NObj p o) = NObj p' o' /\ occ p' o' /\ variable h o'.
  Proof.
    intros Ho V. destruct (@var_kind h shp um m WF p o Ho V) as [[_ K]|(k & pn & Hc)].
    - exists p, o. rewrite (@rep1_fix h shp dflt um m c g g1 rep1 H1 p o Ho K). auto.
    - destruct H1 as (_ & _ & _ & _ & RC & _). destruct (RC p k o pn Ho Hc) as (p' & k' & o' & E & Ho' & Hc' & _). exists p', o'.
      split; [exact E|]. split; [exact Ho'|]. eapply called_var; eassumption.
  Qed.
  (** Edges into a variable come from the operation that computes it. *)
  Lemma edge_var a x v : edge g1 a x -> attr x = NVar v -> exists p o w, x = NObj p w /\ a = NObj p o /\ writes h o w /\ occ p o /\ occ p w.
  Proof.
    intros He Av. apply Q1' in He. destruct He as (a' & x' & He & Ea & Ex). apply (@flat_edge h shp um m c WF r u g B F) in He.
    destruct He as (p & o & w & -> & -> & Hf & ins & outs & decls & subs & A & Ho & Hw).
    assert (Oo : occ p o) by (exists ins, outs, decls, subs; auto). assert (Ow : occ p w) by (exists ins, outs, decls, subs; auto).
    destruct (@attr_variable h shp dflt c x v Av) as (px & ox & Exx & Vx).
    assert (Vw : variable h w).
    { destruct (f_alternates WF o w Hf) as [[_ K]|[_ K]]; [|exact K]. exfalso. rewrite (rep1_op p w Ow K) in Ex. rewrite Exx in Ex. injection Ex as <- <-.
      exact (@op_not_var h w K Vx). }
    pose proof (@flows_into_var h shp um m WF o w Vw Hf) as Hwr. pose proof (f_outputs WF _ _ Hwr) as K.
    assert (Fw : rep1 (NObj p w) = NObj p w).
    { apply (@rep1_fix h shp dflt um m c g g1 rep1 H1 p w Ow). intros D. exact (@not_both h w D K). }
    exists p, o, w. rewrite Fw in Ex. rewrite (rep1_op p o Oo (@writes_op h o w Hwr)) in Ea. auto 10.
  Qed.
  Lemma into_declared p o pn a : occ p o -> call p KDeclared o pn -> ~ edge g1 a (NObj p o).
  Proof.
    intros Ho Hc He. destruct (@called_attr h shp dflt um m c WF r u g R B F p KDeclared o pn Ho Hc) as (v & Av & _).
    destruct (edge_var _ _ _ He Av) as (p' & o' & w & E & _ & Hw & _). injection E as <- <-.
    exact (@not_both h o (@called_kind h shp um m WF _ _ _ _ Hc) (f_outputs WF _ _ Hw)).
  Qed.

  Lemma called_maps p k o x q : member h um p k o x -> promoted_ns m p x q -> maps_to p2u (dotted q x) (dotted p x).
  Proof.
    intros Hm Hq. destruct (p2u_correct _ _ _ (f_named WF) R) as (_ & HR). destruct (member_own (f_hierarchy WF) Hm) as (s & Hv & _).
    apply HR. exists p, k, x, s, q. auto.
  Qed.
  Lemma named_node_called x v names : named_node attr g1 p2u x v names -> exists p o k, x = NObj p o /\ occ p o /\ call p k o (va_pname v) /\ rep1 x = x.
  Proof.
    intros (Hx & Av & Au & _). apply Q1' in Hx. destruct Hx as [Hx Fx].
    destruct (@named_called h shp dflt um m c WF r u g R B F x v Hx Av Au) as (p & o & k & -> & Ho & Hc). exists p, o, k. auto.
  Qed.

  Lemma consistent : names_consistent attr g1 p2u u2p.
  Proof.
    split.
    - intros x v Hx Av. split.
      + intros a b Ha Hb. destruct (edge_var _ _ _ Ha Av) as (p & o & w & Ex & -> & Hw & _). destruct (edge_var _ _ _ Hb Av) as (p' & o' & w' & Ex' & -> & Hw' & _).
        rewrite Ex in Ex'. injection Ex' as <- <-. f_equal. exact (f_one WF _ _ _ Hw Hw').
      + intros Au. apply Q1' in Hx. destruct Hx as [Hx Fx].
        destruct (@named_called h shp dflt um m c WF r u g R B F x v Hx Av Au) as (p & o & k & -> & Ho & (y & q & Hm & Hq & E)).
        destruct (called_maps _ _ _ _ _ Hm Hq) as (names & G & _). rewrite E, G. split; [eapply (sets_p2u _ _ _ R), dget_In, G|].
        intros un Hun. assert (Mt : maps_to p2u (dotted q y) un) by (exists names; auto). apply (u2p_correct _ _ _ _ _ (f_named WF) R) in Mt.
        eapply dget_Some_key, Mt.
    - intros x v names y w ns un Hx Hy Hi Hj. pose proof Hx as (_ & _ & _ & Gx). pose proof Hy as (_ & _ & _ & Gy).
      assert (Mx : maps_to p2u (va_pname v) un) by (exists names; auto). assert (My : maps_to p2u (va_pname w) un) by (exists ns; auto).
      apply (u2p_correct _ _ _ _ _ (f_named WF) R) in Mx, My. rewrite Mx in My. injection My as E.
      destruct (named_node_called _ _ _ Hx) as (p & o & k & -> & Ho & Hc & Fx). destruct (named_node_called _ _ _ Hy) as (p' & o' & k' & -> & Ho' & Hc' & Fy).
      rewrite <- Fx, <- Fy. rewrite <- E in Hc'. eapply same_pn; eassumption.
  Qed.

  (** A name that stands for a used variable denotes its node. *)
  Lemma denotes_of p k o pn full : occ p o -> call p k o pn -> resolves_to m full pn -> denotes attr g1 p2u full (rep1 (NObj p o)).
  Proof.
    intros Ho (x & q & Hm & Hq & ->) Hr. destruct (@named_rep1 h shp dflt um m c WF r u g g1 R B F rep1 H1 p k o x q Ho Hm Hq) as (v & names & Hn & Pn & Hi).
    exists v, names. split; [exact Hn|]. destruct (string_dec (va_pname v) full) as [E|NE]; [left; exact E|right].
    pose proof Hr as (p' & k' & x' & s' & q' & Hv' & Hq' & E' & [Ef|Ef]); [|congruence]. split.
    - destruct (p2u_correct _ _ _ (f_named WF) R) as (_ & HR).
      assert (Mt : maps_to p2u (dotted q x) full) by (apply HR; exists p', k', x', s', q'; auto).
      destruct Mt as (names' & G & Hf). destruct Hn as (_ & _ & _ & G'). rewrite Pn, G in G'. injection G' as <-. exact Hf.
    - intros y w ns Hy Ey. destruct (named_node_called _ _ _ Hy) as (py & oy & ky & -> & Hoy & (xy & qy & Hmy & Hqy & Eq) & _).
      destruct (member_own (f_hierarchy WF) Hmy) as (s & Hv & _). destruct maps_ok as (mp & MO).
      assert (Rf : resolves_to m full full) by (exists py, ky, xy, s, qy; split; [exact Hv|]; split; [exact Hqy|]; split; [congruence|right; congruence]).
      apply NE. rewrite Pn. exact (resolves_fun _ _ _ _ _ (f_named WF) MO Hr Rf).
  Qed.
  Lemma called_shape p k o pn v : occ p o -> call p k o pn -> attr (NObj p o) = NVar v -> va_shape v = shp o.
  Proof.
    intros Ho Hc Av. destruct (@called_var h shp um m WF p k o pn Hc) as (ob & E & O).
    destruct (@attr_var h shp dflt (c_log c) p o ob E O) as (v' & Av' & _ & _ & S & _). rewrite Av in Av'. injection Av' as <-. exact S.
  Qed.
  Lemma called_has_var p k o x : member h um p k o x -> has_var m p k x (shp o).
  Proof.
    intros (N & ins & outs & decls & subs & A & Hi). destruct (hier_at (f_hierarchy WF) A) as (m' & A' & H'). exists m'. split; [exact A'|].
    inversion H' as [? ? ? ? ? F1 F2 F3 _ _]; subst.
    destruct k; [destruct (Forall2_In_l _ _ _ _ F1 Hi) as ([y s] & Hy & K & N' & S)|destruct (Forall2_In_l _ _ _ _ F2 Hi) as ([y s] & Hy & K & N' & S)|
      destruct (Forall2_In_l _ _ _ _ F3 Hi) as ([y s] & Hy & K & N' & S)]; cbn in N', S; pose proof (named_fun N N') as <-; subst s; exact Hy.
  Qed.
  (** In one model a name has one shape. *)
  Lemma consistent_models : locally_consistent m.
  Proof.
    intros p m' A k1 k2 x s1 s2 H1' H2'.
    pose proof (sub_um_at _ _ _ _ _ _ (f_hierarchy WF) A) as X.
    destruct X as (um' & Au & Hu). inversion Hu as [ins outs decls subs ? F1 F2 F3 F4 F5]; subst.
    assert (G : forall k s, In (x, s) (vars k m') -> exists o, scope h ins (outs ++ decls) o /\ named h o x /\ shp o = s).
    { intros k s Hv. destruct k; cbn in Hv.
      - destruct (Forall2_In_r _ _ _ _ F1 Hv) as (o & Ho & _ & N & E). exists o. split; [left; exact Ho|auto].
      - destruct (Forall2_In_r _ _ _ _ F2 Hv) as (o & Ho & _ & N & E). exists o. split; [right; apply needed_leaf, in_app_iff; auto|auto].
      - destruct (Forall2_In_r _ _ _ _ F3 Hv) as (o & Ho & _ & N & E). exists o. split; [right; apply needed_leaf, in_app_iff; auto|auto]. }
    destruct (G _ _ H1') as (o1 & S1 & N1 & <-). destruct (G _ _ H2') as (o2 & S2 & N2 & <-).
    destruct (f_names WF _ _ _ _ _ Au) as [NA _]. rewrite (NA o1 o2 x S1 S2 N1 N2). reflexivity.
  Qed.
  Lemma declared_sizes p o p' o' pn : call p KDeclared o pn -> call p' KDeclared o' pn -> prod (shp o) = prod (shp o').
  Proof.
    intros (x & q & Hm & Hq & ->) (x' & q' & Hm' & Hq' & E). pose proof (called_has_var _ _ _ _ Hm) as Hv. pose proof (called_has_var _ _ _ _ Hm') as Hv'.
    destruct (@names_inj h shp um m WF _ _ _ _ _ _ _ _ _ _ Hv Hq Hv' Hq' E) as [<- <-].
    exact (targets_same_size _ _ _ _ _ _ _ _ _ (f_named WF) consistent_models R Hv Hv' Hq Hq').
  Qed.
  Lemma source_occurs p k o pn : k <> KDeclared -> call p k o pn -> occ p o.
  Proof. intros K Hc. destruct k; [eapply input_occurs, Hc|eapply output_occurs, Hc|congruence]. Qed.

  (** ** Acceptable connections are accepted *)
  Lemma one_connection p0 a b pb : declared_conn m p0 a b -> connection_ok h shp um m p0 a b -> resolves_to m (dotted p0 b) pb ->
    exists ts, denotes attr g1 p2u (dotted p0 a) (snd ts) /\ denotes attr g1 p2u (dotted p0 b) (fst ts) /\ admissible attr g1 (fst ts) (snd ts) /\
      exists v, target_node attr (fst ts) v /\ va_pname v = pb.
  Proof.
    intros Hd (pa & pb' & Ra & Rb & OD & ps & ks & os & pt & ot & Hs & NK & Ho & Ht & SZ) Rb'.
    destruct maps_ok as (mp & MO). pose proof (resolves_fun _ _ _ _ _ (f_named WF) MO Rb Rb') as E. subst pb'.
    pose proof (source_occurs _ _ _ _ NK Hs) as Hos. exists (rep1 (NObj pt ot), rep1 (NObj ps os)). cbn [fst snd].
    split; [eapply denotes_of; eassumption|]. split; [eapply denotes_of; eassumption|].
    destruct H1 as (_ & _ & _ & ND & RC & _). rewrite (ND ps os Hos (@not_declared h shp um m WF ks NK _ _ _ Hs)).
    destruct (RC pt KDeclared ot pb Ho Ht) as (p' & k' & o' & Er & Ho' & Hc' & Fx). rewrite Er. pose proof (OD _ _ _ Hc'). subst k'.
    destruct (@called_attr h shp dflt um m c WF r u g R B F p' KDeclared o' pb Ho' Hc') as (v & Av & Pv & _ & Cv).
    destruct (@called_attr h shp dflt um m c WF r u g R B F ps ks os pa Hos Hs) as (w & Aw & Pw & _ & Cw).
    split; [|exists v; split; [split; [exact Av|exact Cv]|exact Pv]]. split.
    - exists w. split; [split; [exact Aw|destruct ks; [left|right|congruence]; exact Cw]|]. exists v. split; [exact Av|].
      rewrite (called_shape _ _ _ _ _ Hos Hs Aw), (called_shape _ _ _ _ _ Ho' Hc' Av), SZ. eapply declared_sizes; eassumption.
    - intros x He. eapply into_declared; eassumption.
  Qed.

  Lemma triples : collect_connections m "" = map (fun t => (fst (snd t), snd (snd t), ns_of (fst t))) (conns_declared m).
  Proof.
    rewrite (collected _ (f_named WF)). unfold conns_declared. rewrite flat_map_concat_map, flat_map_concat_map, concat_map, !map_map. f_equal.
    apply map_ext. intros [p m']. cbn [fst snd]. rewrite map_map. apply map_ext. intros [a b]. reflexivity.
  Qed.
  Lemma conns_declared_spec t : In t (conns_declared m) <-> declared_conn m (fst t) (fst (snd t)) (snd (snd t)).
  Proof.
    unfold conns_declared. rewrite in_flat_map. split.
    - intros ([p m'] & Hp & Hi). apply postorder_spec in Hp. apply in_map_iff in Hi. destruct Hi as ([a b] & <- & Hi). exists m'. auto.
    - intros (m' & A & Hi). exists (fst t, m'). split; [apply postorder_spec, A|]. apply in_map_iff. exists (snd t). destruct t as [p [a b]]. auto.
  Qed.

  Theorem merge_accepted : (forall p a b, declared_conn m p a b -> connection_ok h shp um m p a b) -> targets_distinct m ->
    exists g2 p2n u2n conns, merge_connections irnode_eqb attr g1 (collect_connections m "") p2u u2p = Ok (g2, p2n, u2n, conns).
  Proof.
    intros CO (pns & FT & ND). pose proof H1 as (W1 & _ & NVV & _).
    assert (NE : forall pn names, dget p2u pn = Some names -> names <> []).
    { intros pn names E. apply dget_In in E. exact (filled_p2u _ _ _ R _ _ E). }
    destruct (@scan_accepts irnode irnode_eqb irnode_eqb_spec attr g1 p2u u2p W1 consistent) as (maps & SM).
    assert (CH : exists conns, Forall2 (fun t ts => denotes attr g1 p2u (dotted (fst t) (fst (snd t))) (snd ts) /\ denotes attr g1 p2u (dotted (fst t) (snd (snd t))) (fst ts) /\
        (admissible attr g1 (fst ts) (snd ts) /\ exists v, target_node attr (fst ts) v) /\
        forall pn, resolves_to m (dotted (fst t) (snd (snd t))) pn -> exists v, attr (fst ts) = NVar v /\ va_pname v = pn) (conns_declared m) conns).
    { apply Forall2_choice. intros [p [a b]] Hi. pose proof Hi as Hi'. apply conns_declared_spec in Hi. cbn [fst snd] in *.
      destruct (Forall2_In_l _ _ _ _ FT Hi') as (pn & _ & Rn). cbn [fst snd] in Rn.
      destruct (one_connection p a b pn Hi (CO _ _ _ Hi) Rn) as (ts & D1 & D2 & AD & v & [Av Cv] & Pv). exists ts.
      split; [exact D1|]. split; [exact D2|]. split; [split; [exact AD|exists v; split; [exact Av|exact Cv]]|]. intros pn' Rn'. exists v. split; [exact Av|].
      destruct maps_ok as (mp & MO). rewrite Pv. exact (resolves_fun _ _ _ _ _ (f_named WF) MO Rn Rn'). }
    destruct CH as (conns & FC).
    destruct (@connections_complete irnode irnode_eqb irnode_eqb_spec attr g1 (collect_connections m "") p2u u2p maps conns W1 NVV NE SM) as (g2 & MG).
    - rewrite triples. apply Forall2_map_l. cbn [fst snd].
      assert (G : forall l l', (forall t, In t l -> In t (conns_declared m)) -> Forall2 (fun t ts => denotes attr g1 p2u (dotted (fst t) (fst (snd t))) (snd ts) /\ denotes attr g1 p2u (dotted (fst t) (snd (snd t))) (fst ts) /\
        (admissible attr g1 (fst ts) (snd ts) /\ exists v, target_node attr (fst ts) v) /\
        forall pn, resolves_to m (dotted (fst t) (snd (snd t))) pn -> exists v, attr (fst ts) = NVar v /\ va_pname v = pn) l l' ->
        Forall2 (fun t ts => denotes attr g1 p2u (prepend_namespace (ns_of (fst t)) (fst (snd t))) (snd ts) /\
                             denotes attr g1 p2u (prepend_namespace (ns_of (fst t)) (snd (snd t))) (fst ts)) l l').
      { intros l l' Hl FF. induction FF as [|t ts l l' (D1 & D2 & _) FF IH]; constructor; [|apply IH; intros t' Ht'; apply Hl; right; exact Ht'].
        pose proof (proj1 (conns_declared_spec t) (Hl t (or_introl eq_refl))) as Hd.
        rewrite !(@conn_name h shp um m WF _ _ _ _ Hd). auto. }
      apply G; [auto|exact FC].
    - assert (FP : Forall2 (fun t pn => exists v, attr t = NVar v /\ va_pname v = pn) (map fst conns) pns).
      { apply Forall2_map_l. pose proof (Forall2_trans_ex _ _ _ _ _ FC FT) as FF. clear -FF. induction FF as [|ts pn l l' (t & _ & (_ & _ & _ & K) & Rn) FF IH]; constructor; [|exact IH].
        exact (K pn Rn). }
      eapply Forall2_NoDup; [exact FP| |exact ND]. intros x y y' _ (v & Av & <-) (v' & Av' & <-). congruence.
    - intros t s Hi. destruct (Forall2_In_r _ _ _ _ FC Hi) as (t0 & _ & _ & _ & K & _). exact K.
    - exists g2, (fst maps), (snd maps), conns. exact MG.
  Qed.
End A.
