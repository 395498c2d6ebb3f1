(** The mapping from variables to nodes (RepModel). *)
From Verif Require Import PyBase NamesModel NamesProofs PromotionsModel PromotionsSpec PromotionsProofs PromotionsProofs2 HierModel HierSpec HierProofs Digraph
  FlatModel FlatSpec FlatProofs ConnProofs ConnProofs2 ExprModel UnflatModel UnflatSpec UnflatProofs UnflatProofs2 FlattenModel FlattenSpec FlattenProofs
  FlattenProofs2 FlattenProofs3 FlattenProofs4 TopoModel TopoSpec TopoProofs CompileModel CompileSpec ExecProofs CompileProofs CompileProofs3 IterModel IterSpec IterProofs RepModel.
From Coq Require Import Permutation.

Section Auto.
  Context {A : Type} (eqb : A -> A -> bool) (eqb_spec : forall x y, eqb x y = true <-> x = y) (attr : A -> nattr).
  Context (g : digraph A) (W : wf g) (HB : no_var_var_edge attr g).
  Let vars := filter (is_var attr) (g_nodes g).
  Let sources : dict A := dict_of (map (fun x => (pname attr x, x)) (filter (is_src attr) vars)).
  Let targets := filter (is_tgt attr) vars.
  Let ut := unique_targets attr targets.
  Context (rt : dict (list A)) (SS : same_sets (redundant_targets eqb attr targets ut) rt).
  Let calls := map (fun uv => (snd uv, fst uv)) (auto_steps sources ut rt).

  Lemma In_calls t u : In (t, u) calls <->
    In t targets /\ ((dget ut (pname attr t) = Some u /\ u <> t) \/ (dget ut (pname attr t) = Some t /\ dget sources (pname attr t) = Some u)).
  Proof.
    unfold calls. rewrite in_map_iff. unfold auto_steps. split.
    - intros ([a b] & E & Hi). cbn [fst snd] in E. injection E as -> ->. apply in_app_iff in Hi. destruct Hi as [Hi|Hi].
      + apply (Permutation_in _ (Permutation_sym (@steps1_perm A eqb attr g rt SS))) in Hi. apply (@In_steps1 A eqb eqb_spec attr g W) in Hi. destruct Hi as (H1 & H2 & H3). auto.
      + apply In_steps2 in Hi. destruct Hi as (k & H1 & H2). destruct (@ut_tgt A attr g k t H2) as [Ht Hk]. rewrite Hk. auto.
    - intros [Ht [[H1 H2]|[H1 H2]]]; exists (u, t); (split; [reflexivity|]); apply in_app_iff.
      + left. apply (Permutation_in _ (@steps1_perm A eqb attr g rt SS)). apply (@In_steps1 A eqb eqb_spec attr g W). auto.
      + right. apply In_steps2. eauto.
  Qed.
  Lemma calls_keys t u : In (t, u) calls -> auto_rep eqb attr g t <> t.
  Proof.
    intros Hi. apply In_calls in Hi. destruct Hi as [Ht Hc]. destruct (ut_total attr _ _ Ht) as (e & He).
    rewrite (@auto_rep_target A eqb eqb_spec attr g W t e Ht He). pose proof (@sources_spec A attr g (pname attr t)) as S.
    fold vars sources in S |- *. destruct (dget sources (pname attr t)) as [s|] eqn:Es.
    - intros ->. apply In_targets in Ht. eapply src_not_tgt; [apply S|apply Ht].
    - fold vars targets ut in He. destruct Hc as [[H1 H2]|[_ H2]]; congruence.
  Qed.
  Lemma calls_fun t u u' : In (t, u) calls -> In (t, u') calls -> u = u'.
  Proof. rewrite !In_calls. intros [_ [[H1 H2]|[H1 H2]]] [_ [[H1' H2']|[H1' H2']]]; congruence. Qed.
  Lemma calls_other x : is_tgt attr x = false -> forall u, ~ In (x, u) calls.
  Proof. intros E u Hi. apply In_calls in Hi. destruct Hi as [Hi _]. apply In_targets in Hi. destruct Hi. congruence. Qed.
  (** One declared variable is elected for each promoted name; the others are mapped to it, and
      it is mapped to the node that represents the name. *)
  Lemma calls_elected k : (exists t, In t targets /\ pname attr t = k) -> exists e, In e targets /\ pname attr e = k /\
    ((auto_rep eqb attr g e = e /\ (forall u, ~ In (e, u) calls)) \/ (is_src attr (auto_rep eqb attr g e) = true /\ node g (auto_rep eqb attr g e) /\ pname attr (auto_rep eqb attr g e) = k /\ In (e, auto_rep eqb attr g e) calls)) /\
    forall t, In t targets -> pname attr t = k -> t <> e -> In (t, e) calls.
  Proof.
    intros (t & Ht & <-). destruct (ut_total attr _ _ Ht) as (e & He). exists e. destruct (@ut_tgt A attr g _ e He) as [Te Ke].
    split; [exact Te|]. split; [exact Ke|]. fold vars targets ut in He. assert (He' : dget ut (pname attr e) = Some e) by (rewrite Ke; exact He). split.
    - rewrite (@auto_rep_target A eqb eqb_spec attr g W e e Te He'). pose proof (@sources_spec A attr g (pname attr e)) as S. fold vars sources in S |- *.
      destruct (dget sources (pname attr e)) as [s|] eqn:Es.
      + right. split; [apply S|]. split; [apply S|]. split; [rewrite <- Ke; apply S|]. apply In_calls. auto.
      + left. split; [reflexivity|]. intros u Hi. apply In_calls in Hi. destruct Hi as [_ [[H1 H2]|[_ H2]]]; congruence.
    - intros t' Ht' K Ne. apply In_calls. split; [exact Ht'|]. left. rewrite K. split; [exact He|congruence].
  Qed.
End Auto.

Lemma rep_node_none calls p o : (forall q v, ~ In (NObj q o, v) calls) -> rep_node_of calls p o = NObj p o.
Proof.
  unfold rep_node_of. generalize (NObj p o) as cur. induction calls as [|[x v] l IH]; intros cur H; [reflexivity|]. cbn [fold_left fst snd].
  destruct x as [q n|q o']; [apply IH; intros q' v' Hi; apply (H q' v'); right; exact Hi|]. destruct (Nat.eqb o o') eqn:E.
  - apply Nat.eqb_eq in E. subst. exfalso. apply (H q v). left. reflexivity.
  - apply IH. intros q' v' Hi. apply (H q' v'). right. exact Hi.
Qed.
Lemma rep_node_last calls p o u : (forall q v, In (NObj q o, v) calls -> v = u) -> (exists q, In (NObj q o, u) calls) -> rep_node_of calls p o = u.
Proof.
  unfold rep_node_of. rewrite <- (rev_involutive calls). induction (rev calls) as [|[x v] l IH]; intros H (q & Hi); [destruct Hi|]. cbn [rev] in *.
  rewrite fold_left_app. cbn [fold_left fst snd]. destruct x as [q' n|q' o'].
  - apply IH; [intros q2 v2 H2; apply (H q2 v2), in_app_iff; auto|]. apply in_app_iff in Hi. destruct Hi as [Hi|[Hi|[]]]; [eauto|discriminate].
  - destruct (Nat.eqb o o') eqn:E.
    + apply Nat.eqb_eq in E. subst. apply (H q' v), in_app_iff. right. left. reflexivity.
    + apply IH; [intros q2 v2 H2; apply (H q2 v2), in_app_iff; auto|]. apply in_app_iff in Hi. destruct Hi as [Hi|[Hi|[]]]; [eauto|].
      injection Hi as -> -> ->. rewrite Nat.eqb_refl in E. discriminate.
Qed.

Section R.
  Context (h : list obj) (shp : nat -> shape) (dflt : nat -> bool) (um : umodel) (m : model) (c : compiled).
  Hypothesis (WF : well_formed h um m shp) (TI : inputs_not_targets h um m).
  Context (r : rp) (u : ugraph) (g g1 : digraph irnode).
  Hypothesis (R : resolve m None = Ok r) (B : built h um u).
  Hypothesis (F : flatten h (rp_p2u r) (create_reverse_map (rp_p2u r)) u = Ok (g, c_log c)).
  Local Notation attr := (node_attr h shp dflt (c_log c)).
  Local Notation occ := (occurs h um).
  Local Notation call := (called h um m).
  Let vars := filter (is_var attr) (g_nodes g).
  Let sources : dict irnode := dict_of (map (fun x => (pname attr x, x)) (filter (is_src attr) vars)).
  Let targets := filter (is_tgt attr) vars.
  Let ut := unique_targets attr targets.
  Context (rt : dict (list irnode)) (SS : same_sets (redundant_targets irnode_eqb attr targets ut) rt).
  Hypothesis (M : contract_all irnode_eqb g (auto_steps sources ut rt) = Ok g1).
  Hypothesis (MC : merge_connections irnode_eqb attr g1 (collect_connections m "") (rp_p2u r) (create_reverse_map (rp_p2u r))
    = Ok (c_graph c, c_p2n c, c_u2n c, c_conns c)).
  Let auto := map (fun uv => (snd uv, fst uv)) (auto_steps sources ut rt).
  Let calls := auto ++ c_conns c.
  Context (rep1 : irnode -> irnode) (H1 : rep1_ok h shp dflt um m c g g1 rep1).
  Context (rep2 : irnode -> irnode) (H2 : rep2_ok c g1 rep2).

  Lemma Wg : wf g. Proof. apply (@flatten_spec _ _ _ _ _ _ (built_ug_ok (f_inputs WF) B) F). Qed.
  Lemma NV : no_var_var_edge attr g.
  Proof. exact (@flat_no_var_var h shp dflt um m r u (f_hierarchy WF) (f_named WF) (f_inputs WF) B g (c_log c) F (f_alternates WF) (f_op_names WF)). Qed.
  Local Notation arep := (auto_rep irnode_eqb attr g).
  Lemma node_g1 x : node g1 x <-> node g x /\ arep x = x.
  Proof.
    destruct (@merge_auto_any_ok _ irnode_eqb irnode_eqb_spec attr g Wg NV rt SS) as (g' & M' & _ & HN & _).
    fold vars sources targets ut in M'. rewrite M in M'. injection M' as <-. apply HN.
  Qed.
  Lemma kept_iff x : node g x -> (arep x = x <-> rep1 x = x).
  Proof.
    intros Hx. destruct H1 as (_ & (Q & _) & _). specialize (Q x). pose proof (node_g1 x). tauto.
  Qed.
  Lemma occ_node p o : node g (NObj p o) <-> occ p o.
  Proof. eapply flat_node; eassumption. Qed.
  Lemma declared_target p o pn : occ p o -> call p KDeclared o pn -> In (NObj p o) targets /\ pname attr (NObj p o) = pn.
  Proof.
    intros Ho Hc. edestruct called_attr as (v & Av & Pv & _ & Cv); [exact WF|exact R|exact B|exact F|exact Ho|exact Hc|].
    split; [apply In_targets; split; [apply occ_node, Ho|apply is_tgt_spec; exists v; split; [exact Av|exact Cv]]|].
    unfold pname, vat. rewrite Av. exact Pv.
  Qed.
  Lemma target_declared x pn : In x targets -> pname attr x = pn -> (exists p k o, call p k o pn) -> exists p o, x = NObj p o /\ occ p o /\ call p KDeclared o pn.
  Proof.
    intros Hx Pn E. apply In_targets in Hx. destruct Hx as [Hx T]. apply is_tgt_spec in T. destruct T as (v & Av & Cv).
    assert (Pv : va_pname v = pn) by (rewrite <- Pn; unfold pname, vat; rewrite Av; reflexivity).
    edestruct (@pname_called h shp dflt um m c WF r u g R B F x v Hx Av) as (p & k & o & -> & Ho & Hc); [rewrite Pv; exact E|].
    exists p, o. split; [reflexivity|]. split; [exact Ho|]. rewrite Pv in Hc. assert (k = KDeclared) as <-; [|exact Hc].
    edestruct called_attr as (v' & Av' & _ & _ & Cv'); [exact WF|exact R|exact B|exact F|exact Ho|exact Hc|]. rewrite Av in Av'. injection Av' as <-. destruct k; congruence.
  Qed.
  Lemma call_key x v : In (x, v) auto -> arep x <> x /\ node g x.
  Proof.
    intros Hi. split; [exact (@calls_keys _ irnode_eqb irnode_eqb_spec attr g Wg rt SS x v Hi)|].
    apply (@In_calls _ irnode_eqb irnode_eqb_spec attr g Wg rt SS) in Hi. destruct Hi as [Hi _]. apply In_targets in Hi. apply Hi.
  Qed.
  Lemma conn_key x v : In (x, v) (c_conns c) -> rep1 x = x /\ node g x /\ rep2 x = v /\ exists p o pn, x = NObj p o /\ occ p o /\ call p KDeclared o pn /\ connection_target m pn.
  Proof.
    intros Hi. destruct H2 as (_ & _ & C2 & _). destruct (C2 _ _ Hi) as (E & _).
    edestruct conn_target as (p & o & pn & Ex & Ho & Hc & CT); [exact WF|exact TI|exact R|exact B|exact F|exact MC|exact H1|exact Hi|].
    edestruct conn_in as (p0 & a & b & _ & _ & Dt); try exact Hi; try eassumption.
    edestruct denotes_called as (pt & ot & kt & pnt & vt & Et & _ & _ & Fx & _); try exact Dt; try eassumption.
    split; [exact Fx|]. split; [subst x; apply occ_node, Ho|]. split; [exact E|]. exists p, o, pn. auto.
  Qed.
  Lemma conn_cget x : rep2 x = match cget irnode_eqb (c_conns c) x with Some s => s | None => x end.
  Proof. eapply rep2_cget; eassumption. Qed.
  (** Keys are occurrences. *)
  Lemma key_occurs q o v : In (NObj q o, v) calls -> occ q o.
  Proof.
    intros Hi. apply in_app_iff in Hi. destruct Hi as [Hi|Hi]; apply occ_node; [apply call_key in Hi|apply conn_key in Hi]; tauto.
  Qed.

  (** Objects that are not declared variables keep their node. *)
  Lemma rep_node_fixed p o : occ p o -> variable h o -> ~ declared_object h o -> rep_node_of calls p o = NObj p o /\ node_of h c p o = NObj p o.
  Proof.
    intros Ho V ND. split.
    - apply rep_node_none. intros q v Hi. pose proof (key_occurs _ _ _ Hi) as Hq. apply in_app_iff in Hi. destruct Hi as [Hi|Hi].
      + destruct (call_key _ _ Hi) as [K N]. apply K. apply kept_iff; [exact N|]. destruct H1 as (_ & _ & _ & Fx & _). exact (Fx q o Hq ND).
      + apply conn_key in Hi. destruct Hi as (_ & _ & _ & p' & o' & pn & E & _ & Hc & _). injection E as <- <-. apply ND.
        exact (called_kind h shp um m WF q KDeclared o pn Hc).
    - rewrite (@node_of_rep h shp dflt um m c WF TI r u g g1 R B F MC rep1 H1 rep2 H2 p o Ho V). eapply rep_fix; eassumption.
  Qed.

  Lemma rep_node_declared pn : (exists p o, occ p o /\ call p KDeclared o pn) ->
    exists pe oe, occ pe oe /\ call pe KDeclared oe pn /\
      (node (c_graph c) (NObj pe oe) <-> (forall p k o, occ p o -> call p k o pn -> k = KDeclared) /\ ~ connection_target m pn) /\
      (node (c_graph c) (NObj pe oe) -> forall p o, occ p o -> call p KDeclared o pn -> node_of h c p o = NObj pe oe) /\
      forall p o, occ p o -> call p KDeclared o pn -> (forall p', occ p' o -> p' = p) ->
        (NObj p o = NObj pe oe -> rep_node_of calls p o = node_of h c p o) /\
        (NObj p o <> NObj pe oe -> rep_node_of calls p o = NObj pe oe).
  Proof.
    intros (p0 & o0 & Ho0 & Hc0). destruct (declared_target p0 o0 pn Ho0 Hc0) as [T0 P0].
    destruct (@calls_elected _ irnode_eqb irnode_eqb_spec attr g Wg rt SS pn (ex_intro _ _ (conj T0 P0))) as (e & Te & Pe & EE & EO).
    fold vars sources targets ut auto in Te, EE, EO.
    destruct (target_declared e pn Te Pe) as (pe & oe & -> & Hoe & Hce); [eauto|].
    exists pe, oe. split; [exact Hoe|]. split; [exact Hce|]. pose proof (proj2 (occ_node pe oe) Hoe) as Ne.
    assert (RC := proj1 (proj2 (proj2 (proj2 (proj2 H1))))). assert (RS := proj2 (proj2 (proj2 (proj2 (proj2 H1))))).
    (* the representative of the name *)
    assert (SRC : forall p k o, occ p o -> call p k o pn -> k <> KDeclared -> arep (NObj pe oe) <> NObj pe oe).
    { intros p k o Ho Hc K E. apply kept_iff in E; [|exact Ne].
      pose proof (RS pe KDeclared oe p k o pn Hoe Ho Hce Hc) as E2.
      assert (Fx : rep1 (NObj p o) = NObj p o). { destruct H1 as (_ & _ & _ & Fx & _). apply (Fx p o Ho). eapply not_declared; eassumption. }
      rewrite E, Fx in E2. injection E2 as <- <-. eapply not_declared; [exact WF|exact K|exact Hc|]. exact (called_kind h shp um m WF pe KDeclared oe pn Hce). }
    assert (NSR : arep (NObj pe oe) <> NObj pe oe -> exists p k o, occ p o /\ call p k o pn /\ k <> KDeclared /\ rep1 (NObj pe oe) = NObj p o /\
        rep2 (NObj p o) = NObj p o /\ In (NObj pe oe, NObj p o) auto).
    { intros K. destruct EE as [[E _]|(IS & Ns & Ps & Hi)]; [contradiction|]. apply is_src_spec in IS. destruct IS as (sv & As & Cs).
      assert (Pv : va_pname sv = pn) by (rewrite <- Ps; unfold pname, vat; rewrite As; reflexivity).
      destruct (@pname_called h shp dflt um m c WF r u g R B F _ sv Ns As) as (p & k & o & E & Ho & Hc); [rewrite Pv; eauto|]. rewrite Pv in Hc. rewrite E in *.
      assert (KD : k <> KDeclared).
      { intros ->. edestruct called_attr as (v' & Av' & _ & _ & Cv'); [exact WF|exact R|exact B|exact F|exact Ho|exact Hc|]. rewrite As in Av'. injection Av' as <-. destruct Cs; congruence. }
      assert (ND : ~ declared_object h o) by (eapply not_declared; eassumption).
      assert (Fx : rep1 (NObj p o) = NObj p o) by (destruct H1 as (_ & _ & _ & Fx & _); exact (Fx p o Ho ND)).
      exists p, k, o. split; [exact Ho|]. split; [exact Hc|]. split; [exact KD|]. split; [rewrite <- Fx; exact (RS pe KDeclared oe p k o pn Hoe Ho Hce Hc)|].
      split; [|exact Hi]. destruct H2 as (_ & _ & _ & O2). apply O2. intros Hk. apply in_map_iff in Hk. destruct Hk as ([x v] & Ex & Hk). cbn in Ex. subst x.
      apply conn_key in Hk. destruct Hk as (_ & _ & _ & p' & o' & pn' & E' & _ & Hc' & _). injection E' as <- <-. apply ND. exact (called_kind h shp um m WF p KDeclared o pn' Hc'). }
    (* a call for the same name comes from one place *)
    assert (KO : forall p o pn', occ p o -> call p KDeclared o pn -> call p KDeclared o pn' -> pn' = pn).
    { intros p o pn' _ (x & q & Hm & Hq & Ep) (x2 & q2 & Hm2 & Hq2 & Ep2). pose proof Hm as (Nx & _). pose proof Hm2 as (Nx2 & _).
      pose proof (named_fun Nx Nx2) as <-. rewrite (promoted_ns_fun _ _ _ _ _ (f_named WF) Hq2 Hq) in Ep2. congruence. }
    assert (V : forall p o, call p KDeclared o pn -> variable h o) by (intros p o Hc; apply (kind_var h o KDeclared); exact (called_kind h shp um m WF p KDeclared o pn Hc)).
    assert (NR : forall p o, occ p o -> call p KDeclared o pn -> node_of h c p o = rep2 (rep1 (NObj p o))).
    { intros p o Ho Hc. exact (@node_of_rep h shp dflt um m c WF TI r u g g1 R B F MC rep1 H1 rep2 H2 p o Ho (V p o Hc)). }
    assert (DE : arep (NObj pe oe) = NObj pe oe \/ arep (NObj pe oe) <> NObj pe oe).
    { destruct (irnode_eqb (arep (NObj pe oe)) (NObj pe oe)) eqn:E; [left; apply irnode_eqb_spec, E|right]. intros X. apply irnode_eqb_spec in X. congruence. }
    split; [|split].
    - pose proof H2 as (_ & (Q2 & _) & C2 & O2). rewrite Q2, node_g1. split.
      + intros [[_ K] E2]. split.
        * intros p k o Ho Hc. destruct k; [| |reflexivity]; exfalso; eapply SRC; try eassumption; discriminate.
        * intros (pc & a & b & Hd & Hr). edestruct conn_of as (t & s & Hi & _ & Dt); try exact Hd; try eassumption.
          pose proof K as K1. apply kept_iff in K1; [|exact Ne].
          assert (Et : rep1 (NObj pe oe) = t) by (eapply same_rep1; eassumption). rewrite K1 in Et. subst t. destruct (C2 _ _ Hi) as (Es & _ & X). congruence.
      + intros [NS NT]. assert (K : arep (NObj pe oe) = NObj pe oe). { destruct DE as [K|K]; [exact K|]. destruct (NSR K) as (p & k & o & Ho & Hc & KD & _). exfalso. eapply KD, NS; eassumption. }
        split; [split; [exact Ne|exact K]|]. apply O2. intros Hk. apply in_map_iff in Hk. destruct Hk as ([x v] & Ex & Hk). cbn in Ex. subst x.
        apply conn_key in Hk. destruct Hk as (_ & _ & _ & p' & o' & pn' & E' & _ & Hc' & CT). injection E' as <- <-. apply NT. rewrite <- (KO pe oe pn' Hoe Hce Hc'). exact CT.
    - intros Hn p o Ho Hc. pose proof H2 as (_ & (Q2 & _) & _). apply Q2 in Hn. destruct Hn as [Hn E2]. apply node_g1 in Hn. destruct Hn as [_ K].
      apply kept_iff in K; [|exact Ne]. rewrite (NR p o Ho Hc), (RS p KDeclared o pe KDeclared oe pn Ho Hoe Hc Hce), K. exact E2.
    - intros p o Ho Hc Once. pose proof (proj2 (occ_node p o) Ho) as No. destruct (declared_target p o pn Ho Hc) as [To Po]. split.
      + intros E. injection E as -> ->. rewrite (NR pe oe Hoe Hce). destruct DE as [K|K].
        * pose proof K as K1. apply kept_iff in K1; [|exact Ne]. rewrite K1, conn_cget. destruct (cget irnode_eqb (c_conns c) (NObj pe oe)) as [s|] eqn:Cg.
          -- apply rep_node_last.
             ++ intros q v Hi. rewrite (Once q (key_occurs _ _ _ Hi)) in Hi. apply in_app_iff in Hi. destruct Hi as [Hi|Hi].
                ** apply call_key in Hi. tauto.
                ** apply conn_key in Hi. destruct Hi as (_ & _ & <- & _). rewrite conn_cget, Cg. reflexivity.
             ++ exists pe. apply in_app_iff. right. eapply cget_spec; eassumption.
          -- apply rep_node_none. intros q v Hi. rewrite (Once q (key_occurs _ _ _ Hi)) in Hi. apply in_app_iff in Hi. destruct Hi as [Hi|Hi].
             ++ apply call_key in Hi. tauto.
             ++ eapply cget_spec in Hi; try eassumption. congruence.
        * destruct (NSR K) as (ps & ks & os & Hos & Hcs & KD & E1 & E2 & Hi). rewrite E1, E2. apply rep_node_last; [|exists pe; apply in_app_iff; left; exact Hi].
          intros q v Hv. rewrite (Once q (key_occurs _ _ _ Hv)) in Hv. apply in_app_iff in Hv. destruct Hv as [Hv|Hv].
          -- exact (@calls_fun _ irnode_eqb irnode_eqb_spec attr g Wg rt SS _ _ _ Hv Hi).
          -- apply conn_key in Hv. destruct Hv as (X & _). exfalso. apply K, kept_iff; assumption.
      + intros NE. pose proof (EO _ To Po NE) as Hi. apply rep_node_last; [|exists p; apply in_app_iff; left; exact Hi].
        intros q v Hv. rewrite (Once q (key_occurs _ _ _ Hv)) in Hv. apply in_app_iff in Hv. destruct Hv as [Hv|Hv].
        * exact (@calls_fun _ irnode_eqb irnode_eqb_spec attr g Wg rt SS _ _ _ Hv Hi).
        * apply conn_key in Hv. destruct Hv as (X & _). exfalso. apply call_key in Hi. apply (proj1 Hi), kept_iff; assumption.
  Qed.
End R.

(** The compilation and the calls it makes. *)
Lemma compile_mapping it h shp dflt um m c : lawful it -> compile_in it h shp dflt um m = Ok c ->
  exists calls c0 r u g g1 rt, mapping_calls it h shp dflt um m = Ok calls /\ same_parts c0 c /\ resolve m None = Ok r /\ built h um u /\
    flatten h (rp_p2u r) (create_reverse_map (rp_p2u r)) u = Ok (g, c_log c0) /\
    let attr := node_attr h shp dflt (c_log c0) in
    let vars := filter (is_var attr) (g_nodes g) in
    let sources := dict_of (map (fun x => (pname attr x, x)) (filter (is_src attr) vars)) in
    let targets := filter (is_tgt attr) vars in
    let ut := unique_targets attr targets in
    same_sets (redundant_targets irnode_eqb attr targets ut) rt /\ contract_all irnode_eqb g (auto_steps sources ut rt) = Ok g1 /\
    merge_connections irnode_eqb attr g1 (collect_connections m "") (rp_p2u r) (create_reverse_map (rp_p2u r)) = Ok (c_graph c0, c_p2n c0, c_u2n c0, c_conns c0) /\
    calls = map (fun uv => (snd uv, fst uv)) (auto_steps sources ut rt) ++ c_conns c0.
Proof.
  intros L H. unfold compile_in in H. apply inv_bind' in H. destruct H as (r & R & H). cbv zeta in H.
  apply inv_bind' in H. destruct H as (cs & CS & H). apply inv_bind' in H. destruct H as (dvs & DV & H).
  apply inv_bind' in H. destruct H as ([ob m'] & OB & H). apply inv_bind' in H. destruct H as (csts & CT & H).
  apply inv_bind' in H. destruct H as (u & U & H). apply inv_bind' in H. destruct H as ([g log] & F & H). cbn [fst snd] in H.
  apply inv_bind' in H. destruct H as (g1 & M & H). apply inv_bind' in H. destruct H as ([[[g2 p2n] u2n] conns] & MC & H).
  apply inv_bind' in H. destruct H as (order & S & H). injection H as <-.
  pose proof (visit_same (it_names it) (rp_p2u r) (proj1 L)) as SS. pose proof (reverse_same SS) as SL.
  pose proof (@merge_connections_same _ irnode_eqb (node_attr h shp dflt log) g1 (collect_connections m "") _ _ _ _ SS SL) as X.
  rewrite MC in X. match type of X with same_res _ ?e _ => destruct e as [[[[g2' p2n'] u2n'] conns']|] eqn:MC' end; cbn [same_res fst snd] in X; [|contradiction].
  destruct X as (-> & -> & SN & ->).
  pose proof F as F'. rewrite <- (@flatten_same h _ _ _ _ (fun k => eq_sym (same_dmem k SS)) SL) in F'.
  unfold merge_auto_in in M. cbv zeta in M.
  eexists _, (Compiled (rp_p2u r) (create_reverse_map (rp_p2u r)) cs dvs ob csts log g2 p2n u2n' conns order), r, (visit_models it [] u), g, g1, _.
  cbn [c_p2u c_u2p c_connections c_dvs c_objective c_cons c_log c_graph c_p2n c_u2n c_conns c_order]. split.
  { unfold mapping_calls. rewrite R. cbn [bind]. cbv zeta. rewrite U. cbn [bind]. rewrite F. cbn [bind fst snd]. rewrite M. cbn [bind]. rewrite MC. reflexivity. }
  split; [split; cbn; auto|]. split; [exact R|]. split; [apply visited; assumption|]. split; [exact F'|]. cbv zeta.
  split; [apply (visit_same (it_nodes it)), L|]. split; [exact M|]. split; [exact MC'|reflexivity].
Qed.
Theorem mapping_exact it h shp dflt um m c : lawful it -> well_formed h um m shp -> inputs_not_targets h um m -> compile_in it h shp dflt um m = Ok c ->
  exists calls, mapping_calls it h shp dflt um m = Ok calls /\
    (forall p o, occurs h um p o -> variable h o -> node (c_graph c) (node_of h c p o)) /\
    (forall p o, occurs h um p o -> variable h o -> ~ declared_object h o -> rep_node_of calls p o = node_of h c p o) /\
    forall pn, (exists p o, occurs h um p o /\ called h um m p KDeclared o pn) ->
    exists pe oe, occurs h um pe oe /\ called h um m pe KDeclared oe pn /\
      (node (c_graph c) (NObj pe oe) <-> (forall p k o, occurs h um p o -> called h um m p k o pn -> k = KDeclared) /\ ~ connection_target m pn) /\
      (node (c_graph c) (NObj pe oe) -> forall p o, occurs h um p o -> called h um m p KDeclared o pn -> node_of h c p o = NObj pe oe) /\
      forall p o, occurs h um p o -> called h um m p KDeclared o pn -> (forall p', occurs h um p' o -> p' = p) ->
        (NObj p o = NObj pe oe -> rep_node_of calls p o = node_of h c p o) /\
        (NObj p o <> NObj pe oe -> rep_node_of calls p o = NObj pe oe).
Proof.
  intros L WF TI H. destruct (compile_mapping _ _ _ _ _ _ _ L H) as (calls & c0 & r & u & g & g1 & rt & MP & SP & R & B & F & SS & M & MC & EC). cbv zeta in *.
  exists calls. split; [exact MP|]. subst calls.
  assert (MA : merge_auto_any irnode_eqb (node_attr h shp dflt (c_log c0)) g g1) by (exists rt; split; [exact SS|exact M]).
  destruct (@rep1_exists h shp dflt um m c0 WF r u g g1 R B F MA) as (rep1 & H1).
  destruct (@rep2_exists h shp dflt um m c0 WF TI r u g g1 R B F MC rep1 H1) as (rep2 & H2).
  rewrite <- (sp_graph SP). split; [|split].
  - intros p o Ho V. rewrite <- (node_of_same h p o SP), (@node_of_rep h shp dflt um m c0 WF TI r u g g1 R B F MC rep1 H1 rep2 H2 p o Ho V).
    destruct (@rep_var h shp dflt um m c0 WF TI r u g g1 R B F MC rep1 H1 rep2 H2 p o Ho V) as (p' & o' & -> & Ho' & _ & Fx).
    edestruct (@Q12 h shp dflt um m c0) as [QN _]; try eassumption. apply QN. split; [|exact Fx]. eapply flat_node; eassumption.
  - intros p o Ho V ND. rewrite <- (node_of_same h p o SP). edestruct (@rep_node_fixed h shp dflt um m c0 WF TI r u g g1 R B F rt SS M MC rep1 H1 rep2 H2 p o Ho V ND) as [-> ->]. reflexivity.
  - intros pn E. destruct (@rep_node_declared h shp dflt um m c0 WF TI r u g g1 R B F rt SS M MC rep1 H1 rep2 H2 pn E) as (pe & oe & Hoe & Hce & G & N & K).
    exists pe, oe. split; [exact Hoe|]. split; [exact Hce|]. split; [exact G|]. split; [intros Hn p o Ho Hc; rewrite <- (node_of_same h p o SP); exact (N Hn p o Ho Hc)|]. intros p o Ho Hc O. rewrite <- (node_of_same h p o SP). exact (K p o Ho Hc O).
Qed.
