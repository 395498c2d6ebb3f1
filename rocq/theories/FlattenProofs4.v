(** From a hierarchy of models to the merged flat graph. *)
From Verif Require Import PyBase NamesModel NamesProofs PromotionsModel PromotionsSpec PromotionsProofs PromotionsProofs2 HierSpec HierProofs Digraph
  FlatModel FlatSpec FlatProofs ExprModel UnflatModel UnflatSpec UnflatProofs UnflatProofs2 FlattenModel FlattenSpec FlattenProofs FlattenProofs2 FlattenProofs3.
Set Implicit Arguments.

Theorem flat_union h p2u u2p um u g log : inputs_exist h um -> built h um u -> flatten h p2u u2p u = Ok (g, log) ->
  wf g /\
  (forall x, node g x <-> ~ model_node x /\ exists p gp, graph_at u p gp /\ node gp x) /\
  (forall a b, edge g a b <-> ~ model_node a /\ ~ model_node b /\ exists p gp, graph_at u p gp /\ edge gp a b).
Proof.
  intros I C F. destruct (@flatten_spec _ _ _ _ _ _ (built_ug_ok I C) F) as (A & B & D & _). auto.
Qed.

Section E2E.
  Context (h : list obj) (shp : nat -> shape) (dflt : nat -> bool) (um : umodel) (m : model) (r : rp) (u : ugraph).
  Hypothesis (HI : hierarchy h shp um m) (W : well_named m) (R : resolve m None = Ok r).
  Hypothesis (IE : inputs_exist h um) (B : built h um u).
  Local Notation p2u := (rp_p2u r).
  Local Notation u2p := (create_reverse_map (rp_p2u r)).

  Lemma at_model p gp : graph_at u p gp -> exists ins outs decls subs m' u', um_at um p (UM ins outs decls subs) /\
    sub_at m p m' /\ hierarchy h shp (UM ins outs decls subs) m' /\ construct_all h p (UM ins outs decls subs) = Ok u' /\ ug_graph u' = gp /\
    (forall i, In i ins -> i < length h) /\ ns_path EmptyString p = ns_of p.
  Proof.
    intros G. destruct (@built_at _ _ _ _ _ B G) as (um' & u' & A & C & E). destruct um' as [ins outs decls subs].
    destruct (hier_at HI A) as (m' & A' & H'). exists ins, outs, decls, subs, m', u'. split; [exact A|]. split; [exact A'|]. split; [exact H'|].
    split; [exact C|]. split; [exact E|]. split; [intros i Hi; eapply IE; eassumption|].
    change EmptyString with (ns_of []). rewrite ns_path_of; [reflexivity|]. apply names_nonempty. eapply sub_at_names; eassumption.
  Qed.

  Section Flat.
    Hypothesis (UO : uses_own h um) (CN : chosen_names_only h m).

    (** What is known of a variable node. *)
    Definition own_at (p : list string) (o : nat) (k : vkind) (x : string) (s : shape) : Prop :=
      has_var m p k x s /\ named h o x /\
      match k with KInput => input_object h o | KOutput => output_object h o | KDeclared => declared_object h o end.
    Lemma node_kind p gp o : graph_at u p gp -> node gp (NObj p o) -> variable h o ->
      (auto_named h o /\ ~ declared_object h o) \/ exists k x s, own_at p o k x s.
    Proof.
      intros G Hx V. destruct (at_model G) as (ins & outs & decls & subs & m' & u' & A & A' & H' & C & <- & I & _).
      destruct (@model_graph_nodes _ _ _ _ _ _ _ I C) as (N1 & _). destruct (@UO _ _ _ _ _ _ A (N1 o Hx) V) as [K|K]; [left; exact K|right].
      destruct (own_var _ H' K) as (k & x & s & Hv & Nm & D). exists k, x, s. split; [exists m'; auto|]. split; [exact Nm|].
      destruct D as [(_ & -> & D)|[(_ & -> & D)|(_ & -> & D)]]; exact D.
    Qed.

    Lemma flat_ok : exists st, flatten h p2u u2p u = Ok st.
    Proof.
      apply flatten_ok. intros q gq x _ G Hx V p o ->. pose proof (@graph_at_path _ _ _ _ _ (built_ug_ok IE B) G Hx) as Ep. cbn in Ep. subst p.
      destruct V as (p' & o' & E & V). injection E as <- <-. pose proof V as (ob & E & _). exists ob. split; [exact E|].
      destruct (at_model G) as (_ & _ & _ & _ & _ & _ & _ & _ & _ & _ & _ & _ & ->).
      destruct (node_kind G Hx V) as [[K _]|(k & y & s & Hv & (ob' & E' & Nm) & _)]; [right; exact K|left].
      rewrite E in E'. injection E' as <-. rewrite Nm.
      destruct Hv as (m' & A & Hv). destruct (promoted_ns_total _ _ _ y A) as [q' Hq'].
      eapply (@nspart_promoted _ _ W R _ _ _ _ _ (ex_intro _ m' (conj A Hv)) Hq').
    Qed.

    Context (g : digraph irnode) (log : nslog).
    Hypothesis F : flatten h p2u u2p u = Ok (g, log).

    Lemma flat_at x : node g x -> exists p o gp, x = NObj p o /\ graph_at u p gp /\ node gp x.
    Proof.
      intros Hx. destruct (@flatten_spec _ _ _ _ _ _ (built_ug_ok IE B) F) as (_ & HN & _). apply HN in Hx. destruct Hx as (Nm & p & gp & G & Hx).
      pose proof (@graph_at_path _ _ _ _ _ (built_ug_ok IE B) G Hx) as Ep. cbn in Ep.
      destruct x as [q s|q o]; [exfalso; apply Nm; exists q, s; reflexivity|]. cbn in Ep. subst. exists p, o, gp. auto.
    Qed.

    Lemma own_spaces p o k x s q : node g (NObj p o) -> own_at p o k x s -> promoted_ns m p x q -> spaces log (NObj p o) = (ns_of q, ns_of p).
    Proof.
      intros Hx (Hv & (ob & E & Nm) & K) Hq. destruct (flat_at _ Hx) as (p' & o' & gp & Ex & G & Hg). injection Ex as <- <-.
      destruct (@flatten_spec _ _ _ _ _ _ (built_ug_ok IE B) F) as (_ & _ & _ & HS & _).
      assert (O : is_op ob = false).
      { unfold is_op. destruct k; cbn in K; destruct K as (ob' & E' & K); rewrite E in E'; injection E' as <-; [|destruct K as [K|K]|]; rewrite K; reflexivity. }
      rewrite (HS p o ob gp G Hg E O). destruct (at_model G) as (_ & _ & _ & _ & _ & _ & _ & _ & _ & _ & _ & _ & ->).
      rewrite Nm. f_equal. eapply (@nspart_promoted _ _ W R _ _ _ _ _ Hv Hq).
    Qed.
    Lemma auto_spaces p o : node g (NObj p o) -> variable h o -> auto_named h o -> spaces log (NObj p o) = (EmptyString, ns_of p).
    Proof.
      intros Hx (ob & E & O) (ob' & E' & Nm). rewrite E in E'. injection E' as <-. destruct (flat_at _ Hx) as (p' & o' & gp & Ex & G & Hg). injection Ex as <- <-.
      destruct (@flatten_spec _ _ _ _ _ _ (built_ug_ok IE B) F) as (_ & _ & _ & HS & _). rewrite (HS p o ob gp G Hg E O), Nm.
      destruct (at_model G) as (ins & outs & decls & subs & m' & u' & A & A' & _ & _ & _ & _ & ->). f_equal.
      eapply nspart_auto; [eassumption..|eauto].
    Qed.
    Lemma attr_var p o ob : nth_error h o = Some ob -> is_op ob = false ->
      exists v, node_attr h shp dflt log (NObj p o) = NVar v /\ va_name v = ob_name ob /\
        va_auto v = String.eqb (ob_name ob) (hex_id (ob_num ob)) /\ va_shape v = shp o /\ va_default v = dflt o /\
        va_ns v = fst (spaces log (NObj p o)) /\ va_uns v = snd (spaces log (NObj p o)) /\
        va_class v = match ob_kind ob with KIn => CInput | KDecl => CDeclared | _ => COutput end.
    Proof.
      intros E O. unfold node_attr. rewrite E. unfold is_op in O. destruct (ob_kind ob); try discriminate; eexists; (split; [reflexivity|]); cbn; auto 10.
    Qed.

    (** C55 *)
    Theorem own_attr p o k x s q : node g (NObj p o) -> own_at p o k x s -> promoted_ns m p x q ->
      exists v, node_attr h shp dflt log (NObj p o) = NVar v /\ va_name v = x /\ va_pname v = dotted q x /\ va_uns v = ns_of p /\
        va_class v = match k with KInput => CInput | KOutput => COutput | KDeclared => CDeclared end.
    Proof.
      intros Hx Ho Hq. pose proof (own_spaces Hx Ho Hq) as S. destruct Ho as (Hv & (ob & E & Nm) & K).
      assert (O : is_op ob = false /\ match ob_kind ob with KIn => CInput | KDecl => CDeclared | _ => COutput end =
          match k with KInput => CInput | KOutput => COutput | KDeclared => CDeclared end).
      { unfold is_op. destruct k; cbn in K; destruct K as (ob' & E' & K); rewrite E in E'; injection E' as <-; [|destruct K as [K|K]|]; rewrite K; auto. }
      destruct O as [O K']. destruct (@attr_var p o ob E O) as (v & A & An & _ & _ & _ & Ans & Auns & Ac). exists v. split; [exact A|].
      rewrite S in Ans, Auns. cbn in Ans, Auns. split; [congruence|]. split; [|split; [exact Auns|congruence]].
      unfold va_pname. rewrite Ans, An, Nm. apply prepend_ns_of. apply names_nonempty. eapply promoted_ns_names; eassumption.
    Qed.
    Theorem auto_attr p o : node g (NObj p o) -> variable h o -> auto_named h o ->
      exists v ob, nth_error h o = Some ob /\ node_attr h shp dflt log (NObj p o) = NVar v /\ va_pname v = hex_id (ob_num ob) /\ va_uns v = ns_of p /\ va_auto v = true.
    Proof.
      intros Hx V A. pose proof (@auto_spaces p o Hx V A) as S. destruct V as (ob & E & O). destruct A as (ob' & E' & Nm). rewrite E in E'. injection E' as <-.
      destruct (@attr_var p o ob E O) as (v & Av & An & Aa & _ & _ & Ans & Auns & _). exists v, ob. split; [exact E|]. split; [exact Av|].
      rewrite S in Ans, Auns. cbn in Ans, Auns. split; [|split; [exact Auns|rewrite Aa, Nm; apply String.eqb_refl]]. unfold va_pname. rewrite Ans, An, Nm. reflexivity.
    Qed.

    Section Merge.
      Hypothesis (AL : alternates h) (ON : op_names_apart h).
      Local Notation attr := (node_attr h shp dflt log).

      Lemma attr_NVar x v : attr x = NVar v -> exists p o ob, x = NObj p o /\ nth_error h o = Some ob /\ is_op ob = false.
      Proof.
        unfold node_attr. destruct x as [p s|p o]; [discriminate|]. destruct (nth_error h o) as [ob|] eqn:E; [|discriminate].
        intros H. exists p, o, ob. split; [reflexivity|]. split; [exact E|]. unfold is_op. destruct (ob_kind ob); try discriminate; reflexivity.
      Qed.
      Lemma flat_no_var_var : no_var_var_edge attr g.
      Proof.
        intros a b va vb He Ha Hb. apply attr_NVar in Ha. apply attr_NVar in Hb. destruct Ha as (p & oa & ba & -> & Ea & Oa), Hb as (p' & ob & bb & -> & Eb & Ob).
        destruct (@flatten_spec _ _ _ _ _ _ (built_ug_ok IE B) F) as (_ & _ & HE & _). apply HE in He. destruct He as (_ & _ & q & gq & G & He).
        destruct (at_model G) as (ins & outs & decls & subs & m' & u' & A & A' & H' & C & Eg & I & _). subst gq.
        destruct (@model_graph_nodes _ _ _ _ _ _ _ I C) as (_ & _ & N3 & _).
        assert (Wq : wf (ug_graph u')) by (eapply graph_at_wf; [apply (built_ug_ok IE B)|exact G]).
        destruct (@wf_ends _ _ Wq _ _ He) as [Xa Xb].
        pose proof (@graph_at_path _ _ _ _ _ (built_ug_ok IE B) G Xa) as P1. pose proof (@graph_at_path _ _ _ _ _ (built_ug_ok IE B) G Xb) as P2. cbn in P1, P2. subst p p'.
        destruct (N3 oa ob He) as (x & y & Hf & Nx & Ny).
        assert (NA : named h oa (ob_name ba)) by (exists ba; auto). assert (NB : named h ob (ob_name bb)) by (exists bb; auto).
        destruct (AL Hf) as [[_ Y]|[X _]].
        - eapply ON; [exact Y|exists bb; split; [exact Eb|exact Ob]|apply Ny, NB|exact NB].
        - eapply ON; [exact X|exists ba; split; [exact Ea|exact Oa]|apply Nx, NA|exact NA].
      Qed.

      (** A variable node with the promoted name of a variable of the hierarchy. *)
      Lemma pname_own x v p k n s q : node g x -> attr x = NVar v -> has_var m p k n s -> promoted_ns m p n q -> va_pname v = dotted q n ->
        exists p' o' k' s', x = NObj p' o' /\ own_at p' o' k' n s' /\ promoted_ns m p' n q /\
          va_class v = match k' with KInput => CInput | KOutput => COutput | KDeclared => CDeclared end.
      Proof.
        intros Hx Av Hv Hq Pn. destruct (@attr_NVar x v Av) as (p' & o' & ob & -> & E & O).
        assert (V : variable h o') by (exists ob; auto). destruct (flat_at _ Hx) as (p2 & o2 & gp & Ex & G & Hg). injection Ex as <- <-.
        pose proof (promoted_ns_names _ _ _ _ _ _ W Hv Hq) as Nq. pose proof (has_var_no_dot _ _ _ _ _ W Hv) as Dn.
        destruct (node_kind G Hg V) as [[K _]|(k' & n' & s' & Ho)].
        - exfalso. destruct (@auto_attr p' o' Hx V K) as (v' & ob' & E' & Av' & Pn' & _ & _). rewrite Av in Av'. injection Av' as <-. rewrite Pn in Pn'.
          assert (Hd : dotted q n = dotted [] (hex_id (ob_num ob'))) by exact Pn'.
          apply dotted_inj in Hd; [|exact Nq|constructor|exact Dn|apply hex_no_dot]. destruct Hd as [_ Hd]. symmetry in Hd. exact (@CN _ _ _ _ Hv _ _ E' Hd).
        - pose proof Ho as ((m' & A' & _) & _ & _). destruct (promoted_ns_total _ _ _ n' A') as [q' Hq'].
          destruct (@own_attr _ _ _ _ _ _ Hx Ho Hq') as (v' & Av' & _ & Pn' & _ & Kn). rewrite Av in Av'. injection Av' as <-. rewrite Pn in Pn'.
          pose proof Ho as (Hv' & _ & _).
          apply dotted_inj in Pn'; [|exact Nq|eapply promoted_ns_names; eassumption|exact Dn|eapply has_var_no_dot; eassumption].
          destruct Pn' as [-> ->]. exists p', o', k', s'. auto.
      Qed.

      Lemma flat_sources_distinct : sources_distinct attr g.
      Proof.
        intros t a b vt va vb Ht Ha Hb [At Ct] [Aa Ca] [Ab Cb] Ea Eb.
        destruct (@attr_NVar t vt At) as (p & o & ob & -> & E & O). assert (V : variable h o) by (exists ob; auto).
        destruct (flat_at _ Ht) as (p2 & o2 & gp & Ex & G & Hg). injection Ex as <- <-.
        assert (D : declared_object h o).
        { exists ob. split; [exact E|]. destruct (@attr_var p o ob E O) as (v' & Av' & _ & _ & _ & _ & _ & _ & Ac). rewrite At in Av'. injection Av' as <-.
          rewrite Ct in Ac. destruct (ob_kind ob); try discriminate; reflexivity. }
        destruct (node_kind G Hg V) as [[_ K]|(k & n & s & Ho)]; [contradiction|].
        pose proof Ho as ((m' & A' & Hm') & _ & _). destruct (promoted_ns_total _ _ _ n A') as [q Hq].
        destruct (@own_attr _ _ _ _ _ _ Ht Ho Hq) as (v' & Av' & _ & Pn & _). rewrite At in Av'. injection Av' as <-.
        pose proof Ho as (Hv & _ & _). rewrite Pn in Ea, Eb.
        destruct (@pname_own _ _ _ _ _ _ _ Ha Aa Hv Hq Ea) as (pa & oa & ka & sa & -> & Oa & Qa & Ka).
        destruct (@pname_own _ _ _ _ _ _ _ Hb Ab Hv Hq Eb) as (pb & o_b & kb & sb & -> & Ob & Qb & Kb).
        pose proof Oa as (Va & Na & _). pose proof Ob as (Vb & Nb & _).
        assert (P : pa = pb).
        { eapply sources_unique; [exact W|exact R| | |exact Qa|exact Qb].
          - exists ka. split; [|exact Va]. intros ->. destruct Ca; congruence.
          - exists kb. split; [|exact Vb]. intros ->. destruct Cb; congruence. }
        subst pb. f_equal.
        destruct (flat_at _ Ha) as (p3 & o3 & ga & Ex & Ga & Hga). injection Ex as <- <-.
        destruct (flat_at _ Hb) as (p4 & o4 & gb & Ex & Gb & Hgb). injection Ex as <- <-.
        destruct (at_model Ga) as (ins & outs & decls & subs & ma & ua & A & _ & _ & C & Eg & I & _).
        destruct (at_model Gb) as (ins' & outs' & decls' & subs' & mb & ub & A2 & _ & _ & C2 & Eg2 & _).
        pose proof (um_at_fun W HI A A2) as EU. injection EU as <- <- <- <-. rewrite C in C2. injection C2 as <-. rewrite Eg in Eg2. subst gb ga.
        destruct (@model_graph_nodes _ _ _ _ _ _ _ I C) as (_ & N2 & _). eapply N2; eassumption.
      Qed.

      (** C56 *)
      Theorem declared_meets_source : exists g' rep,
        merge_auto irnode_eqb attr g = Ok g' /\ wf g' /\ quotient g g' rep /\ no_var_var_edge attr g' /\
        (forall p o k x s, node g (NObj p o) -> own_at p o k x s -> k <> KDeclared -> rep (NObj p o) = NObj p o) /\
        (forall p o, node g (NObj p o) -> ~ declared_object h o -> rep (NObj p o) = NObj p o) /\
        (forall p o x s q, node g (NObj p o) -> own_at p o KDeclared x s -> promoted_ns m p x q ->
           (forall p' o' k' s', node g (NObj p' o') -> own_at p' o' k' x s' -> k' <> KDeclared -> promoted_ns m p' x q ->
              rep (NObj p o) = NObj p' o') /\
           (forall p' o' s', node g (NObj p' o') -> own_at p' o' KDeclared x s' -> promoted_ns m p' x q ->
              rep (NObj p o) = rep (NObj p' o'))).
      Proof.
        assert (Wg : wf g) by (apply (@flatten_spec _ _ _ _ _ _ (built_ug_ok IE B) F)).
        destruct (@auto_one_node _ irnode_eqb attr g irnode_eqb_spec Wg flat_no_var_var flat_sources_distinct) as (g' & rep & M & W' & Q & NT & T).
        assert (ND : forall p o, node g (NObj p o) -> ~ declared_object h o -> rep (NObj p o) = NObj p o).
        { intros p o Hx N. apply NT. intros v [Av Cv]. apply N.
          destruct (@attr_NVar _ _ Av) as (p' & o' & ob & Ex & E & O). injection Ex as <- <-. exists ob. split; [exact E|].
          destruct (@attr_var p o ob E O) as (v' & Av' & _ & _ & _ & _ & _ & _ & Ac). rewrite Av in Av'. injection Av' as <-.
          rewrite Cv in Ac. destruct (ob_kind ob); try discriminate; reflexivity. }
        exists g', rep. split; [exact M|]. split; [exact W'|]. split; [exact Q|]. split; [|split; [|split; [exact ND|]]].
        - assert (VV : forall y v, var_node attr (rep y) v -> exists v', var_node attr y v').
          { intros y v Hy. destruct (is_tgt attr y) eqn:Et; [apply is_tgt_spec in Et; destruct Et as [v' [Av _]]; exists v'; exact Av|].
            rewrite NT in Hy; [eauto|]. intros v' Tv. assert (K : is_tgt attr y = true) by (apply is_tgt_spec; eauto). congruence. }
          intros a b va vb He Ha Hb. apply (proj2 Q) in He. destruct He as (a' & b' & He & <- & <-).
          destruct (VV _ _ Ha) as [va' Ha'], (VV _ _ Hb) as [vb' Hb']. exact (@flat_no_var_var _ _ _ _ He Ha' Hb').
        - intros p o k x s Hx (Hv & Nm & K) NK. apply ND; [exact Hx|]. intros (ob & E & D).
          destruct k; [destruct K as (ob' & E' & K)|destruct K as (ob' & E' & [K|K])|congruence]; congruence.
        - intros p o x s q Hx Ho Hq. destruct (@own_attr _ _ _ _ _ _ Hx Ho Hq) as (v & Av & _ & Pn & _ & Cv).
          assert (Tx : target_node attr (NObj p o) v) by (split; [exact Av|exact Cv]). destruct (T _ _ Hx Tx) as [T1 T2].
          assert (S1 : forall p' o' k' s', node g (NObj p' o') -> own_at p' o' k' x s' -> k' <> KDeclared -> promoted_ns m p' x q ->
              rep (NObj p o) = NObj p' o').
          { intros p' o' k' s' Hx' Ho' NK Hq'. destruct (@own_attr _ _ _ _ _ _ Hx' Ho' Hq') as (v' & Av' & _ & Pn' & _ & Cv').
            apply (T1 _ v' Hx'); [|congruence]. split; [exact Av'|]. destruct k'; [auto|auto|congruence]. }
          split; [exact S1|]. intros p' o' s' Hx' Ho' Hq'.
          destruct (@own_attr _ _ _ _ _ _ Hx' Ho' Hq') as (v' & Av' & _ & Pn' & _ & Cv').
          assert (Tx' : target_node attr (NObj p' o') v') by (split; [exact Av'|exact Cv']). destruct (T _ _ Hx' Tx') as [T1' T2'].
          destruct (find (fun y => match attr y with NVar w => String.eqb (va_pname w) (dotted q x) && match va_class w with CInput | COutput => true | _ => false end | _ => false end) (g_nodes g))
            as [y|] eqn:Fd.
          + apply find_some in Fd. destruct Fd as [Hy Fy]. destruct (attr y) as [w|] eqn:Ay; [|discriminate]. apply andb_true_iff in Fy. destruct Fy as [Fy Fc].
            apply String.eqb_eq in Fy. assert (Sy : source_node attr y w) by (split; [exact Ay|destruct (va_class w); auto; discriminate]).
            rewrite (T1 y w Hy Sy) by congruence. rewrite (T1' y w Hy Sy) by congruence. reflexivity.
          + assert (NS : forall n, n = dotted q x -> forall s0 sv, node g s0 -> source_node attr s0 sv -> va_pname sv <> n).
            { intros n -> s0 sv Hs [As Cs] Pe. pose proof (find_none _ _ Fd s0 Hs) as Fn. cbn in Fn. rewrite As, Pe, String.eqb_refl in Fn.
              destruct Cs as [C|C]; rewrite C in Fn; discriminate. }
            destruct (T2 (NS _ Pn)) as [_ T3]. symmetry. apply T3. destruct (T2' (NS _ Pn')) as [T4 _]. unfold candidates in *.
            apply filter_In. split; [exact Hx'|]. rewrite Av', Cv', Pn', Pn. apply String.eqb_refl.
      Qed.
    End Merge.
  End Flat.
End E2E.

Lemma member_own h shp um m p k o x : hierarchy h shp um m -> member h um p k o x -> exists s, own_at h m p o k x s.
Proof.
  intros H (N & ins & outs & decls & subs & A & Hi). destruct (hier_at H A) as (m' & A' & H'). inversion H' as [? ? ? ? ? F1 F2 F3 _ _]; subst.
  assert (NN : forall y, named h o y -> y = x) by (intros y Hy; eapply named_fun; eassumption).
  destruct k; [destruct (Forall2_In_l _ _ _ _ F1 Hi) as ([y s] & Hy & K & N' & _)|destruct (Forall2_In_l _ _ _ _ F2 Hi) as ([y s] & Hy & K & N' & _)|
    destruct (Forall2_In_l _ _ _ _ F3 Hi) as ([y s] & Hy & K & N' & _)]; cbn in N'; apply NN in N'; subst y; exists s; (split; [exists m'; auto|split; [exact N|exact K]]).
Qed.

(** The statements with the vocabulary of FlattenSpec. *)
Theorem promoted_names h shp dflt um m r u g log p k o x q :
  hierarchy h shp um m -> well_named m -> resolve m None = Ok r -> inputs_exist h um -> built h um u ->
  flatten h (rp_p2u r) (create_reverse_map (rp_p2u r)) u = Ok (g, log) ->
  member h um p k o x -> node g (NObj p o) -> promoted_ns m p x q ->
  exists v, node_attr h shp dflt log (NObj p o) = NVar v /\ va_name v = x /\ va_pname v = dotted q x /\ va_uns v = ns_of p /\
    va_class v = match k with KInput => CInput | KOutput => COutput | KDeclared => CDeclared end.
Proof.
  intros H W R I C F M Hx Hq. destruct (member_own H M) as [s Ho]. eapply own_attr; eassumption.
Qed.
Theorem generated_names h shp dflt um m r u g log p o :
  hierarchy h shp um m -> well_named m -> resolve m None = Ok r -> inputs_exist h um -> built h um u ->
  chosen_names_only h m -> flatten h (rp_p2u r) (create_reverse_map (rp_p2u r)) u = Ok (g, log) ->
  node g (NObj p o) -> variable h o -> auto_named h o ->
  exists v, node_attr h shp dflt log (NObj p o) = NVar v /\ named h o (va_pname v) /\ va_uns v = ns_of p.
Proof.
  intros H W R I C N F Hx V A. destruct (@auto_attr h shp dflt um m r u H W R I C N g log F p o Hx V A) as (v & ob & E & Av & Pn & U & _).
  exists v. split; [exact Av|]. split; [|exact U]. destruct A as (ob' & E' & A). rewrite E in E'. injection E' as <-. exists ob. split; [exact E|congruence].
Qed.
Theorem end_to_end h shp dflt um m r u :
  hierarchy h shp um m -> well_named m -> resolve m None = Ok r -> inputs_exist h um -> built h um u ->
  uses_own h um -> chosen_names_only h m -> alternates h -> op_names_apart h ->
  exists g log g' rep, flatten h (rp_p2u r) (create_reverse_map (rp_p2u r)) u = Ok (g, log) /\
    merge_auto irnode_eqb (node_attr h shp dflt log) g = Ok g' /\ wf g' /\ quotient g g' rep /\
    no_var_var_edge (node_attr h shp dflt log) g' /\
    (forall p o, node g (NObj p o) -> ~ declared_object h o -> rep (NObj p o) = NObj p o) /\
    (forall p o x q, node g (NObj p o) -> member h um p KDeclared o x -> promoted_ns m p x q ->
       (forall p' o' k', node g (NObj p' o') -> member h um p' k' o' x -> k' <> KDeclared -> promoted_ns m p' x q ->
          rep (NObj p o) = NObj p' o') /\
       (forall p' o', node g (NObj p' o') -> member h um p' KDeclared o' x -> promoted_ns m p' x q ->
          rep (NObj p o) = rep (NObj p' o'))).
Proof.
  intros H W R I C U N A O. destruct (@flat_ok h shp um m r u H W R I C U) as [[g log] F].
  destruct (@declared_meets_source h shp dflt um m r u H W R I C U N g log F A O) as (g' & rep & M & W' & Q & V & _ & ND & D).
  exists g, log, g', rep. split; [exact F|]. split; [exact M|]. split; [exact W'|]. split; [exact Q|]. split; [exact V|]. split; [exact ND|].
  intros p o x q Hx Mm Hq. destruct (member_own H Mm) as [s Ho]. destruct (D p o x s q Hx Ho Hq) as [D1 D2]. split.
  - intros p' o' k' Hx' M' K' Hq'. destruct (member_own H M') as [s' Ho']. eapply D1; eassumption.
  - intros p' o' Hx' M' Hq'. destruct (member_own H M') as [s' Ho']. eapply D2; eassumption.
Qed.
Theorem same_name_iff h shp dflt um m r u g log p k o x q p' k' o' x' q' v v' :
  hierarchy h shp um m -> well_named m -> resolve m None = Ok r -> inputs_exist h um -> built h um u ->
  flatten h (rp_p2u r) (create_reverse_map (rp_p2u r)) u = Ok (g, log) ->
  member h um p k o x -> node g (NObj p o) -> promoted_ns m p x q ->
  member h um p' k' o' x' -> node g (NObj p' o') -> promoted_ns m p' x' q' ->
  node_attr h shp dflt log (NObj p o) = NVar v -> node_attr h shp dflt log (NObj p' o') = NVar v' ->
  (va_pname v = va_pname v' <-> q = q' /\ x = x').
Proof.
  intros H W R I C F M Hx Hq M' Hx' Hq' Av Av'.
  destruct (promoted_names dflt H W R I C F M Hx Hq) as (w & Aw & _ & Pn & _).
  destruct (promoted_names dflt H W R I C F M' Hx' Hq') as (w' & Aw' & _ & Pn' & _).
  rewrite Av in Aw. injection Aw as <-. rewrite Av' in Aw'. injection Aw' as <-. rewrite Pn, Pn'.
  destruct (member_own H M) as (s & Ho & _), (member_own H M') as (s' & Ho' & _). split; [|intros [-> ->]; reflexivity].
  intros E. apply (dotted_inj q x q' x' (promoted_ns_names _ _ _ _ _ _ W Ho Hq) (promoted_ns_names _ _ _ _ _ _ W Ho' Hq') (has_var_no_dot _ _ _ _ _ W Ho) (has_var_no_dot _ _ _ _ _ W Ho') E).
Qed.
