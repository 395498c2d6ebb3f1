(** Flattening: the flat graph is the union of the graphs of all models. *)
From Verif Require Import PyBase NamesModel PromotionsModel PromotionsSpec HierSpec Digraph ExprModel UnflatModel UnflatSpec UnflatProofs UnflatProofs2
  FlatModel FlattenModel FlattenSpec.
Set Implicit Arguments.

Section UgraphInd.
  Variable P : ugraph -> Prop.
  Hypothesis H : forall g subs, Forall (fun s => P (snd s)) subs -> P (UG g subs).
  Fixpoint ugraph_ind' (m : ugraph) : P m :=
    match m with
    | UG g subs =>
      H g ((fix go l : Forall (fun s => P (snd s)) l :=
        match l with
        | [] => Forall_nil _
        | s :: r => Forall_cons s (ugraph_ind' (snd s)) (go r)
        end) subs)
    end.
End UgraphInd.

Definition path_of (x : irnode) : list string := match x with NModel p _ | NObj p _ => p end.

(** Graphs whose nodes belong to the right models. *)
Inductive ug_ok : list string -> ugraph -> Prop :=
| UgOk p g subs : wf g ->
    (forall x, node g x -> (exists o, x = NObj p o) \/ (exists s, x = NModel p s /\ In s (map fst subs))) ->
    NoDup (map fst subs) -> (forall s su, In (s, su) subs -> ug_ok (p ++ [s]) su) -> ug_ok p (UG g subs).

Definition nspart_of (p2u : dict (list string)) (u2p : dict string) (uns n : string) : string :=
  let un := prepend_namespace uns n in
  if dmem un p2u then uns else match dget u2p un with Some pn => namespace_part pn | None => EmptyString end.
(** The name is known to the promotion maps. *)
Definition known (p2u : dict (list string)) (u2p : dict string) (un : string) : Prop :=
  dmem un p2u = true \/ exists pn, dget u2p un = Some pn.
Definition ns_path (ns : string) (q : list string) : string := fold_left prepend_namespace q ns.

Lemma spaces_app log extra x : ~ In x (map fst extra) -> spaces (log ++ extra) x = spaces log x.
Proof.
  unfold spaces. rewrite fold_left_app. generalize (fold_left (fun cur e => if irnode_eqb x (fst e) then snd e else cur) log (EmptyString, EmptyString)).
  induction extra as [|[a b] l IH]; intros c H; [reflexivity|]. cbn in *. destruct (irnode_eqb x a) eqn:E.
  - apply irnode_eqb_spec in E. subst. tauto.
  - apply IH. tauto.
Qed.
Lemma spaces_in log extra x v : NoDup (map fst extra) -> In (x, v) extra -> spaces (log ++ extra) x = v.
Proof.
  intros ND Hi. apply in_split in Hi. destruct Hi as (l1 & l2 & ->). rewrite map_app in ND. cbn in ND.
  apply NoDup_remove in ND. destruct ND as [_ ND].
  replace (log ++ l1 ++ (x, v) :: l2) with ((log ++ l1 ++ [(x, v)]) ++ l2) by (rewrite <- !app_assoc; reflexivity).
  rewrite spaces_app; [|intros Hi; apply ND, in_app_iff; auto].
  unfold spaces. rewrite app_assoc, fold_left_app. cbn.
  assert (E : irnode_eqb x x = true) by (apply irnode_eqb_spec; reflexivity). rewrite E. reflexivity.
Qed.
Lemma spaces_nil x : spaces [] x = (EmptyString, EmptyString). Proof. reflexivity. Qed.
Lemma spaces_fresh log x : ~ In x (map fst log) -> spaces log x = (EmptyString, EmptyString).
Proof. intros H. change log with ([] ++ log). rewrite spaces_app by exact H. reflexivity. Qed.

Section F.
  Context (h : list obj) (p2u : dict (list string)) (u2p : dict string).

  Fixpoint merge_list (p : list string) (ns : string) (l : list (string * ugraph)) (st : digraph irnode * nslog)
    : res (digraph irnode * nslog) :=
    match l with
    | [] => Ok st
    | (s, su) :: r =>
      let g1 := add_nodes irnode_eqb (add_edges irnode_eqb (fst st) (g_edges (ug_graph su))) (g_nodes (ug_graph su)) in
      let ns1 := prepend_namespace ns s in
      do log1 <- assign_all h p2u u2p g1 ns1 (snd st) (filter (is_var_node h) (g_nodes (ug_graph su)));
      do st2 <- merge_graphs h p2u u2p (p ++ [s]) ns1 su (g1, log1);
      merge_list p ns r st2
    end.
  Lemma merge_graphs_eq p ns g subs st : merge_graphs h p2u u2p p ns (UG g subs) st =
    merge_list p ns subs (remove_nodes irnode_eqb (fst st) (map (fun sg => NModel p (fst sg)) subs), snd st).
  Proof.
    cbn [merge_graphs]. set (st0 := (_, snd st)). clearbody st0. revert st0. induction subs as [|[s su] r IH]; intros st0; [reflexivity|].
    cbn [merge_list]. destruct (assign_all h p2u u2p _ _ _ _); [|reflexivity]. cbn [bind].
    destruct (merge_graphs h p2u u2p (p ++ [s]) (prepend_namespace ns s) su _); [|reflexivity]. cbn [bind]. apply IH.
  Qed.

  (** What [assign_all] does to nodes without an entry. *)
  Lemma is_var_node_spec x : is_var_node h x = true <-> is_varnode h x.
  Proof.
    unfold is_var_node, is_varnode, variable. destruct x as [p s|p o]; split.
    - discriminate.
    - intros (p' & o & E & _). discriminate.
    - destruct (nth_error h o) as [ob|] eqn:E; [|discriminate]. unfold is_variable. rewrite negb_true_iff. intros H. exists p, o. eauto.
    - intros (p' & o' & E & ob & E' & H). injection E as <- <-. rewrite E'. unfold is_variable. rewrite H. reflexivity.
  Qed.
  (** The condition of the last branch. *)
  Definition passes (g : digraph irnode) (uns : string) (x : irnode) : Prop :=
    forall p o ob, x = NObj p o -> nth_error h o = Some ob ->
      known p2u u2p (prepend_namespace uns (ob_name ob)) \/ auto_named h o \/
      exists q o', edge g (NObj q o') x /\ custom_operation h o'.

  Lemma child_assign_spec g uns log x log' : is_var_node h x = true -> ~ In x (map fst log) ->
    child_assign h p2u u2p g uns log x = Ok log' ->
    passes g uns x /\ exists p o ob, x = NObj p o /\ nth_error h o = Some ob /\
      log' = log ++ [(x, (nspart_of p2u u2p uns (ob_name ob), uns))].
  Proof.
    intros V NI H. destruct x as [p s|p o]; [discriminate|]. cbn in V, H. destruct (nth_error h o) as [ob|] eqn:E; [|discriminate].
    unfold passes, nspart_of, known, auto_named, custom_operation.
    assert (SP : fst (spaces log (NObj p o)) = EmptyString) by (rewrite spaces_fresh by exact NI; reflexivity).
    destruct (dmem (prepend_namespace uns (ob_name ob)) p2u) eqn:D.
    - injection H as <-. split.
      + intros p' o' ob' Ex E'. injection Ex as <- <-. rewrite E in E'. injection E' as <-. rewrite D. auto.
      + exists p, o, ob. rewrite D. auto.
    - destruct (dget u2p (prepend_namespace uns (ob_name ob))) as [pn|] eqn:G.
      + injection H as <-. split.
        * intros p' o' ob' Ex E'. injection Ex as <- <-. rewrite E in E'. injection E' as <-. rewrite G. eauto.
        * exists p, o, ob. rewrite D, G. auto.
      + assert (R : log' = log ++ [(NObj p o, (fst (spaces log (NObj p o)), uns))] ->
           exists (p0 : list string) (o0 : nat) (ob0 : obj), NObj p o = NObj p0 o0 /\ nth_error h o0 = Some ob0 /\
           log' = log ++ [(NObj p o, (if dmem (prepend_namespace uns (ob_name ob0)) p2u then uns else
                 match dget u2p (prepend_namespace uns (ob_name ob0)) with Some pn => namespace_part pn | None => EmptyString end, uns))]).
        { intros ->. exists p, o, ob. rewrite D, G, SP. auto. }
        destruct (String.eqb (ob_name ob) (hex_id (ob_num ob))) eqn:A.
        * injection H as <-. split; [|apply R; reflexivity].
          intros p' o' ob' Ex E'. injection Ex as <- <-. right. left. exists ob. split; [exact E|]. apply String.eqb_eq, A.
        * destruct (preds irnode_eqb g (NObj p o)) as [|[q s|q o'] r] eqn:PR; try discriminate.
          destruct (nth_error h o') as [ob'|] eqn:E'; [|discriminate].
          destruct (ob_kind ob') as [| | | |[|]] eqn:K; try discriminate. injection H as <-. split; [|apply R; reflexivity].
          intros p' o2 ob2 Ex E2. injection Ex as <- <-. right. right. exists q, o'. split; [|exists ob'; auto].
          apply (In_preds irnode_eqb irnode_eqb_spec). rewrite PR. left. reflexivity.
  Qed.
  Lemma assign_all_spec g uns : forall l log log', NoDup l -> (forall x, In x l -> is_var_node h x = true /\ ~ In x (map fst log)) ->
    assign_all h p2u u2p g uns log l = Ok log' ->
    (forall x, In x l -> passes g uns x) /\
    exists extra, log' = log ++ extra /\ map fst extra = l /\
      (forall x v, In (x, v) extra -> exists p o ob, x = NObj p o /\ nth_error h o = Some ob /\ v = (nspart_of p2u u2p uns (ob_name ob), uns)).
  Proof.
    induction l as [|x r IH]; intros log log' ND HL H; cbn in H.
    - injection H as <-. split; [intros x []|]. exists []. rewrite app_nil_r. split; [reflexivity|]. split; [reflexivity|]. intros x v [].
    - destruct (child_assign h p2u u2p g uns log x) as [log1|] eqn:C; [|discriminate]. cbn [bind] in H.
      destruct (HL x (or_introl eq_refl)) as [V NI]. destruct (@child_assign_spec g uns log x log1 V NI C) as (PA & p & o & ob & -> & E & ->).
      inversion ND as [|? ? Nx ND']; subst. 
      match type of H with assign_all _ _ _ _ _ ?L _ = _ => assert (HL' : forall y, In y r -> is_var_node h y = true /\ ~ In y (map fst L)) end.
      { intros y Hy. destruct (HL y (or_intror Hy)) as [Vy Ny]. split; [exact Vy|]. rewrite map_app, in_app_iff. cbn. intros [K|[K|[]]]; [contradiction|congruence]. }
      destruct (IH _ _ ND' HL' H) as (P2 & ex & -> & M & S).
      split; [intros y [<-|Hy]; auto|]. exists ((NObj p o, (nspart_of p2u u2p uns (ob_name ob), uns)) :: ex). rewrite <- app_assoc. split; [reflexivity|].
        split; [cbn; rewrite M; reflexivity|]. intros y v [Ey|Hy]; [|apply S, Hy]. injection Ey as <- <-. exists p, o, ob. auto.
  Qed.

  (** Nodes at or below submodel [s] of the model at [p]. *)
  Definition within (p : list string) (s : string) (x : irnode) : Prop := exists t, path_of x = p ++ s :: t.

  (** The effect of a merge: [P q gq] tells which graphs are added. *)
  Record effect (P : list string -> digraph irnode -> Prop) (p : list string) (ns : string) (rem : irnode -> Prop)
      (st st' : digraph irnode * nslog) : Prop := {
    ef_wf : wf (fst st');
    ef_node : forall x, node (fst st') x <-> (node (fst st) x /\ ~ rem x) \/
      (~ model_node x /\ exists q gq, P q gq /\ node gq x);
    ef_edge : forall a b, edge (fst st') a b <-> (edge (fst st) a b /\ ~ rem a /\ ~ rem b) \/
      (~ model_node a /\ ~ model_node b /\ exists q gq, P q gq /\ edge gq a b);
    ef_log : exists extra, snd st' = snd st ++ extra /\ NoDup (map fst extra) /\
      (forall x, In x (map fst extra) <-> is_varnode h x /\ exists q gq, P q gq /\ node gq x) /\
      (forall x v, In (x, v) extra -> exists q gq o ob, P q gq /\ node gq x /\ x = NObj (p ++ q) o /\ nth_error h o = Some ob /\
         v = (nspart_of p2u u2p (ns_path ns q) (ob_name ob), ns_path ns q));
    ef_pass : forall q gq x, P q gq -> node gq x -> is_varnode h x -> passes gq (ns_path ns q) x
  }.

  Definition below (l : list (string * ugraph)) (q : list string) (g : digraph irnode) : Prop :=
    exists s su q', q = s :: q' /\ In (s, su) l /\ graph_at su q' g.

  Lemma graph_at_path u p q gq x : ug_ok p u -> graph_at u q gq -> node gq x -> path_of x = p ++ q.
  Proof.
    intros K G. revert p K. induction G as [g subs|g subs s su q g' Hs G IH]; intros p K Hx; inversion K as [p' g0 subs' W1 HN HD HS]; subst.
    - rewrite app_nil_r. destruct (HN x Hx) as [[o ->]|(s & -> & _)]; reflexivity.
    - rewrite (IH (p ++ [s])); [rewrite <- app_assoc; reflexivity| |exact Hx]. apply HS, Hs.
  Qed.
  Lemma graph_at_wf u p q gq : ug_ok p u -> graph_at u q gq -> wf gq.
  Proof.
    intros K G. revert p K. induction G as [g subs|g subs s su q g' Hs G IH]; intros p K; inversion K as [p' g0 subs' W1 HN HD HS]; subst; [exact W1|].
    eapply IH, HS, Hs.
  Qed.

  Definition pre (p : list string) (l : list (string * ugraph)) (st : digraph irnode * nslog) : Prop :=
    wf (fst st) /\
    forall s x, In s (map fst l) -> within p s x -> ~ node (fst st) x /\ ~ In x (map fst (snd st)).

  Lemma below_within p l q gq x : (forall s su, In (s, su) l -> ug_ok (p ++ [s]) su) -> below l q gq -> node gq x ->
    path_of x = p ++ q /\ exists s, In s (map fst l) /\ within p s x.
  Proof.
    intros K (s & su & q' & -> & Hs & G) Hx. pose proof (@graph_at_path _ _ _ _ _ (K _ _ Hs) G Hx) as E. rewrite <- app_assoc in E.
    split; [exact E|]. exists s. split; [apply (in_map fst) in Hs; exact Hs|]. exists q'. exact E.
  Qed.

  Definition goal (u : ugraph) : Prop := forall p ns st st', ug_ok p u -> pre p (ug_subs u) st ->
    merge_graphs h p2u u2p p ns u st = Ok st' ->
    effect (below (ug_subs u)) p ns (fun x => exists s, In s (map fst (ug_subs u)) /\ x = NModel p s) st st'.

  Lemma merge_list_spec p ns : forall l st st', Forall (fun s => goal (snd s)) l -> NoDup (map fst l) ->
    (forall s su, In (s, su) l -> ug_ok (p ++ [s]) su) -> pre p l st ->
    merge_list p ns l st = Ok st' -> effect (below l) p ns (fun _ => False) st st'.
  Proof.
    induction l as [|[s su] r IH]; intros st st' FG ND K PR H; cbn [merge_list] in H.
    - injection H as <-. split.
      + apply PR.
      + intros x. split; [auto|]. intros [[H _]|(_ & q & gq & (s & su & q' & _ & [] & _) & _)]. exact H.
      + intros a b. split; [auto|]. intros [[H _]|(_ & _ & q & gq & (s & su & q' & _ & [] & _) & _)]. exact H.
      + exists []. rewrite app_nil_r. split; [reflexivity|]. split; [constructor|]. split; [|intros x v []].
        intros x. split; [intros []|]. intros (_ & q & gq & (s & su & q' & _ & [] & _) & _).
      + intros q gq x (s & su & q' & _ & [] & _).
    - destruct PR as [W FR]. pose proof (K s su (or_introl eq_refl)) as Ks.
      set (g1 := add_nodes irnode_eqb _ _) in H.
      destruct (@add_edges_spec _ irnode_eqb irnode_eqb_spec (g_edges (ug_graph su)) (fst st) W) as (We & Ne & Ee).
      destruct (@add_nodes_spec _ irnode_eqb irnode_eqb_spec (g_nodes (ug_graph su)) _ We) as (W1 & N1 & E1). fold g1 in W1, N1, E1.
      assert (Wsu : wf (ug_graph su)) by (inversion Ks; assumption).
      assert (N1' : forall x, node g1 x <-> node (fst st) x \/ node (ug_graph su) x).
      { intros x. rewrite N1, Ne. split; [intros [[Hx|([a b] & He & Hx)]|Hx]; auto|intros [Hx|Hx]; auto].
        right. apply (@wf_ends _ _ Wsu) in He. destruct He. destruct Hx as [->| ->]; assumption. }
      assert (E1' : forall a b, edge g1 a b <-> edge (fst st) a b \/ edge (ug_graph su) a b) by (intros a b; rewrite E1, Ee; reflexivity).
      assert (Psu : forall x, node (ug_graph su) x -> path_of x = p ++ [s]).
      { intros x Hx. inversion Ks as [p' g0 subs' _ HN _ _]; subst. cbn in Hx. destruct (HN x Hx) as [[o ->]|(t & -> & _)]; reflexivity. }
      destruct (assign_all h p2u u2p g1 _ _ _) as [log1|] eqn:AA; [|discriminate]. cbn [bind] in H.
      apply assign_all_spec in AA.
      2:{ apply NoDup_filter, (@wf_nodes _ _ Wsu). }
      2:{ intros x Hx. apply filter_In in Hx. destruct Hx as [Hx V]. split; [exact V|]. apply (FR s); [left; reflexivity|]. exists []. apply Psu, Hx. }
      destruct AA as (PA & ex1 & -> & M1 & S1).
      destruct (merge_graphs h p2u u2p (p ++ [s]) _ su _) as [st2|] eqn:MG; [|discriminate]. cbn [bind] in H.
      inversion FG as [|? ? Gsu FG']; subst. cbn [snd] in Gsu.
      assert (PR2 : pre (p ++ [s]) (ug_subs su) (g1, snd st ++ ex1)).
      { split; [exact W1|]. cbn [fst snd]. intros t x Ht (t' & Hx). rewrite <- app_assoc in Hx. cbn in Hx.
        destruct (FR s x (or_introl eq_refl) (ex_intro _ (t :: t') Hx)) as [F1 F2].
        assert (NP : ~ node (ug_graph su) x). { intros Hn. apply Psu in Hn. rewrite Hn in Hx. apply app_inv_head in Hx. discriminate. }
        split.
        - rewrite N1'. tauto.
        - rewrite map_app, in_app_iff, M1. intros [Hi|Hi]; [contradiction|]. apply filter_In in Hi. apply NP, Hi. }
      specialize (Gsu _ _ _ _ Ks PR2 MG). clear MG.
      inversion ND as [|? ? Ns ND']; subst.
      assert (Disj : forall s' x, In s' (map fst r) -> within p s' x -> ~ within p s x).
      { intros s' x Hs' (t & Et) (t' & Et'). rewrite Et in Et'. apply app_inv_head in Et'. injection Et' as -> _. contradiction. }
      assert (PR3 : pre p r st2).
      { split; [apply Gsu|]. intros s' x Hs' Hw. destruct (FR s' x (or_intror Hs') Hw) as [F1 F2]. specialize (Disj _ _ Hs' Hw).
        assert (NP : ~ node (ug_graph su) x). { intros Hn. apply Disj. exists []. apply Psu, Hn. }
        assert (NB : forall q gq, below (ug_subs su) q gq -> ~ node gq x).
        { intros q gq B Hn. assert (Ks' : forall s0 su0, In (s0, su0) (ug_subs su) -> ug_ok ((p ++ [s]) ++ [s0]) su0) by (inversion Ks; assumption).
          destruct (@below_within _ _ _ _ _ Ks' B Hn) as [E _]. rewrite <- app_assoc in E. apply Disj. exists q. exact E. }
        split.
        - rewrite (ef_node Gsu). cbn [fst]. rewrite N1'. intros [[[Hn|Hn] _]|(_ & q & gq & B & Hn)]; [contradiction|contradiction|exact (NB _ _ B Hn)].
        - destruct (ef_log Gsu) as (ex2 & -> & _ & S2 & _). cbn [snd]. rewrite !map_app, !in_app_iff, M1. intros [[Hi|Hi]|Hi].
          + contradiction.
          + apply filter_In in Hi. apply NP, Hi.
          + apply S2 in Hi. destruct Hi as (_ & q & gq & B & Hn). exact (NB _ _ B Hn). }
      specialize (IH _ _ FG' ND' (fun s0 su0 Hi => K s0 su0 (or_intror Hi)) PR3 H). clear H.
      (* the graphs below the list *)
      assert (BL : forall q gq, below ((s, su) :: r) q gq <-> (q = [s] /\ gq = ug_graph su) \/ (exists q', q = s :: q' /\ below (ug_subs su) q' gq) \/ below r q gq).
      { intros q gq. split.
        - intros (s0 & su0 & q' & -> & [E|Hs] & G).
          + injection E as <- <-. inversion G as [g subs|g subs t tu q'' g' Ht G']; subst; [left; auto|]. right. left. eexists. split; [reflexivity|].
            exists t, tu, q''. auto.
          + right. right. exists s0, su0, q'. auto.
        - intros [[-> ->]|[(q' & -> & (t & tu & q'' & -> & Ht & G))|(s0 & su0 & q' & -> & Hs & G)]].
          + exists s, su, []. split; [reflexivity|]. split; [left; reflexivity|]. destruct su; constructor.
          + exists s, su, (t :: q''). split; [reflexivity|]. split; [left; reflexivity|]. destruct su. econstructor; [exact Ht|exact G].
          + exists s0, su0, q'. split; [reflexivity|]. split; [right; exact Hs|exact G]. }
      assert (RM : forall x, (exists t, In t (map fst (ug_subs su)) /\ x = NModel (p ++ [s]) t) -> within p s x).
      { intros x (t & _ & ->). exists []. reflexivity. }
      assert (MN : forall x, node (ug_graph su) x -> (model_node x <-> exists t, In t (map fst (ug_subs su)) /\ x = NModel (p ++ [s]) t)).
      { intros x Hx. split; [|intros (t & _ & ->); exists (p ++ [s]), t; reflexivity]. intros (q & t & ->).
        inversion Ks as [p' g0 subs' _ HN _ _]; subst. cbn in Hx. destruct (HN _ Hx) as [[o E]|(t' & E & Ht)]; [discriminate|].
        injection E as -> ->. cbn. exists t'. auto. }
      assert (KG : forall x, node (fst st) x -> ~ (exists t, In t (map fst (ug_subs su)) /\ x = NModel (p ++ [s]) t)).
      { intros x Hx Hr. apply RM in Hr. exact (proj1 (FR s x (or_introl eq_refl) Hr) Hx). }
      split.
      + apply IH.
      + intros x. rewrite (ef_node IH), (ef_node Gsu). cbn [fst]. rewrite N1'. split.
        * intros [[[[[Hx|Hx] Hr]|(Nm & q & gq & B & Hx)] _]|(Nm & q & gq & B & Hx)].
          -- left. auto.
          -- right. split; [rewrite (MN x Hx); exact Hr|]. exists [s], (ug_graph su). split; [apply BL; auto|exact Hx].
          -- right. split; [exact Nm|]. exists (s :: q), gq. split; [apply BL; eauto|exact Hx].
          -- right. split; [exact Nm|]. exists q, gq. split; [apply BL; auto|exact Hx].
        * intros [[Hx _]|(Nm & q & gq & B & Hx)].
          -- left. split; [left; split; [auto|apply KG, Hx]|auto].
          -- apply BL in B. destruct B as [[-> ->]|[(q' & -> & B)|B]].
             ++ left. split; [left; split; [auto|rewrite <- (MN x Hx); exact Nm]|auto].
             ++ left. split; [right; eauto|auto].
             ++ right. eauto.
      + intros a b. rewrite (ef_edge IH), (ef_edge Gsu). cbn [fst]. rewrite E1'. split.
        * intros [[[[[Hx|Hx] Hr]|(Na & Nb & q & gq & B & Hx)] _]|(Na & Nb & q & gq & B & Hx)].
          -- left. auto.
          -- right. destruct (@wf_ends _ _ Wsu _ _ Hx) as [Xa Xb]. rewrite (MN a Xa), (MN b Xb). split; [apply Hr|]. split; [apply Hr|].
             exists [s], (ug_graph su). split; [apply BL; auto|exact Hx].
          -- right. split; [exact Na|]. split; [exact Nb|]. exists (s :: q), gq. split; [apply BL; eauto|exact Hx].
          -- right. split; [exact Na|]. split; [exact Nb|]. exists q, gq. split; [apply BL; auto|exact Hx].
        * intros [[Hx _]|(Na & Nb & q & gq & B & Hx)].
          -- destruct (@wf_ends _ _ W _ _ Hx) as [Xa Xb]. left. split; [left; split; [auto|split; apply KG; assumption]|auto].
          -- apply BL in B. destruct B as [[-> ->]|[(q' & -> & B)|B]].
             ++ destruct (@wf_ends _ _ Wsu _ _ Hx) as [Xa Xb]. left. split; [left; split; [auto|rewrite <- (MN a Xa), <- (MN b Xb); auto]|auto].
             ++ left. split; [right; eauto 6|auto].
             ++ right. eauto 6.
      + destruct (ef_log Gsu) as (ex2 & L2 & D2 & I2 & S2). destruct (ef_log IH) as (ex3 & L3 & D3 & I3 & S3). cbn [snd] in L2.
        assert (I1 : forall x, In x (map fst ex1) <-> is_varnode h x /\ node (ug_graph su) x).
        { intros x. rewrite M1, filter_In, is_var_node_spec. unfold node. tauto. }
        assert (Ks' : forall s0 su0, In (s0, su0) (ug_subs su) -> ug_ok ((p ++ [s]) ++ [s0]) su0) by (inversion Ks; assumption).
        assert (Kr : forall s0 su0, In (s0, su0) r -> ug_ok (p ++ [s0]) su0) by (intros; apply K; right; assumption).
        exists (ex1 ++ ex2 ++ ex3). split; [rewrite L3, L2, !app_assoc; reflexivity|]. split; [|split].
        * rewrite !map_app. apply NoDup_app_iff. split; [rewrite M1; apply NoDup_filter, (@wf_nodes _ _ Wsu)|]. split.
          -- apply NoDup_app_iff. split; [exact D2|]. split; [exact D3|]. intros x H2 H3. apply I2 in H2. apply I3 in H3.
             destruct H2 as (_ & q & gq & B2 & X2), H3 as (_ & q' & gq' & B3 & X3).
             destruct (@below_within _ _ _ _ _ Ks' B2 X2) as [E2 _]. destruct (@below_within _ _ _ _ _ Kr B3 X3) as (_ & s' & Hs' & Hw).
             apply (Disj s' x Hs' Hw). exists q. rewrite <- app_assoc in E2. exact E2.
          -- intros x H1 H23. apply I1 in H1. destruct H1 as [_ X1]. apply Psu in X1. apply in_app_iff in H23. destruct H23 as [H2|H3].
             ++ apply I2 in H2. destruct H2 as (_ & q & gq & B2 & X2). destruct (@below_within _ _ _ _ _ Ks' B2 X2) as [E2 _].
                rewrite X1 in E2. rewrite <- (app_nil_r (p ++ [s])) in E2 at 1. apply app_inv_head in E2. destruct B2 as (? & ? & ? & -> & _). discriminate.
             ++ apply I3 in H3. destruct H3 as (_ & q' & gq' & B3 & X3). destruct (@below_within _ _ _ _ _ Kr B3 X3) as (_ & s' & Hs' & Hw).
                apply (Disj s' x Hs' Hw). exists []. exact X1.
        * intros x. rewrite !map_app, !in_app_iff, I1, I2, I3. split.
          -- intros [(V & X)|[(V & q & gq & B & X)|(V & q & gq & B & X)]]; (split; [exact V|]).
             ++ exists [s], (ug_graph su). split; [apply BL; auto|exact X].
             ++ exists (s :: q), gq. split; [apply BL; eauto|exact X].
             ++ exists q, gq. split; [apply BL; auto|exact X].
          -- intros (V & q & gq & B & X). apply BL in B. destruct B as [[-> ->]|[(q' & -> & B)|B]]; eauto 10.
        * intros x v. rewrite !in_app_iff. intros [Hi|[Hi|Hi]].
          -- destruct (S1 x v Hi) as (p' & o & ob & -> & E & ->). assert (X : node (ug_graph su) (NObj p' o)).
             { apply (in_map fst) in Hi. apply I1 in Hi. apply Hi. }
             pose proof (Psu _ X) as EP. cbn in EP. subst p'. exists [s], (ug_graph su), o, ob. split; [apply BL; auto|]. auto.
          -- destruct (S2 x v Hi) as (q & gq & o & ob & B & X & -> & E & ->). exists (s :: q), gq, o, ob. split; [apply BL; eauto|]. split; [exact X|].
             rewrite <- app_assoc. auto.
          -- destruct (S3 x v Hi) as (q & gq & o & ob & B & X & -> & E & ->). exists q, gq, o, ob. split; [apply BL; auto|]. auto.
      + intros q gq x B X V. apply BL in B. destruct B as [[-> ->]|[(q' & -> & B)|B]].
        * assert (Hx : In x (filter (is_var_node h) (g_nodes (ug_graph su)))) by (apply filter_In; split; [exact X|apply is_var_node_spec, V]).
          pose proof (PA x Hx) as Q. intros p' o ob Ex E. destruct (Q p' o ob Ex E) as [Q1|[Q1|(q & o' & He & Hc)]]; [left; exact Q1|right; left; exact Q1|].
          right. right. exists q, o'. split; [|exact Hc]. apply E1' in He. destruct He as [He|He]; [|exact He]. exfalso.
          apply (@wf_ends _ _ W) in He. destruct He as [_ He]. apply (proj1 (FR s x (or_introl eq_refl) (ex_intro _ [] (Psu _ X))) He).
        * exact (@ef_pass _ _ _ _ _ _ Gsu _ _ _ B X V).
        * exact (@ef_pass _ _ _ _ _ _ IH _ _ _ B X V).
  Qed.

  Theorem merge_graphs_spec u : goal u.
  Proof.
    induction u as [g subs IH] using ugraph_ind'. intros p ns st st' K [W FR] H. rewrite merge_graphs_eq in H. cbn [ug_subs].
    inversion K as [p' g0 subs' _ HN HD HS]; subst.
    destruct (@remove_nodes_spec _ irnode_eqb irnode_eqb_spec (map (fun sg => NModel p (fst sg)) subs) (fst st) W) as (W0 & N0 & E0).
    set (g1 := remove_nodes _ _ _) in *.
    assert (RM : forall x, In x (map (fun sg : string * ugraph => NModel p (fst sg)) subs) <-> exists s, In s (map fst subs) /\ x = NModel p s).
    { intros x. rewrite in_map_iff. split.
      - intros ([s su] & <- & Hi). exists s. split; [apply (in_map fst) in Hi; exact Hi|reflexivity].
      - intros (s & Hs & ->). apply in_map_iff in Hs. destruct Hs as ([s' su] & <- & Hi). exists (s', su). auto. }
    apply merge_list_spec in H; [|exact IH|exact HD|exact HS|].
    - destruct H as [H1 H2 H3 H4 H5]. cbn [fst snd] in *. split; [exact H1| | |exact H4|exact H5].
      + intros x. rewrite H2, N0, RM. tauto.
      + intros a b. rewrite H3, E0, !RM. tauto.
    - split; [exact W0|]. cbn [fst snd]. intros s x Hs Hw. destruct (FR s x Hs Hw) as [F1 F2]. split; [rewrite N0; tauto|exact F2].
  Qed.
End F.
