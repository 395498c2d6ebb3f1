(** The part of networkx.DiGraph the compiler uses.  Nodes are compared by identity; the
    node type is a parameter with a boolean equality.  Nodes and edges are kept in
    insertion order; the order of adjacency dictionaries is not otherwise modelled. *)
From Verif Require Import PyBase.

Record digraph (A : Type) := DG { g_nodes : list A; g_edges : list (A * A) }.
Arguments DG {A}.
Arguments g_nodes {A}.
Arguments g_edges {A}.

Section Ops.
  Context {A : Type} (eqb : A -> A -> bool).

  Definition empty_graph : digraph A := DG [] [].
  Definition memA (x : A) (l : list A) : bool := existsb (eqb x) l.
  Definition edge_eqb (e f : A * A) : bool := eqb (fst e) (fst f) && eqb (snd e) (snd f).
  Definition has_node (g : digraph A) (x : A) : bool := memA x (g_nodes g).
  Definition has_edge (g : digraph A) (a b : A) : bool := existsb (edge_eqb (a, b)) (g_edges g).

  (** DiGraph.add_node *)
  Definition add_node (g : digraph A) (x : A) : digraph A :=
    if has_node g x then g else DG (g_nodes g ++ [x]) (g_edges g).
  Definition add_nodes (g : digraph A) (l : list A) : digraph A := fold_left add_node l g.
  (** DiGraph.add_edge: adds missing end points *)
  Definition add_edge (g : digraph A) (a b : A) : digraph A :=
    let g1 := add_node (add_node g a) b in
    if has_edge g1 a b then g1 else DG (g_nodes g1) (g_edges g1 ++ [(a, b)]).
  Definition add_edges (g : digraph A) (l : list (A * A)) : digraph A :=
    fold_left (fun g e => add_edge g (fst e) (snd e)) l g.
  (** DiGraph.remove_node / remove_nodes_from (absent nodes ignored) *)
  Definition remove_node (g : digraph A) (x : A) : digraph A :=
    DG (filter (fun y => negb (eqb x y)) (g_nodes g))
       (filter (fun e => negb (eqb x (fst e)) && negb (eqb x (snd e))) (g_edges g)).
  Definition remove_nodes (g : digraph A) (l : list A) : digraph A := fold_left remove_node l g.

  (** DiGraph.predecessors, DiGraph.in_degree *)
  Definition preds (g : digraph A) (x : A) : list A := map fst (filter (fun e => eqb x (snd e)) (g_edges g)).
  Definition succs (g : digraph A) (x : A) : list A := map snd (filter (fun e => eqb x (fst e)) (g_edges g)).

  (** networkx.contracted_nodes(G, u, v, self_loops=False, copy=False): the edges of [v] are
      moved to [u], edges between [u] and [v] are dropped.  Raises when [v] is not a node,
      or when [u] is not a node afterwards. *)
  Definition contract (g : digraph A) (u v : A) : res (digraph A) :=
    if negb (has_node g v) then Err KeyError
    else
      let touched := filter (fun e => eqb v (snd e)) (g_edges g) ++ filter (fun e => eqb v (fst e)) (g_edges g) in
      let keep := filter (fun e => negb ((eqb u (fst e) && eqb v (snd e)) || (eqb v (fst e) && eqb u (snd e)))) touched in
      let ren x := if eqb v x then u else x in
      let g' := fold_left (fun g e => add_edge g (ren (fst e)) (ren (snd e))) keep (remove_node g v) in
      if has_node g' u then Ok g' else Err KeyError.
End Ops.

(** ** Lemmas *)
Section Lemmas.
  Context {A : Type} (eqb : A -> A -> bool) (eqb_spec : forall x y, eqb x y = true <-> x = y).
  Notation digraph := (digraph A).

  Definition edge (g : digraph) (a b : A) : Prop := In (a, b) (g_edges g).
  Definition node (g : digraph) (a : A) : Prop := In a (g_nodes g).
  (** End points of edges are nodes; no node and no edge is listed twice. *)
  Record wf (g : digraph) : Prop := {
    wf_ends : forall a b, edge g a b -> node g a /\ node g b;
    wf_nodes : NoDup (g_nodes g);
    wf_edges : NoDup (g_edges g)
  }.

  Lemma eqb_refl x : eqb x x = true.
  Proof. apply eqb_spec. reflexivity. Qed.
  Lemma eqb_false x y : eqb x y = false <-> x <> y.
  Proof. rewrite <- eqb_spec. destruct (eqb x y); split; intros; congruence. Qed.
  Lemma eqA_dec (x y : A) : {x = y} + {x <> y}.
  Proof. destruct (eqb x y) eqn:E; [left; apply eqb_spec, E|right; apply eqb_false, E]. Qed.

  Lemma memA_spec x l : memA eqb x l = true <-> In x l.
  Proof.
    unfold memA. rewrite existsb_exists. split.
    - intros (y & H & E). apply eqb_spec in E. subst. exact H.
    - intros H. exists x. split; [exact H|apply eqb_refl].
  Qed.
  Lemma memA_false x l : memA eqb x l = false <-> ~ In x l.
  Proof. rewrite <- memA_spec. destruct (memA eqb x l); split; intros; congruence. Qed.
  Lemma edge_eqb_spec e f : edge_eqb eqb e f = true <-> e = f.
  Proof.
    destruct e as [a b], f as [c d]. unfold edge_eqb. cbn. rewrite andb_true_iff, !eqb_spec.
    split; [intros [-> ->]; reflexivity|intros E; injection E; auto].
  Qed.
  Lemma has_edge_spec g a b : has_edge eqb g a b = true <-> edge g a b.
  Proof.
    unfold has_edge, edge. rewrite existsb_exists. split.
    - intros (e & H & E). apply edge_eqb_spec in E. subst. exact H.
    - intros H. exists (a, b). split; [exact H|apply edge_eqb_spec; reflexivity].
  Qed.
  Lemma has_node_spec g a : has_node eqb g a = true <-> node g a.
  Proof. apply memA_spec. Qed.

  Lemma node_add_node g x y : node (add_node eqb g x) y <-> node g y \/ y = x.
  Proof.
    unfold add_node. destruct (has_node eqb g x) eqn:E.
    - apply has_node_spec in E. split; [auto|intros [H| ->]; auto].
    - unfold node. cbn. rewrite in_app_iff. cbn. intuition congruence.
  Qed.
  Lemma edge_add_node g x a b : edge (add_node eqb g x) a b <-> edge g a b.
  Proof. unfold add_node. destruct (has_node eqb g x); reflexivity. Qed.
  Lemma wf_add_node g x : wf g -> wf (add_node eqb g x).
  Proof.
    intros [H1 H2 H3]. split.
    - intros a b H. apply edge_add_node in H. rewrite !node_add_node. apply H1 in H. tauto.
    - unfold add_node. destruct (has_node eqb g x) eqn:E; [exact H2|]. cbn. apply NoDup_app_single; [exact H2|].
      intros Hi. apply has_node_spec in Hi. congruence.
    - unfold add_node. destruct (has_node eqb g x); exact H3.
  Qed.
  Lemma node_add_edge g a b y : node (add_edge eqb g a b) y <-> node g y \/ y = a \/ y = b.
  Proof.
    unfold add_edge. set (g1 := add_node eqb (add_node eqb g a) b).
    assert (H : node g1 y <-> node g y \/ y = a \/ y = b) by (unfold g1; rewrite !node_add_node; tauto).
    destruct (has_edge eqb g1 a b); [exact H|]. exact H.
  Qed.
  Lemma edge_add_edge g a b c d : edge (add_edge eqb g a b) c d <-> edge g c d \/ (c = a /\ d = b).
  Proof.
    unfold add_edge. set (g1 := add_node eqb (add_node eqb g a) b).
    assert (H : edge g1 c d <-> edge g c d) by (unfold g1; rewrite !edge_add_node; tauto).
    destruct (has_edge eqb g1 a b) eqn:E.
    - apply has_edge_spec in E. rewrite <- H. split; [auto|intros [H'|[-> ->]]; auto].
    - unfold edge. cbn. rewrite in_app_iff. fold (edge g1 c d). rewrite H. cbn. intuition congruence.
  Qed.
  Lemma wf_add_edge g a b : wf g -> wf (add_edge eqb g a b).
  Proof.
    intros W. pose proof (wf_add_node _ b (wf_add_node _ a W)) as W1. unfold add_edge.
    set (g1 := add_node eqb (add_node eqb g a) b) in *. destruct (has_edge eqb g1 a b) eqn:E; [exact W1|].
    destruct W1 as [H1 H2 H3]. split.
    - intros c d H. unfold edge in H. cbn in H. apply in_app_iff in H. destruct H as [H|[H|[]]].
      + apply H1, H.
      + injection H as <- <-. unfold node. cbn. split; unfold g1; fold (node (add_node eqb (add_node eqb g a) b) a);
          fold (node (add_node eqb (add_node eqb g a) b) b); rewrite !node_add_node; auto.
    - exact H2.
    - cbn. apply NoDup_app_single; [exact H3|]. intros Hi. apply has_edge_spec in Hi. congruence.
  Qed.

  Lemma add_nodes_spec l g : wf g -> wf (add_nodes eqb g l) /\
    (forall y, node (add_nodes eqb g l) y <-> node g y \/ In y l) /\
    (forall a b, edge (add_nodes eqb g l) a b <-> edge g a b).
  Proof.
    unfold add_nodes. revert g. induction l as [|x l IH]; intros g W; cbn [fold_left].
    - split; [exact W|]. split; [cbn; tauto|tauto].
    - destruct (IH _ (wf_add_node _ x W)) as (W' & HN & HE). split; [exact W'|]. split.
      + intros y. rewrite HN, node_add_node. cbn. intuition congruence.
      + intros a b. rewrite HE, edge_add_node. tauto.
  Qed.
  Lemma add_edges_spec l g : wf g -> wf (add_edges eqb g l) /\
    (forall y, node (add_edges eqb g l) y <-> node g y \/ exists e, In e l /\ (y = fst e \/ y = snd e)) /\
    (forall a b, edge (add_edges eqb g l) a b <-> edge g a b \/ In (a, b) l).
  Proof.
    unfold add_edges. revert g. induction l as [|[c d] l IH]; intros g W; cbn [fold_left fst snd].
    - split; [exact W|]. split.
      + intros y. split; [auto|intros [H|(e & [] & _)]; exact H].
      + intros a b. cbn. tauto.
    - destruct (IH _ (wf_add_edge _ c d W)) as (W' & HN & HE). split; [exact W'|]. split.
      + intros y. rewrite HN, node_add_edge. split.
        * intros [[H|H]|(e & H1 & H2)]; [auto|right; exists (c, d); cbn; tauto|right; exists e; cbn; tauto].
        * intros [H|(e & [<-|H1] & H2)]; [auto|cbn in H2; tauto|right; exists e; auto].
      + intros a b. rewrite HE, edge_add_edge. cbn. intuition congruence.
  Qed.

  Lemma node_remove g x y : node (remove_node eqb g x) y <-> node g y /\ y <> x.
  Proof.
    unfold node, remove_node. cbn. rewrite filter_In, negb_true_iff, eqb_false. intuition congruence.
  Qed.
  Lemma edge_remove g x a b : edge (remove_node eqb g x) a b <-> edge g a b /\ a <> x /\ b <> x.
  Proof.
    unfold edge, remove_node. cbn. rewrite filter_In. cbn. rewrite andb_true_iff, !negb_true_iff, !eqb_false. intuition congruence.
  Qed.
  Lemma wf_remove g x : wf g -> wf (remove_node eqb g x).
  Proof.
    intros [H1 H2 H3]. split.
    - intros a b H. rewrite !node_remove. apply edge_remove in H. destruct H as (H & Ha & Hb). apply H1 in H. tauto.
    - cbn. apply NoDup_filter, H2.
    - cbn. apply NoDup_filter, H3.
  Qed.
  Lemma remove_nodes_spec l g : wf g -> wf (remove_nodes eqb g l) /\
    (forall y, node (remove_nodes eqb g l) y <-> node g y /\ ~ In y l) /\
    (forall a b, edge (remove_nodes eqb g l) a b <-> edge g a b /\ ~ In a l /\ ~ In b l).
  Proof.
    unfold remove_nodes. revert g. induction l as [|x l IH]; intros g W; cbn [fold_left].
    - split; [exact W|]. split; intros; cbn; tauto.
    - destruct (IH _ (wf_remove _ x W)) as (W' & HN & HE). split; [exact W'|]. split.
      + intros y. rewrite HN, node_remove. cbn. intuition congruence.
      + intros a b. rewrite HE, edge_remove. cbn. intuition congruence.
  Qed.

  Lemma In_preds g x p : In p (preds eqb g x) <-> edge g p x.
  Proof.
    unfold preds, edge. rewrite in_map_iff. split.
    - intros ([a b] & <- & H). apply filter_In in H. destruct H as [H E]. cbn in E. apply eqb_spec in E. subst. exact H.
    - intros H. exists (p, x). split; [reflexivity|]. apply filter_In. split; [exact H|apply eqb_refl].
  Qed.
  Lemma In_succs g x p : In p (succs eqb g x) <-> edge g x p.
  Proof.
    unfold succs, edge. rewrite in_map_iff. split.
    - intros ([a b] & <- & H). apply filter_In in H. destruct H as [H E]. cbn in E. apply eqb_spec in E. subst. exact H.
    - intros H. exists (x, p). split; [reflexivity|]. apply filter_In. split; [exact H|apply eqb_refl].
  Qed.
  Lemma NoDup_preds g x : wf g -> NoDup (preds eqb g x).
  Proof.
    intros [_ _ H]. unfold preds. induction (g_edges g) as [|[a b] l IH]; cbn; [constructor|].
    inversion H as [|? ? N H']; subst. destruct (eqb x b) eqn:E; cbn; [|auto]. apply eqb_spec in E. subst b.
    constructor; [|auto]. intros Hi. apply in_map_iff in Hi. destruct Hi as ([c d] & E1 & Hi). apply filter_In in Hi.
    destruct Hi as [Hi E2]. cbn in *. apply eqb_spec in E2. subst. contradiction.
  Qed.

  Definition subst (v u x : A) : A := if eqb v x then u else x.

  (** Contraction of two distinct nodes: [v] disappears, every edge of [v] is moved to [u]. *)
  Lemma contract_spec g u v : wf g -> u <> v -> node g u -> node g v -> ~ edge g u v -> ~ edge g v u ->
    exists g', contract eqb g u v = Ok g' /\ wf g' /\
      (forall y, node g' y <-> node g y /\ y <> v) /\
      (forall a b, edge g' a b <-> exists a' b', edge g a' b' /\ subst v u a' = a /\ subst v u b' = b).
  Proof.
    intros W Huv Hu Hv Nuv Nvu. unfold contract.
    assert (Hv' : has_node eqb g v = true) by (apply has_node_spec, Hv). rewrite Hv'. cbn [negb].
    set (touched := filter (fun e => eqb v (snd e)) (g_edges g) ++ filter (fun e => eqb v (fst e)) (g_edges g)).
    set (keep := filter _ touched).
    assert (HT : forall a b, In (a, b) keep <-> edge g a b /\ (a = v \/ b = v)).
    { intros a b. unfold keep. rewrite filter_In. unfold touched. rewrite in_app_iff, !filter_In. cbn [fst snd]. rewrite !eqb_spec.
      fold (edge g a b). rewrite negb_true_iff, orb_false_iff, !andb_false_iff, !eqb_false. split.
      - intros [[[H E]|[H E]] _]; auto.
      - intros [H [E|E]]; subst; split; auto.
        + split; [left; exact Huv|right; intros ->; contradiction].
        + split; [left; intros ->; contradiction|right; exact Huv]. }
    fold (subst v u).
    assert (HF : forall (l : list (A * A)) g0, wf g0 ->
       let g' := fold_left (fun g e => add_edge eqb g (subst v u (fst e)) (subst v u (snd e))) l g0 in
       wf g' /\ (forall y, node g' y <-> node g0 y \/ exists a b, In (a, b) l /\ (y = subst v u a \/ y = subst v u b)) /\
       (forall a b, edge g' a b <-> edge g0 a b \/ exists a' b', In (a', b') l /\ subst v u a' = a /\ subst v u b' = b)).
    { induction l as [|[c d] l IH]; intros g0 W0; cbn [fold_left fst snd]; cbv zeta.
      - split; [exact W0|]. split; [intros y|intros a b]; split; auto; intros [H|(a' & b' & [] & _)]; exact H.
      - destruct (IH _ (wf_add_edge _ (subst v u c) (subst v u d) W0)) as (W' & HN & HE). split; [exact W'|]. split.
        + intros y. rewrite HN, node_add_edge. split.
          * intros [[H|H]|(a & b & H1 & H2)]; [auto|right; exists c, d; cbn; tauto|right; exists a, b; cbn; tauto].
          * intros [H|(a & b & [E|H1] & H2)]; [auto|injection E as <- <-; tauto|right; exists a, b; auto].
        + intros a b. rewrite HE, edge_add_edge. split.
          * intros [[H|[-> ->]]|(a' & b' & H1 & H2)]; [auto|right; exists c, d; cbn; tauto|right; exists a', b'; cbn; tauto].
          * intros [H|(a' & b' & [E|H1] & H2 & H3)]; [auto|injection E as -> ->; left; right; auto|right; exists a', b'; auto]. }
    destruct (HF keep _ (wf_remove _ v W)) as (W' & HN & HE).
    set (g' := fold_left _ keep _) in *.
    assert (HN' : forall y, node g' y <-> node g y /\ y <> v).
    { intros y. rewrite HN, node_remove. split; [|auto]. intros [H|(a & b & Hi & Hy)]; [exact H|].
      apply HT in Hi. destruct Hi as [He _]. apply (wf_ends _ W) in He. destruct He as [Ha Hb].
      assert (S : forall z, node g z -> node g (subst v u z) /\ subst v u z <> v).
      { intros z Hz. unfold subst. destruct (eqb v z) eqn:E; [auto|]. split; [exact Hz|]. apply eqb_false in E. congruence. }
      destruct Hy as [->| ->]; auto. }
    assert (Hu' : has_node eqb g' u = true) by (apply has_node_spec, HN'; auto). rewrite Hu'.
    exists g'. split; [reflexivity|]. split; [exact W'|]. split; [exact HN'|].
    intros a b. rewrite HE, edge_remove. split.
    - intros [(H & Ha & Hb)|(a' & b' & Hi & E1 & E2)].
      + exists a, b. split; [exact H|]. unfold subst. apply not_eq_sym, eqb_false in Ha. apply not_eq_sym, eqb_false in Hb. rewrite Ha, Hb. auto.
      + apply HT in Hi. exists a', b'. tauto.
    - intros (a' & b' & H & E1 & E2). destruct (eqA_dec a' v) as [Ea|Ea].
      + right. exists a', b'. split; [apply HT; auto|auto].
      + destruct (eqA_dec b' v) as [Eb|Eb]; [right; exists a', b'; split; [apply HT; auto|auto]|].
        left. apply not_eq_sym, eqb_false in Ea. apply not_eq_sym, eqb_false in Eb. unfold subst in E1, E2.
        rewrite Ea in E1. rewrite Eb in E2. apply eqb_false in Ea. apply eqb_false in Eb. subst. auto.
  Qed.

  (** Same, when [u] is not (any more) a node: it is added if [v] has an edge. *)
  Lemma wf_contract g u v g' : wf g -> contract eqb g u v = Ok g' -> wf g'.
  Proof.
    intros W. unfold contract. destruct (has_node eqb g v); cbn [negb]; [|discriminate].
    match goal with |- context [fold_left ?f ?k ?g0] => set (F := f); set (K := k); set (G := g0) end.
    destruct (has_node eqb (fold_left F K G) u); [|discriminate]. intros E. injection E as <-.
    assert (WG : wf G) by apply wf_remove, W. revert WG. generalize G. clear G W.
    induction K as [|e K IH]; intros G WG; [exact WG|]. cbn. apply IH, wf_add_edge, WG.
  Qed.
End Lemmas.
