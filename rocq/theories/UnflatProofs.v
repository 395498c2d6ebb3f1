(** Correctness of the traversal that builds the graph of one model. *)
From Verif Require Import PyBase Digraph ExprModel UnflatModel UnflatSpec.
Set Implicit Arguments.

Lemma irnode_eqb_spec a b : irnode_eqb a b = true <-> a = b.
Proof.
  assert (L : forall p q, list_eqb String.eqb p q = true <-> p = q).
  { intros p q. apply list_eqb_spec. intros x y. apply String.eqb_eq. }
  destruct a as [p s|p o], b as [q t|q r]; cbn; try (split; discriminate).
  - rewrite andb_true_iff, L, String.eqb_eq. split; [intros [-> ->]; reflexivity|intros H; injection H; auto].
  - rewrite andb_true_iff, L, Nat.eqb_eq. split; [intros [-> ->]; reflexivity|intros H; injection H; auto].
Qed.

Lemma memn_spec x l : memn x l = true <-> In x l.
Proof.
  unfold memn. rewrite existsb_exists. split.
  - intros (y & H & E). apply Nat.eqb_eq in E. subst. exact H.
  - intros H. exists x. split; [exact H|apply Nat.eqb_refl].
Qed.
Lemma memn_false x l : memn x l = false <-> ~ In x l.
Proof. rewrite <- memn_spec. destruct (memn x l); split; intros; congruence. Qed.

(** [nodes'] knows everything [nodes] knows. *)
Definition extends (d d' : dict irnode) : Prop := forall k n, dget d k = Some n -> dget d' k = Some n.
Lemma extends_refl d : extends d d.
Proof. intros k n H; exact H. Qed.
Lemma extends_trans a b c : extends a b -> extends b c -> extends a c.
Proof. intros H1 H2 k n H. apply H2, H1, H. Qed.

(** New entries are nodes of objects of that name satisfying [P]. *)
Definition fresh_from (h : list obj) (p : list string) (P : nat -> Prop) (d d' : dict irnode) : Prop :=
  forall k n, dget d' k = Some n -> dget d k = Some n \/ exists o, n = NObj p o /\ P o /\ named h o k.

Definition node_of (h : list obj) (d : dict irnode) (o : nat) (n : irnode) : Prop :=
  exists k, named h o k /\ dget d k = Some n.

Lemma node_of_fun h d o n n' : node_of h d o n -> node_of h d o n' -> n = n'.
Proof.
  intros (k & (ob & E & Ek) & D) (k' & (ob' & E' & Ek') & D'). rewrite E in E'. injection E' as <-.
  subst. rewrite D in D'. injection D'; auto.
Qed.
Lemma node_of_ext h d d' o n : extends d d' -> node_of h d o n -> node_of h d' o n.
Proof. intros X (k & N & D). exists k. auto. Qed.

Lemma ggn_spec h p d o d' n : get_graph_node h p d o = Ok (d', n) ->
  extends d d' /\ node_of h d' o n /\ fresh_from h p (eq o) d d' /\ o < length h /\
  (variable h o -> exists q o', n = NObj q o' /\ variable h o').
Proof.
  unfold get_graph_node. destruct (nth_error h o) as [ob|] eqn:E; [|discriminate].
  assert (L : o < length h) by (apply nth_error_Some; congruence).
  assert (NM : named h o (ob_name ob)) by (exists ob; auto).
  destruct (dget d (ob_name ob)) as [m|] eqn:D.
  - assert (R : forall x y, Ok (x, y) = Ok (d', n) -> x = d -> y = m ->
               (variable h o -> exists q o', m = NObj q o' /\ variable h o') ->
               extends d d' /\ node_of h d' o n /\ fresh_from h p (eq o) d d' /\ o < length h /\
               (variable h o -> exists q o', n = NObj q o' /\ variable h o')).
    { intros x y HH -> -> HV. injection HH as <- <-. split; [apply extends_refl|]. split; [exists (ob_name ob); auto|].
      split; [intros k n' H'; auto|]. split; [exact L|exact HV]. }
    destruct (is_op ob) eqn:O.
    { intros HH; refine (R _ _ HH eq_refl eq_refl _). intros (ob' & E' & O'). congruence. }
    destruct m as [q s|q o']; [discriminate|]. destruct (nth_error h o') as [ob'|] eqn:E'; [|discriminate].
    destruct (is_op ob') eqn:O'; [discriminate|]. intros HH; refine (R _ _ HH eq_refl eq_refl _).
    intros _. exists q, o'. split; [reflexivity|]. exists ob'. auto.
  - intros H. injection H as <- <-. split.
    + intros k n' H. destruct (String.eqb_spec k (ob_name ob)) as [->|Hne]; [congruence|].
      rewrite dget_dset_other by exact Hne. exact H.
    + split; [exists (ob_name ob); split; [exact NM|apply dget_dset_same]|].
      split; [|split; [exact L|intros V; exists p, o; auto]].
      intros k n' H. destruct (String.eqb_spec k (ob_name ob)) as [->|Hne].
      * rewrite dget_dset_same in H. injection H as <-. right. exists o. auto.
      * rewrite dget_dset_other in H by exact Hne. auto.
Qed.

Lemma fresh_trans h p (P : nat -> Prop) a b c : fresh_from h p P a b -> fresh_from h p P b c -> fresh_from h p P a c.
Proof. intros H1 H2 k n H. destruct (H2 k n H) as [H'|H']; [apply H1, H'|right; exact H']. Qed.
Lemma fresh_weak h p (P Q : nat -> Prop) a b : (forall o, P o -> Q o) -> fresh_from h p P a b -> fresh_from h p Q a b.
Proof. intros HPQ H k n E. destruct (H k n E) as [H'|(o & E1 & E2 & E3)]; [auto|right; exists o; auto]. Qed.

(** Effect of a series of links. *)
Definition linked (fwd : bool) (me n : irnode) : irnode * irnode := if fwd then (me, n) else (n, me).
Record link_effect (h : list obj) (p : list string) (fwd : bool) (me : irnode) (l : list nat) (w w' : wst) : Prop := {
  le_ext : extends (w_nodes w) (w_nodes w');
  le_fresh : fresh_from h p (fun o => In o l) (w_nodes w) (w_nodes w');
  le_node : forall x, In x l -> exists n, node_of h (w_nodes w') x n;
  le_edge : forall a b, edge (w_graph w') a b <-> edge (w_graph w) a b \/
      exists x n, In x l /\ node_of h (w_nodes w') x n /\ (a, b) = linked fwd me n;
  le_vert : forall a, node (w_graph w') a <-> node (w_graph w) a \/
      (exists x n, In x l /\ node_of h (w_nodes w') x n /\ (a = me \/ a = n));
  le_wf : wf (w_graph w) -> wf (w_graph w');
  le_queued : forall x, In x (w_queued w') <-> In x (w_queued w) \/ In x l;
  le_queue : forall x, In x (w_queue w') -> In x (w_queue w) \/ (In x l /\ ~ In x (w_queued w));
  le_queue2 : forall x, In x (w_queue w) \/ (In x l /\ ~ In x (w_queued w)) -> In x (w_queue w');
  le_valid : forall x, In x l -> x < length h;
  le_len : length (w_queue w') + length (filter (fun x => negb (memn x (w_queued w'))) (seq 0 (length h)))
           = length (w_queue w) + length (filter (fun x => negb (memn x (w_queued w))) (seq 0 (length h)))
}.

Lemma filter_len_remove (x : nat) l qs : NoDup l -> In x l -> ~ In x qs ->
  S (length (filter (fun y => negb (memn y (x :: qs))) l)) = length (filter (fun y => negb (memn y qs)) l).
Proof.
  intros ND Hx Hq. induction l as [|y r IH]; [destruct Hx|]. inversion ND as [|? ? Hn ND']; subst.
  destruct (Nat.eq_dec y x) as [->|Hne].
  - cbn [filter]. replace (memn x (x :: qs)) with true by (symmetry; apply memn_spec; left; reflexivity).
    replace (memn x qs) with false by (symmetry; apply memn_false; exact Hq). cbn [negb length]. f_equal.
    f_equal. apply filter_ext_in. intros a Ha. f_equal.
    destruct (memn a qs) eqn:E.
    + apply memn_spec. right. apply memn_spec, E.
    + apply memn_false. apply memn_false in E. intros [->|H]; [contradiction|contradiction].
  - destruct Hx as [Hx|Hx]; [congruence|]. specialize (IH ND' Hx). cbn [filter].
    assert (Em : memn y (x :: qs) = memn y qs).
    { destruct (memn y qs) eqn:E.
      - apply memn_spec. right. apply memn_spec, E.
      - apply memn_false. apply memn_false in E. intros [H|H]; [congruence|contradiction]. }
    rewrite Em. destruct (memn y qs); cbn [negb]; [exact IH|]. cbn [length]. rewrite <- IH. reflexivity.
Qed.

Lemma link_spec h p fwd me w x w' : link h p fwd me w x = Ok w' -> link_effect h p fwd me [x] w w'.
Proof.
  unfold link. destruct (get_graph_node h p (w_nodes w) x) as [[d n]|e] eqn:E; [|discriminate]. cbn [bind fst snd].
  apply ggn_spec in E. destruct E as (X & N & F & L & _).
  assert (HF : fresh_from h p (fun o => In o [x]) (w_nodes w) d) by (eapply fresh_weak; [|exact F]; cbn; auto).
  set (g := if fwd then add_edge irnode_eqb (w_graph w) me n else add_edge irnode_eqb (w_graph w) n me).
  assert (HE : forall a b, edge g a b <-> edge (w_graph w) a b \/
      exists x0 n0, In x0 [x] /\ node_of h d x0 n0 /\ (a, b) = linked fwd me n0).
  { intros a b. unfold g. destruct fwd; rewrite (edge_add_edge _ irnode_eqb_spec); apply or_iff_compat_l; split.
    - intros [-> ->]. exists x, n. cbn. auto.
    - intros (x0 & n0 & [<-|[]] & N0 & Eq). rewrite (node_of_fun N0 N) in Eq. injection Eq; auto.
    - intros [-> ->]. exists x, n. cbn. auto.
    - intros (x0 & n0 & [<-|[]] & N0 & Eq). rewrite (node_of_fun N0 N) in Eq. injection Eq; auto. }
  assert (HV : forall a, node g a <-> node (w_graph w) a \/
      exists x0 n0, In x0 [x] /\ node_of h d x0 n0 /\ (a = me \/ a = n0)).
  { intros a. unfold g. destruct fwd; rewrite (node_add_edge _ irnode_eqb_spec); apply or_iff_compat_l; split.
    - intros Ha. exists x, n. cbn. tauto.
    - intros (x0 & n0 & [<-|[]] & N0 & Eq). rewrite (node_of_fun N0 N) in Eq. tauto.
    - intros Ha. exists x, n. cbn. tauto.
    - intros (x0 & n0 & [<-|[]] & N0 & Eq). rewrite (node_of_fun N0 N) in Eq. tauto. }
  assert (HW : wf (w_graph w) -> wf g) by (intros W; unfold g; destruct fwd; apply (wf_add_edge _ irnode_eqb_spec); exact W).
  destruct (memn x (w_queued w)) eqn:M; intros H; injection H as <-.
  - apply memn_spec in M. split; cbn; auto.
    + intros y [<-|[]]. exists n. exact N.
    + intros y. split; [auto|]. intros [H|[<-|[]]]; assumption.
    + intros y [H|[[<-|[]] H]]; [exact H|contradiction].
    + intros y [<-|[]]. exact L.
  - apply memn_false in M. split; cbn; auto.
    + intros y [<-|[]]. exists n. exact N.
    + intros y. split; [intros [<-|H]; auto|intros [H|[<-|[]]]; auto].
    + intros y [<-|H]; auto.
    + intros y [H|[[<-|[]] H]]; auto.
    + intros y [<-|[]]. exact L.
    + cbn [w_queue w_queued length]. rewrite <- (@filter_len_remove x (seq 0 (length h)) (w_queued w)).
      * cbn. lia.
      * apply seq_NoDup.
      * apply in_seq. lia.
      * exact M.
Qed.

Lemma link_all_spec h p fwd me l : forall w w', link_all h p fwd me w l = Ok w' -> link_effect h p fwd me l w w'.
Proof.
  induction l as [|x r IH]; intros w w' H; cbn in H.
  - injection H as <-. split; cbn; auto using extends_refl.
    + intros k n H; auto.
    + intros x [].
    + intros a b. split; [auto|]. intros [H|(x & n & [] & _)]; exact H.
    + intros a. split; [auto|]. intros [H|(x & n & [] & _)]; exact H.
    + tauto.
    + tauto.
    + intros x [].
  - destruct (link h p fwd me w x) as [w1|] eqn:E1; [|discriminate]. cbn in H.
    apply link_spec in E1. apply IH in H. destruct E1 as [X1 F1 N1 E1 V1 W1 Q1 U1 U1' L1 C1].
    destruct H as [X2 F2 N2 E2 V2 W2 Q2 U2 U2' L2 C2]. split.
    + eapply extends_trans; eassumption.
    + eapply fresh_trans; [eapply fresh_weak; [|exact F1]|eapply fresh_weak; [|exact F2]]; cbn; tauto.
    + intros y [<-|Hy]; [|auto]. destruct (N1 x (or_introl eq_refl)) as [n Hn]. exists n. solve [eauto using node_of_ext].
    + intros a b. rewrite E2, E1. split.
      * intros [[H|(y & n & Hy & Hn & Eq)]|(y & n & Hy & Hn & Eq)]; [auto| |].
        -- destruct Hy as [<-|[]]. right. exists x, n. split; [left; reflexivity|]. split; [solve [eauto using node_of_ext]|exact Eq].
        -- right. exists y, n. cbn. auto.
      * intros [H|(y & n & [<-|Hy] & Hn & Eq)]; [auto| |].
        -- left. right. destruct (N1 x (or_introl eq_refl)) as [n1 Hn1]. exists x, n1. split; [left; reflexivity|]. split; [exact Hn1|].
           rewrite (node_of_fun Hn (node_of_ext X2 Hn1)) in Eq. exact Eq.
        -- right. exists y, n. auto.
    + intros a. rewrite V2, V1. split.
      * intros [[H|(y & n & Hy & Hn & Eq)]|(y & n & Hy & Hn & Eq)]; [auto| |].
        -- destruct Hy as [<-|[]]. right. exists x, n. split; [left; reflexivity|]. split; [solve [eauto using node_of_ext]|exact Eq].
        -- right. exists y, n. cbn. auto.
      * intros [H|(y & n & [<-|Hy] & Hn & Eq)]; [auto| |].
        -- left. right. destruct (N1 x (or_introl eq_refl)) as [n1 Hn1]. exists x, n1. split; [left; reflexivity|]. split; [exact Hn1|].
           rewrite (node_of_fun Hn (node_of_ext X2 Hn1)) in Eq. exact Eq.
        -- right. exists y, n. auto.
    + auto.
    + intros y. rewrite Q2, Q1. cbn. tauto.
    + intros y H. apply U2 in H. destruct H as [H|[H H']].
      * apply U1 in H. cbn in *. tauto.
      * rewrite Q1 in H'. cbn in *. tauto.
    + intros y H. apply U2'. destruct H as [H|[[<-|H] H']].
      * left. apply U1'. auto.
      * left. apply U1'. cbn. auto.
      * destruct (Nat.eq_dec x y) as [<-|Hne]; [left; apply U1'; cbn; auto|]. right. split; [exact H|]. rewrite Q1. cbn. tauto.
    + intros y [<-|H]; [apply L1; left; reflexivity|auto].
    + rewrite C2. exact C1.
Qed.

(** Loop invariant; [dn] is the (ghost) list of objects already visited. *)
Record winv (h : list obj) (p : list string) (leaves : list nat) (d0 : dict irnode) (g0 : digraph irnode)
            (dn : list nat) (w : wst) : Prop := {
  wi_ext : extends d0 (w_nodes w);
  wi_fresh : fresh_from h p (needed h leaves) d0 (w_nodes w);
  wi_nodes : forall x, In x dn -> exists n, node_of h (w_nodes w) x n;
  wi_var : forall x, In x dn -> variable h x -> exists q o, node_of h (w_nodes w) x (NObj q o) /\ variable h o;
  wi_reach : forall x, In x (w_queued w) -> needed h leaves x;
  wi_leaves : forall x, In x leaves -> In x (w_queued w);
  wi_split : forall x, In x (w_queued w) <-> In x (w_queue w) \/ In x dn;
  wi_closed : forall x y, In x dn -> reads h x y \/ writes h x y -> In y (w_queued w);
  wi_edge : forall a b, edge (w_graph w) a b <-> edge g0 a b \/
     exists x y, ((In x dn /\ writes h x y) \/ (In y dn /\ reads h y x)) /\
       node_of h (w_nodes w) x a /\ node_of h (w_nodes w) y b;
  wi_vert : forall a, node (w_graph w) a <-> node g0 a \/
     exists x y, ((In x dn /\ writes h x y) \/ (In y dn /\ reads h y x)) /\
       (node_of h (w_nodes w) x a \/ node_of h (w_nodes w) y a);
  wi_adj : forall x y, (In x dn /\ writes h x y) \/ (In y dn /\ reads h y x) ->
     exists a b, node_of h (w_nodes w) x a /\ node_of h (w_nodes w) y b;
  wi_wf : wf (w_graph w)
}.

Definition wmeasure (h : list obj) (w : wst) : nat :=
  length (w_queue w) + length (filter (fun x => negb (memn x (w_queued w))) (seq 0 (length h))).

Lemma node_of_ext_inv h d d' x n m : extends d d' -> node_of h d x m -> node_of h d' x n -> node_of h d x n.
Proof. intros X H1 H2. rewrite (node_of_fun H2 (node_of_ext X H1)). exact H1. Qed.

Lemma visit_spec h p leaves d0 g0 dn w x r w' :
  w_queue w = x :: r ->
  winv h p leaves d0 g0 dn w ->
  visit h p (Wst (w_nodes w) (w_graph w) r (w_queued w)) x = Ok w' ->
  winv h p leaves d0 g0 (x :: dn) w' /\ S (wmeasure h w') = wmeasure h w.
Proof.
  intros Hq I H. unfold visit in H. cbn [w_nodes w_graph w_queue w_queued] in H.
  destruct (get_graph_node h p (w_nodes w) x) as [[d me]|] eqn:G; [|discriminate]. cbn [bind fst snd] in H.
  destruct (nth_error h x) as [ob|] eqn:Ex; [|discriminate].
  apply ggn_spec in G. destruct G as (X0 & NX & F0 & LX & VX).
  destruct (link_all h p false me _ (ob_deps ob)) as [w1|] eqn:L1; [|discriminate]. cbn [bind] in H.
  apply link_all_spec in L1. cbn [w_nodes w_graph w_queue w_queued] in *.
  (* uniform treatment of the optional second pass *)
  assert (L2 : link_effect h p true me (if is_op ob then ob_outs ob else []) w1 w').
  { destruct (is_op ob); [apply link_all_spec, H|]. injection H as <-.
    apply (@link_all_spec h p true me [] w1 w1). reflexivity. }
  clear H. set (os := if is_op ob then ob_outs ob else []) in *.
  assert (HR : forall y, reads h x y <-> In y (ob_deps ob)).
  { intros y. split; [intros (ob' & E' & Hy); congruence|intros Hy; exists ob; auto]. }
  assert (HW : forall y, writes h x y <-> In y os).
  { intros y. unfold os. split.
    - intros (ob' & E' & Ho & Hy). rewrite Ex in E'. injection E' as <-. rewrite Ho. exact Hy.
    - destruct (is_op ob) eqn:Ho; [|intros []]. intros Hy. exists ob. auto. }
  destruct L1 as [X1 F1 N1 E1 V1 W1 Q1 U1 U1' A1 C1]. destruct L2 as [X2 F2 N2 E2 V2 W2 Q2 U2 U2' A2 C2].
  cbn [w_nodes w_graph w_queue w_queued] in *.
  destruct I as [IX IF IN IVN IR IL IS IC IE IV IA IW].
  assert (XX : extends (w_nodes w) (w_nodes w')) by (eapply extends_trans; [exact X0|eapply extends_trans; eassumption]).
  assert (Xd : extends d (w_nodes w')) by (eapply extends_trans; eassumption).
  assert (NXF : node_of h (w_nodes w') x me) by (solve [eauto using node_of_ext]).
  assert (HxQ : In x (w_queued w)) by (apply IS; left; rewrite Hq; left; reflexivity).
  assert (Hx : needed h leaves x) by (apply IR, HxQ).
  assert (EE : forall a b, edge (w_graph w') a b <-> edge (w_graph w) a b \/
     (exists y, writes h x y /\ node_of h (w_nodes w') x a /\ node_of h (w_nodes w') y b) \/
     (exists y, reads h x y /\ node_of h (w_nodes w') y a /\ node_of h (w_nodes w') x b)).
  { intros a b. rewrite E2, E1. cbn [linked]. split.
    - intros [[H|(y & n & Hy & Hn & Eq)]|(y & n & Hy & Hn & Eq)]; [auto| |].
      + injection Eq as -> ->. right. right. exists y. rewrite HR. split; [exact Hy|]. split; [solve [eauto using node_of_ext]|exact NXF].
      + injection Eq as -> ->. right. left. exists y. rewrite HW. auto.
    - intros [H|[(y & Hy & Ha & Hb)|(y & Hy & Ha & Hb)]]; [auto| |].
      + right. apply HW in Hy. exists y, b. split; [exact Hy|]. split; [exact Hb|]. rewrite (node_of_fun Ha NXF). reflexivity.
      + left. right. apply HR in Hy. destruct (N1 y Hy) as [n Hn]. exists y, n. split; [exact Hy|]. split; [exact Hn|].
        rewrite (node_of_fun Hb NXF). rewrite (node_of_fun Ha (node_of_ext X2 Hn)). reflexivity. }
  assert (VV : forall a, node (w_graph w') a <-> node (w_graph w) a \/
     (exists y, (writes h x y \/ reads h x y) /\ (node_of h (w_nodes w') x a \/ node_of h (w_nodes w') y a))).
  { intros a. rewrite V2, V1. split.
    - intros [[H|(y & n & Hy & Hn & Eq)]|(y & n & Hy & Hn & Eq)]; [auto| |].
      + right. exists y. rewrite HR. split; [auto|]. destruct Eq as [->| ->]; [auto|]. right. solve [eauto using node_of_ext].
      + right. exists y. rewrite HW. split; [auto|]. destruct Eq as [->| ->]; auto.
    - intros [H|(y & Hy & Ha)]; [auto|].
      destruct Hy as [Hy|Hy].
      + right. apply HW in Hy. destruct (N2 y Hy) as [n Hn]. exists y, n. split; [exact Hy|]. split; [exact Hn|].
        destruct Ha as [Ha|Ha]; [left; exact (node_of_fun Ha NXF)|right; exact (node_of_fun Ha Hn)].
      + left. right. apply HR in Hy. destruct (N1 y Hy) as [n Hn]. exists y, n. split; [exact Hy|]. split; [exact Hn|].
        destruct Ha as [Ha|Ha]; [left; exact (node_of_fun Ha NXF)|right; exact (node_of_fun Ha (node_of_ext X2 Hn))]. }
  assert (QQ : forall y, In y (w_queued w') <-> In y (w_queued w) \/ reads h x y \/ writes h x y).
  { intros y. rewrite Q2, Q1, HR, HW. tauto. }
  split; [split|].
  - eapply extends_trans; eassumption.
  - eapply fresh_trans; [exact IF|]. eapply fresh_trans; [eapply fresh_weak; [|exact F0]|].
    + intros o <-. exact Hx.
    + eapply fresh_trans; [eapply fresh_weak; [|exact F1]|eapply fresh_weak; [|exact F2]].
      * intros o Ho. eapply needed_dep; [exact Hx|apply HR, Ho].
      * intros o Ho. eapply needed_out; [exact Hx|apply HW, Ho].
  - intros y [<-|Hy]; [eauto|]. destruct (IN y Hy) as [n Hn]. exists n. solve [eauto using node_of_ext].
  - intros y [<-|Hy] Vy.
    + destruct (VX Vy) as (q & o & -> & Vo). exists q, o. auto.
    + destruct (IVN y Hy Vy) as (q & o & No & Vo). exists q, o. eauto using node_of_ext.
  - intros y Hy. apply QQ in Hy. destruct Hy as [Hy|[Hy|Hy]]; [auto|eapply needed_dep; eassumption|eapply needed_out; eassumption].
  - intros y Hy. apply QQ. auto.
  - intros y. rewrite QQ. split.
    + intros [Hy|Hy].
      * apply IS in Hy. rewrite Hq in Hy. cbn in Hy. destruct Hy as [[Hy|Hy]|Hy]; [right; left; exact Hy| |right; right; exact Hy].
        left. apply U2'. left. apply U1'. left. exact Hy.
      * destruct (memn y (w_queued w)) eqn:M.
        -- apply memn_spec in M. apply IS in M. rewrite Hq in M. cbn in M. destruct M as [[M|M]|M]; [right; left; exact M| |right; right; exact M].
           left. apply U2'. left. apply U1'. left. exact M.
        -- apply memn_false in M. left. apply U2'. rewrite HR, HW in Hy.
           destruct (in_dec Nat.eq_dec y (ob_deps ob)) as [Hd|Hd]; [left; apply U1'; auto|].
           right. destruct Hy as [Hy|Hy]; [contradiction|]. split; [exact Hy|]. rewrite Q1. tauto.
    + intros [Hy|[<-|Hy]].
      * apply U2 in Hy. destruct Hy as [Hy|[Hy _]]; [|right; right; apply HW, Hy]. apply U1 in Hy.
        destruct Hy as [Hy|[Hy _]]; [|right; left; apply HR, Hy]. left. apply IS. rewrite Hq. cbn. auto.
      * auto.
      * left. apply IS. auto.
  - intros y z [<-|Hy] Hz; apply QQ; [auto|]. left. eapply IC; eassumption.
  - intros a b. rewrite EE, IE. split.
    + intros [[H|(u & v & Huv & Ha & Hb)]|[(y & Hy & Ha & Hb)|(y & Hy & Ha & Hb)]]; [auto| | |].
      * right. exists u, v. split; [destruct Huv as [[? ?]|[? ?]]; [left|right]; cbn; auto|]. split; solve [eauto using node_of_ext].
      * right. exists x, y. split; [left; cbn; auto|auto].
      * right. exists y, x. split; [right; cbn; auto|auto].
    + intros [H|(u & v & Huv & Ha & Hb)]; [auto|].
      assert (Hold : (In u dn /\ writes h u v) \/ (In v dn /\ reads h v u) ->
        node_of h (w_nodes w) u a /\ node_of h (w_nodes w) v b).
      { intros Ho. destruct (IA u v Ho) as (a' & b' & Ha' & Hb').
        split; solve [eauto using node_of_ext_inv]. }
      destruct Huv as [[[<-|Hu] Huv]|[[<-|Hv] Huv]].
      * right. left. exists v. auto.
      * left. right. exists u, v. split; [left; auto|apply Hold; left; auto].
      * right. right. exists u. auto.
      * left. right. exists u, v. split; [right; auto|apply Hold; right; auto].
  - intros a. rewrite VV, IV. split.
    + intros [[H|(u & v & Huv & Ha)]|(y & Hy & Ha)]; [auto| |].
      * right. exists u, v. split; [destruct Huv as [[? ?]|[? ?]]; [left|right]; cbn; auto|]. destruct Ha; [left|right]; solve [eauto using node_of_ext].
      * destruct Hy as [Hy|Hy]; right.
        -- exists x, y. split; [left; cbn; auto|exact Ha].
        -- exists y, x. split; [right; cbn; auto|tauto].
    + intros [H|(u & v & Huv & Ha)]; [auto|].
      assert (Hold : (In u dn /\ writes h u v) \/ (In v dn /\ reads h v u) ->
        node_of h (w_nodes w) u a \/ node_of h (w_nodes w) v a).
      { intros Ho. destruct (IA u v Ho) as (a' & b' & Ha' & Hb').
        destruct Ha as [Ha|Ha]; [left|right]; solve [eauto using node_of_ext_inv]. }
      destruct Huv as [[[<-|Hu] Huv]|[[<-|Hv] Huv]].
      * right. exists v. split; [left; exact Huv|exact Ha].
      * left. right. exists u, v. split; [left; auto|apply Hold; left; auto].
      * right. exists u. split; [right; exact Huv|tauto].
      * left. right. exists u, v. split; [right; auto|apply Hold; right; auto].
  - intros u v Huv.
    assert (Hold : (In u dn /\ writes h u v) \/ (In v dn /\ reads h v u) ->
        exists a b, node_of h (w_nodes w') u a /\ node_of h (w_nodes w') v b).
    { intros Ho. destruct (IA u v Ho) as (a' & b' & Ha' & Hb'). exists a', b'. split; solve [eauto using node_of_ext]. }
    destruct Huv as [[[<-|Hu] Huv]|[[<-|Hv] Huv]]; auto.
    + apply HW in Huv. destruct (N2 v Huv) as [n Hn]. exists me, n. auto.
    + apply HR in Huv. destruct (N1 u Huv) as [n Hn]. exists n, me. split; [solve [eauto using node_of_ext]|exact NXF].
  - apply W2, W1, IW.
  - unfold wmeasure. rewrite C2, C1, Hq. reflexivity.
Qed.

Lemma wloop_spec h p leaves d0 g0 fuel : forall dn w,
  winv h p leaves d0 g0 dn w -> wmeasure h w <= fuel ->
  exists r, wloop h p fuel w = Some r /\
    forall w', r = Ok w' -> exists dn', winv h p leaves d0 g0 dn' w' /\ w_queue w' = [].
Proof.
  induction fuel as [|f IH]; intros dn w I M.
  - unfold wmeasure in M. destruct (w_queue w) eqn:Q; [|cbn in M; lia]. cbn. rewrite Q. eexists. split; [reflexivity|].
    intros w' E. injection E as <-. exists dn. auto.
  - cbn. destruct (w_queue w) as [|x r] eqn:Q.
    + eexists. split; [reflexivity|]. intros w' E. injection E as <-. exists dn. auto.
    + destruct (visit h p _ x) as [w1|e] eqn:V.
      * destruct (visit_spec Q I V) as [I1 M1]. apply (IH (x :: dn) w1 I1). lia.
      * eexists. split; [reflexivity|]. intros w' E; discriminate.
Qed.

Lemma winv_init h p leaves d0 g0 : wf g0 -> winv h p leaves d0 g0 [] (Wst d0 g0 (rev leaves) leaves).
Proof.
  intros W. split; cbn [w_nodes w_graph w_queue w_queued]; auto using extends_refl.
  - intros k n H; auto.
  - intros x [].
  - intros x [].
  - intros x. apply needed_leaf.
  - intros x. rewrite <- in_rev. cbn. tauto.
  - intros x y [].
  - intros a b. split; [auto|]. intros [H|(x & y & [[[] _]|[[] _]] & _)]. exact H.
  - intros a. split; [auto|]. intros [H|(x & y & [[[] _]|[[] _]] & _)]. exact H.
  - intros x y [[[] _]|[[] _]].
Qed.

Lemma filter_length_le {A} (f : A -> bool) l : length (filter f l) <= length l.
Proof. induction l as [|x r IH]; cbn; [lia|]. destruct (f x); cbn; lia. Qed.

(** The traversal terminates, and on success the graph is the image of the data flow among
    the needed objects under a map from names to nodes. *)
Theorem construct_spec h p d0 g0 leaves : wf g0 ->
  exists r, construct_this_model h p d0 g0 leaves = Some r /\
  forall w, r = Ok w ->
    wf (w_graph w) /\ extends d0 (w_nodes w) /\ fresh_from h p (needed h leaves) d0 (w_nodes w) /\
    (forall x, needed h leaves x -> exists n, node_of h (w_nodes w) x n) /\
    (forall x, needed h leaves x -> variable h x -> exists q o, node_of h (w_nodes w) x (NObj q o) /\ variable h o) /\
    (forall a b, edge (w_graph w) a b <-> edge g0 a b \/
       exists x y, needed h leaves x /\ needed h leaves y /\ flows h x y /\
         node_of h (w_nodes w) x a /\ node_of h (w_nodes w) y b) /\
    (forall a, node (w_graph w) a <-> node g0 a \/
       exists x y, needed h leaves x /\ needed h leaves y /\ flows h x y /\
         (node_of h (w_nodes w) x a \/ node_of h (w_nodes w) y a)).
Proof.
  intros W. unfold construct_this_model.
  destruct (@wloop_spec h p leaves d0 g0 (length leaves + length h) [] _ (winv_init h p leaves d0 W)) as (r & E & H).
  { unfold wmeasure. cbn [w_queue w_queued]. rewrite rev_length.
    pose proof (filter_length_le (fun x => negb (memn x leaves)) (seq 0 (length h))) as L. rewrite seq_length in L. lia. }
  exists r. split; [exact E|]. intros w Hr. destruct (H w Hr) as (dn & I & Q). clear H.
  destruct I as [IX IF IN IVN IR IL IS IC IE IV IA IW].
  assert (D : forall x, In x (w_queued w) <-> In x dn) by (intros x; rewrite IS, Q; cbn; tauto).
  assert (ND : forall x, needed h leaves x <-> In x dn).
  { intros x. split.
    - intros Hx. induction Hx as [x Hx|x y _ Hx Hy|x y _ Hx Hy]; apply D.
      + apply IL, Hx.
      + eapply IC; eauto.
      + eapply IC; eauto.
    - intros Hx. apply IR, D, Hx. }
  assert (FL : forall x y, (needed h leaves x /\ needed h leaves y /\ flows h x y) <->
                (In x dn /\ writes h x y) \/ (In y dn /\ reads h y x)).
  { intros x y. rewrite !ND. unfold flows. split.
    - intros (Hx & Hy & [H|H]); auto.
    - intros [[Hx H]|[Hy H]].
      + split; [exact Hx|]. split; [apply D; eapply IC; eauto|auto].
      + split; [apply D; eapply IC; eauto|auto]. }
  split; [exact IW|]. split; [exact IX|]. split; [exact IF|]. split; [intros x Hx; apply IN, ND, Hx|]. split; [intros x Hx; apply IVN, ND, Hx|]. split.
  - intros a b. rewrite IE. apply or_iff_compat_l. split.
    + intros (x & y & H & Ha & Hb). apply FL in H. exists x, y. tauto.
    + intros (x & y & H1 & H2 & H3 & Ha & Hb). exists x, y. split; [apply FL; auto|auto].
  - intros a. rewrite IV. apply or_iff_compat_l. split.
    + intros (x & y & H & Ha). apply FL in H. exists x, y. tauto.
    + intros (x & y & H1 & H2 & H3 & Ha). exists x, y. split; [apply FL; auto|auto].
Qed.
