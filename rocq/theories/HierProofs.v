From Verif Require Import PyBase NamesModel NamesProofs PromotionsModel PromotionsSpec
  PromotionsProofs PromotionsProofs2 HierModel HierSpec.

(** *** Traversals *)
Lemma postorder_unfold m : postorder m =
  flat_map (fun t => map (fun pm => (fst (fst t) :: fst pm, snd pm)) (postorder (snd t))) (m_subs m) ++ [([], m)].
Proof. destruct m; reflexivity. Qed.
Lemma preorder_unfold m : preorder m =
  ([], m) :: flat_map (fun t => map (fun pm => (fst (fst t) :: fst pm, snd pm)) (preorder (snd t))) (m_subs m).
Proof. destruct m; reflexivity. Qed.

Lemma sub_at_nil m m' : sub_at m [] m' -> m' = m.
Proof. intros H. inversion H. reflexivity. Qed.
Lemma sub_at_cons m nm p m' : sub_at m (nm :: p) m' <-> exists pr sm, In (nm, pr, sm) (m_subs m) /\ sub_at sm p m'.
Proof.
  split.
  - intros H. inversion H; subst. eauto.
  - intros (pr & sm & H1 & H2). econstructor; eassumption.
Qed.
Lemma sub_at_app m p m1 q m2 : sub_at m p m1 -> sub_at m1 q m2 -> sub_at m (p ++ q) m2.
Proof. intros H. induction H as [m|m nm pr sm p m1 Hi Hs IH]; intros H2; [exact H2|]. econstructor; [exact Hi|auto]. Qed.

Lemma postorder_spec m p m' : In (p, m') (postorder m) <-> sub_at m p m'.
Proof.
  revert p m'. induction m as [m IH] using model_ind'. intros p m'.
  rewrite postorder_unfold, in_app_iff, in_flat_map. split.
  - intros [([[nm pr] sm] & Hi & Hm)|[E|[]]].
    + cbn [fst snd] in Hm. apply in_map_iff in Hm. destruct Hm as ([p1 m1] & E & Hp). injection E as <- <-.
      econstructor; [exact Hi|]. apply (IH _ _ _ Hi). exact Hp.
    + injection E as <- <-. constructor.
  - intros H. destruct p as [|nm p].
    + apply sub_at_nil in H. subst. right. left. reflexivity.
    + apply sub_at_cons in H. destruct H as (pr & sm & Hi & Hs). left. exists (nm, pr, sm). split; [exact Hi|].
      cbn [fst snd]. apply in_map_iff. exists (p, m'). split; [reflexivity|]. apply (IH _ _ _ Hi), Hs.
Qed.

Lemma preorder_spec m p m' : In (p, m') (preorder m) <-> sub_at m p m'.
Proof.
  revert p m'. induction m as [m IH] using model_ind'. intros p m'.
  rewrite preorder_unfold. cbn [In]. rewrite in_flat_map. split.
  - intros [E|([[nm pr] sm] & Hi & Hm)].
    + injection E as <- <-. constructor.
    + cbn [fst snd] in Hm. apply in_map_iff in Hm. destruct Hm as ([p1 m1] & E & Hp). injection E as <- <-.
      econstructor; [exact Hi|]. apply (IH _ _ _ Hi). exact Hp.
  - intros H. destruct p as [|nm p].
    + apply sub_at_nil in H. subst. left. reflexivity.
    + apply sub_at_cons in H. destruct H as (pr & sm & Hi & Hs). right. exists (nm, pr, sm). split; [exact Hi|].
      cbn [fst snd]. apply in_map_iff. exists (p, m'). split; [reflexivity|]. apply (IH _ _ _ Hi), Hs.
Qed.

Lemma before_map {A B} (f : A -> B) x y l : before x y l -> before (f x) (f y) (map f l).
Proof.
  intros (a & b & c & ->). exists (map f a), (map f b), (map f c).
  rewrite map_app. cbn [map]. rewrite map_app. reflexivity.
Qed.
Lemma before_app_l {A} (x y : A) l l' : before x y l -> before x y (l ++ l').
Proof.
  intros (a & b & c & ->). exists a, b, (c ++ l'). rewrite <- app_assoc. cbn [app]. rewrite <- app_assoc. reflexivity.
Qed.
Lemma before_app_r {A} (x y : A) l l' : before x y l -> before x y (l' ++ l).
Proof. intros (a & b & c & ->). exists (l' ++ a), b, c. rewrite app_assoc. reflexivity. Qed.
Lemma before_flat_map {A B} (f : A -> list B) x y t l : In t l -> before x y (f t) -> before x y (flat_map f l).
Proof.
  induction l as [|u l IH]; intros Hi H; [destruct Hi|]. cbn [flat_map]. destruct Hi as [->|Hi].
  - apply before_app_l, H.
  - apply before_app_r. auto.
Qed.

Lemma children_first m p m' t m'' : sub_at m p m' -> sub_at m' t m'' -> t <> [] ->
  before (p ++ t, m'') (p, m') (postorder m).
Proof.
  intros H. revert t m''. induction H as [m|m nm pr sm p m' Hi Hs IH]; intros t m'' H2 Ht.
  - apply postorder_spec in H2. rewrite postorder_unfold in H2 |- *. apply in_app_iff in H2.
    destruct H2 as [H2|[E|[]]]; [|injection E as <- _; congruence].
    apply in_split in H2. destruct H2 as (a & b & ->). exists a, b, []. rewrite <- app_assoc. reflexivity.
  - rewrite postorder_unfold. apply before_app_l. apply (before_flat_map _ _ _ (nm, pr, sm) _ Hi). cbn [fst snd].
    apply (before_map (fun pm => (nm :: fst pm, snd pm)) (p ++ t, m'') (p, m')). apply IH; assumption.
Qed.

(** *** Namespaces *)
Definition ns_join (ns : string) (p : list string) : string := fold_left prepend_namespace p ns.

Lemma concat_cons (n : string) (p : list string) : p <> [] -> String.concat "." (n :: p) = (n ++ "." ++ String.concat "." p)%string.
Proof. destruct p; [congruence|reflexivity]. Qed.

Lemma append_assoc (a b c : string) : ((a ++ b) ++ c = a ++ (b ++ c))%string.
Proof. induction a as [|x a IH]; cbn; [reflexivity|]. rewrite IH. reflexivity. Qed.

Lemma concat_app p q : p <> [] -> q <> [] ->
  String.concat "." (p ++ q) = (String.concat "." p ++ "." ++ String.concat "." q)%string.
Proof.
  intros Hp Hq. induction p as [|n p IH]; [congruence|]. destruct p as [|n' p].
  - cbn [app]. apply concat_cons, Hq.
  - change ((n :: n' :: p) ++ q) with (n :: ((n' :: p) ++ q)). rewrite concat_cons by (destruct p; discriminate).
    rewrite IH by discriminate. rewrite (concat_cons n (n' :: p)) by discriminate.
    rewrite !append_assoc. reflexivity.
Qed.

Lemma append_nonempty a b : a <> ""%string -> (a ++ b)%string <> ""%string.
Proof. destruct a; [congruence|discriminate]. Qed.

Lemma ns_of_nonempty p : p <> [] -> Forall (fun n => n <> ""%string) p -> ns_of p <> ""%string.
Proof.
  unfold ns_of. intros Hp H. destruct p as [|n p]; [congruence|]. inversion H; subst.
  destruct p as [|n' p]; [assumption|]. rewrite concat_cons by discriminate. apply append_nonempty. assumption.
Qed.

Lemma prepend_ns_of p n : Forall (fun n => n <> ""%string) p -> prepend_namespace (ns_of p) n = dotted p n.
Proof.
  intros H. unfold dotted. destruct p as [|n' p]; [reflexivity|].
  rewrite prepend_nonempty by (apply ns_of_nonempty; [discriminate|exact H]).
  rewrite concat_app by discriminate. reflexivity.
Qed.

Lemma ns_join_of p q : Forall (fun n => n <> ""%string) (p ++ q) -> ns_join (ns_of p) q = ns_of (p ++ q).
Proof.
  revert p. induction q as [|n q IH]; intros p H; [rewrite app_nil_r; reflexivity|].
  cbn [ns_join fold_left]. rewrite prepend_ns_of by (eapply Forall_prefix; exact H).
  change (dotted p n) with (ns_of (p ++ [n])). specialize (IH (p ++ [n])). rewrite <- app_assoc in IH. apply IH, H.
Qed.

Lemma sub_at_names m p m' : well_named m -> sub_at m p m' ->
  Forall (fun n => has_dot n = false /\ n <> ""%string) p.
Proof.
  intros W H. induction H as [m|m nm pr sm p m' Hi Hs IH]; constructor.
  - destruct (W [] m (sub_here m)) as (_ & Hn & _). eapply Hn; exact Hi.
  - apply IH. eapply well_named_sub; eassumption.
Qed.
Lemma names_nonempty p : Forall (fun n => has_dot n = false /\ n <> ""%string) p -> Forall (fun n => n <> ""%string) p.
Proof. apply Forall_impl. tauto. Qed.

Lemma dotted_app p q x : Forall (fun n => n <> ""%string) p -> dotted p (dotted q x) = dotted (p ++ q) x.
Proof.
  intros H. rewrite <- prepend_ns_of by exact H. destruct p as [|n p]; [reflexivity|].
  rewrite prepend_nonempty by (apply ns_of_nonempty; [discriminate|exact H]).
  unfold dotted, ns_of. rewrite <- app_assoc. symmetry. apply concat_app; [discriminate|destruct q; discriminate].
Qed.

(** *** Connections *)
Lemma flat_map_flat_map {A B C} (f : A -> list B) (g : B -> list C) l :
  flat_map g (flat_map f l) = flat_map (fun a => flat_map g (f a)) l.
Proof. induction l as [|a l IH]; [reflexivity|]. cbn [flat_map]. rewrite flat_map_app, IH. reflexivity. Qed.
Lemma flat_map_map {A B C} (f : A -> B) (g : B -> list C) l : flat_map g (map f l) = flat_map (fun a => g (f a)) l.
Proof. induction l as [|a l IH]; [reflexivity|]. cbn. rewrite IH. reflexivity. Qed.

Definition conns_at (ns : string) (pm : list string * model) : list (string * string * string) :=
  map (fun ab => (fst ab, snd ab, ns_join ns (fst pm))) (m_conns (snd pm)).

Lemma collect_connections_unfold m ns : collect_connections m ns =
  flat_map (fun t => collect_connections (snd t) (prepend_namespace ns (fst (fst t)))) (m_subs m)
  ++ map (fun ab => (fst ab, snd ab, ns)) (m_conns m).
Proof.
  destruct m as [i o d c v k b subs]. cbn [collect_connections m_subs m_conns]. f_equal.
  induction subs as [|[[nm pr] sm] r IH]; [reflexivity|]. cbn [flat_map fst snd]. rewrite <- IH. reflexivity.
Qed.

Lemma collect_connections_eq m ns : collect_connections m ns = flat_map (conns_at ns) (postorder m).
Proof.
  revert ns. induction m as [m IH] using model_ind'. intros ns.
  rewrite collect_connections_unfold, postorder_unfold, flat_map_app. f_equal.
  - rewrite flat_map_flat_map. assert (Hin : incl (m_subs m) (m_subs m)) by apply incl_refl. revert Hin.
    generalize (m_subs m) at 1 3 4. intros l Hin. induction l as [|[[nm pr] sm] r IHr]; [reflexivity|].
    cbn [flat_map fst snd]. rewrite IHr by (intros t Ht; apply Hin; right; exact Ht).
    rewrite (IH _ _ _ (Hin _ (or_introl eq_refl))), flat_map_map. reflexivity.
  - cbn [flat_map conns_at fst snd ns_join fold_left]. rewrite app_nil_r. reflexivity.
Qed.

Lemma collected m : well_named m -> collect_connections m "" =
  flat_map (fun pm => map (fun ab => (fst ab, snd ab, ns_of (fst pm))) (m_conns (snd pm))) (postorder m).
Proof.
  intros W. rewrite collect_connections_eq. 
  assert (H : forall pm, In pm (postorder m) -> conns_at "" pm = map (fun ab => (fst ab, snd ab, ns_of (fst pm))) (m_conns (snd pm))).
  { intros [p m'] Hi. apply postorder_spec in Hi. unfold conns_at. cbn [fst snd].
    change ""%string with (ns_of []). rewrite (ns_join_of [] p) by (apply names_nonempty; eapply sub_at_names; eassumption). reflexivity. }
  revert H. generalize (postorder m). intros l. induction l as [|pm l IH]; intros H; [reflexivity|].
  cbn [flat_map]. rewrite H by (left; reflexivity). rewrite IH by (intros pm' Hi; apply H; right; exact Hi). reflexivity.
Qed.

Lemma pair_eqb_spec p q : pair_eqb p q = true <-> p = q.
Proof.
  destruct p as [a b], q as [c d]. unfold pair_eqb. cbn. rewrite andb_true_iff, !String.eqb_eq.
  split; [intros [-> ->]; reflexivity|intros E; injection E; auto].
Qed.
Lemma pmem_spec p l : pmem p l = true <-> In p l.
Proof.
  induction l as [|q l IH]; cbn; [split; [discriminate|tauto]|]. rewrite orb_true_iff, pair_eqb_spec, IH.
  split; intros [H|H]; auto.
Qed.
Lemma pmem_false p l : pmem p l = false <-> ~ In p l.
Proof. rewrite <- pmem_spec. destruct (pmem p l); split; intros; congruence. Qed.

Definition fk_step (acc : list (string * string)) x := if pmem x acc then acc else acc ++ [x].
Lemma fk_fold l acc : NoDup acc -> NoDup (fold_left fk_step l acc) /\
  (exists t, fold_left fk_step l acc = acc ++ t) /\
  (forall x, In x (fold_left fk_step l acc) <-> In x acc \/ In x l).
Proof.
  revert acc. induction l as [|y l IH]; intros acc HN; cbn [fold_left].
  - split; [exact HN|]. split; [exists []; rewrite app_nil_r; reflexivity|]. intros x. cbn. tauto.
  - assert (HN' : NoDup (fk_step acc y)).
    { unfold fk_step. destruct (pmem y acc) eqn:E; [exact HN|]. apply NoDup_app_single; [exact HN|apply pmem_false, E]. }
    destruct (IH _ HN') as (H1 & [t Ht] & H3). split; [exact H1|]. split.
    + rewrite Ht. unfold fk_step. destruct (pmem y acc); [eauto|]. exists (y :: t). rewrite <- app_assoc. reflexivity.
    + intros x. rewrite H3. unfold fk_step. destruct (pmem y acc) eqn:E.
      * apply pmem_spec in E. cbn. split; [tauto|intros [H|[<-|H]]; auto].
      * rewrite in_app_iff. cbn. tauto.
Qed.

Lemma fromkeys_spec l : NoDup (fromkeys l) /\ (forall x, In x (fromkeys l) <-> In x l) /\
  (forall x y l1 l2, l = l1 ++ y :: l2 -> ~ In y l1 -> before x y (fromkeys l) -> In x l1).
Proof.
  change (fromkeys l) with (fold_left fk_step l []).
  destruct (fk_fold l [] (NoDup_nil _)) as (H1 & _ & H3). split; [exact H1|]. split; [intros x; rewrite H3; cbn; tauto|].
  intros x y l1 l2 -> Hy (a & b & c & E). rewrite fold_left_app in E. cbn [fold_left] in E.
  destruct (fk_fold l1 [] (NoDup_nil _)) as (G1 & _ & G3). set (A := fold_left fk_step l1 []) in *.
  assert (HyA : ~ In y A) by (rewrite G3; cbn; tauto).
  assert (Es : fk_step A y = A ++ [y]) by (unfold fk_step; apply pmem_false in HyA; rewrite HyA; reflexivity).
  rewrite Es in E. rewrite fold_left_app in H1. cbn [fold_left] in H1. fold A in H1. rewrite Es in H1.
  destruct (fk_fold l2 _ (NoDup_app_single _ G1 HyA)) as (_ & [t Ht] & _). rewrite Ht in E, H1. clear Ht Es.
  rewrite <- app_assoc in E, H1. cbn [app] in E, H1.
  assert (EA : A = a ++ x :: b).
  { rewrite E in H1. revert E H1. clear. intros E H1.
    change (a ++ x :: b ++ y :: c) with (a ++ (x :: b) ++ y :: c) in E, H1. rewrite app_assoc in E, H1.
    revert E H1. generalize (a ++ x :: b). intros B. revert B. induction A as [|z A IH]; intros B E H1.
    - destruct B as [|w B]; [reflexivity|]. injection E as <- E. exfalso. inversion H1 as [|? ? N _]; subst.
      apply N. rewrite in_app_iff. right. left. reflexivity.
    - destruct B as [|w B]; cbn in E; injection E as -> E.
      + exfalso. cbn in H1. inversion H1 as [|? ? N _]. apply N. rewrite <- E, in_app_iff. right. left. reflexivity.
      + f_equal. apply IH; [exact E|]. inversion H1; assumption. }
  assert (HxA : In x A) by (rewrite EA, in_app_iff; right; left; reflexivity).
  rewrite G3 in HxA. destruct HxA as [[]|HxA]. exact HxA.
Qed.

(** *** The maps of a resolved hierarchy *)
Definition filled (d : dict (list string)) : Prop := forall k l, In (k, l) d -> l <> [].

Lemma In_dset' {V} (d : dict V) k v x w : In (x, w) (dset d k v) -> w = v \/ In (x, w) d.
Proof.
  induction d as [|[k' v'] d IH]; cbn [dset].
  - intros [E|[]]. injection E as <- <-. auto.
  - destruct (String.eqb k k').
    + intros [E|H]; [injection E as <- <-; auto|right; right; exact H].
    + intros [E|H]; [right; left; exact E|]. destruct (IH H) as [?|?]; [auto|right; right; assumption].
Qed.
Lemma filled_dset d k v : filled d -> v <> [] -> filled (dset d k v).
Proof. intros H Hv x w Hi. apply In_dset' in Hi. destruct Hi as [->|Hi]; [exact Hv|eapply H; exact Hi]. Qed.
Lemma sunion_nonempty a b : a <> [] -> sunion a b <> [].
Proof.
  unfold sunion. revert a. induction b as [|x b IH]; intros a H; [exact H|]. cbn [fold_left]. apply IH.
  unfold sadd. destruct (smem x a); [exact H|]. destruct a; discriminate.
Qed.
Lemma filled_merge items p : filled items -> filled p -> filled (merge_names p items).
Proof.
  unfold merge_names. revert p. induction items as [|[k v] items IH]; intros p Hi Hp; [exact Hp|].
  cbn [fold_left fst snd]. assert (Hv : v <> []) by (apply (Hi k v); left; reflexivity).
  apply IH; [intros k' l' H'; apply (Hi k' l'); right; exact H'|].
  destruct (dget p k) as [old|] eqn:E; apply filled_dset; try assumption.
  apply sunion_nonempty. apply dget_In in E. eapply Hp; exact E.
Qed.
Lemma filled_dict_of ps : filled ps -> filled (dict_of ps).
Proof.
  unfold dict_of, dupdate. intros H. assert (G : filled []) by (intros k l []). revert G. generalize (@nil (string * list string)).
  revert H. induction ps as [|[k v] ps IH]; intros H d Hd; [exact Hd|]. cbn [fold_left fst snd].
  apply IH; [intros k' l' H'; apply (H k' l'); right; exact H'|]. apply filled_dset; [exact Hd|]. apply (H k v). left. reflexivity.
Qed.
Lemma filled_ddel d k : filled d -> filled (ddel d k).
Proof.
  intros H x l Hi. apply (H x). revert Hi. clear H. induction d as [|[k' v'] d IH]; cbn [ddel]; [tauto|].
  destruct (String.eqb k k'); cbn; tauto.
Qed.
Lemma filled_fold_ddel {W} (keep : dict W) (f : string -> string) d : filled d ->
  filled (fold_left (fun d kv => ddel d (f (fst kv))) keep d).
Proof. revert d. induction keep as [|kv keep IH]; intros d H; [exact H|]. cbn. apply IH, filled_ddel, H. Qed.
Lemma filled_filter f d : filled d -> filled (filter f d).
Proof. intros H k l Hi. apply filter_In in Hi. eapply H, Hi. Qed.

Lemma filled_merge_child ns p c p' : filled (c_p2u c) -> filled p -> merge_child ns p c = Ok p' -> filled p'.
Proof.
  intros Hc Hp H. unfold merge_child in H. apply raise_if_Ok in H. destruct H as [_ H]. inv_bind H.
  apply raise_if_Ok in H. destruct H as [_ H]. injection H as <-.
  assert (F1 : filled (map (fun kv => (fst kv, map (prepend_namespace (c_name c)) (snd kv))) (c_p2u c))).
  { intros k l Hi. apply in_map_iff in Hi. destruct Hi as ([k' l'] & E' & Hi). injection E' as <- <-.
    specialize (Hc _ _ Hi). cbn. destruct l'; [congruence|discriminate]. }
  assert (F2 : filled (dict_of (map (fun kv => (prepend_namespace (c_name c) (fst kv), map (prepend_namespace (c_name c)) (snd kv))) (c_p2u c)))).
  { apply filled_dict_of. intros k l Hi. apply in_map_iff in Hi. destruct Hi as ([k' l'] & E' & Hi). injection E' as <- <-.
    specialize (Hc _ _ Hi). cbn. destruct l'; [congruence|discriminate]. }
  assert (F : filled (fst a) /\ filled (snd a)).
  { destruct (c_prom c) as [[|x l]|].
    - injection E as <-. split; [intros k l []|exact F2].
    - destruct (existsb _ _) in E; [discriminate|]. injection E as <-. split; [apply filled_filter, F1|apply filled_fold_ddel, F2].
    - injection E as <-. split; [apply filled_filter, F1|apply filled_fold_ddel, F2]. }
  apply filled_merge; [apply F|]. apply filled_merge; [apply F|exact Hp].
Qed.

Lemma filled_p2u m pr r : resolve m pr = Ok r -> filled (rp_p2u r).
Proof.
  revert pr r. induction m as [m IH] using model_ind'. intros pr r H.
  apply resolve_inv in H. destruct H as (csrc & ctgt & cs & Hch & _ & _ & _ & _ & _ & _ & Hm).
  apply resolve_children_spec in Hch. destruct Hch as (Hc & _).
  assert (F0 : filled (p2u_local m)).
  { assert (G : forall ks d, filled d -> filled (fold_left (fun d k => dset d k [k]) ks d)).
    { induction ks as [|k ks IHk]; intros d Hd; [exact Hd|]. cbn. apply IHk, filled_dset; [exact Hd|discriminate]. }
    unfold p2u_local. apply G, G. intros k l []. }
  revert Hm. generalize (p2u_local m) F0. revert Hc. generalize (dkeys (dupdate (local_sources m) csrc) ++ dkeys (dupdate (local_targets m) ctgt)).
  intros ns. induction cs as [|c cs IHc]; intros Hc p Hp Hm; cbn [merge_children] in Hm.
  - injection Hm as <-. exact Hp.
  - inv_bind Hm. apply (IHc (fun c' H' => Hc c' (or_intror H')) a); [|exact Hm].
    eapply filled_merge_child; [|exact Hp|exact E].
    destruct (Hc c (or_introl eq_refl)) as (nm & pr' & sm & r' & Hi & Hr & ->). cbn [c_p2u]. eapply IH; [exact Hi|exact Hr].
Qed.

Lemma promoted_ns_self m p x q : promoted_ns m p x q -> promoted_ns m q x q.
Proof.
  induction 1 as [m x|m nm pr sm p x Hi Hp IH Hl|m nm pr sm p x q Hi Hp IH Hq].
  - constructor.
  - constructor.
  - eapply pn_prefixed; eassumption.
Qed.

Lemma dotted_inj p x q y :
  Forall (fun n => has_dot n = false /\ n <> ""%string) p -> Forall (fun n => has_dot n = false /\ n <> ""%string) q ->
  has_dot x = false -> has_dot y = false -> dotted p x = dotted q y -> p = q /\ x = y.
Proof.
  intros Hp Hq Hx Hy E. rewrite <- !path_name_dotted in E by assumption. eapply path_name_inj'; eassumption.
Qed.

(** [find_promoted_name] finds exactly the promoted name of the variable a name stands for. *)
Lemma find_promoted_iff m mp full pn : well_named m -> maps_of m = Ok mp ->
  (find_promoted_name full mp = Ok pn <-> resolves_to m full pn).
Proof.
  intros W H. unfold maps_of in H. inv_bind H. rename a into r, E into Hr. injection H as <-.
  destruct (p2u_correct _ _ _ W Hr) as (HN & HR). pose proof (filled_p2u _ _ _ Hr) as HF.
  pose proof (fun un pn => u2p_correct _ _ _ un pn W Hr) as HU.
  assert (K : forall k, In k (dkeys (rp_p2u r)) -> exists p kd x s, has_var m p kd x s /\ exists q, promoted_ns m p x q /\ k = dotted q x).
  { intros k Hk. apply In_key_dget in Hk. destruct Hk as [l Hl]. pose proof (dget_In _ _ Hl) as Hi. apply HF in Hi.
    destruct l as [|un l]; [congruence|]. assert (M : maps_to (rp_p2u r) k un) by (exists (un :: l); split; [exact Hl|left; reflexivity]).
    apply HR in M. destruct M as (p & kd & x & s & q & Hv & Hp & _ & ->). exists p, kd, x, s. eauto. }
  unfold find_promoted_name. cbn [fst snd]. split.
  - destruct (dmem full (rp_p2u r)) eqn:Ed.
    + intros E. injection E as <-. apply dmem_spec in Ed. destruct (K _ Ed) as (p & kd & x & s & Hv & q & Hp & ->).
      exists p, kd, x, s, q. auto.
    + destruct (dget (create_reverse_map (rp_p2u r)) full) as [pn'|] eqn:Eg; [|discriminate]. intros E. injection E as <-.
      apply HU, HR in Eg. destruct Eg as (p & kd & x & s & q & Hv & Hp & -> & ->). exists p, kd, x, s, q. auto.
  - intros (p & kd & x & s & q & Hv & Hp & -> & Hfull).
    pose proof (has_var_path_names _ _ _ _ _ W Hv) as Np. pose proof (promoted_ns_names _ _ _ _ _ _ W Hv Hp) as Nq.
    pose proof (has_var_no_dot _ _ _ _ _ W Hv) as Dx.
    assert (Mq : maps_to (rp_p2u r) (dotted q x) (dotted p x)) by (apply HR; exists p, kd, x, s, q; auto).
    destruct (dmem full (rp_p2u r)) eqn:Ed.
    + f_equal. destruct Hfull as [->| ->]; [|reflexivity]. apply dmem_spec in Ed.
      destruct (K _ Ed) as (p' & kd' & x' & s' & Hv' & q' & Hp' & E).
      apply dotted_inj in E; [|assumption|eapply promoted_ns_names; eassumption|assumption|eapply has_var_no_dot; eassumption].
      destruct E as [-> ->]. apply promoted_ns_self in Hp'. rewrite (promoted_ns_fun _ _ _ _ _ W Hp Hp'). reflexivity.
    + destruct Hfull as [->| ->].
      * apply HU in Mq. rewrite Mq. reflexivity.
      * exfalso. apply dmem_false in Ed. apply Ed. destruct Mq as (l & Hl & _). eapply dget_Some_key; exact Hl.
Qed.

Lemma resolves_fun m mp full pn1 pn2 : well_named m -> maps_of m = Ok mp ->
  resolves_to m full pn1 -> resolves_to m full pn2 -> pn1 = pn2.
Proof. intros W H H1 H2. apply (find_promoted_iff _ _ _ _ W H) in H1, H2. congruence. Qed.

Lemma mapM_Forall2 {A B} (f : A -> res B) l l' : mapM f l = Ok l' -> Forall2 (fun x y => f x = Ok y) l l'.
Proof.
  revert l'. induction l as [|x l IH]; intros l' H; cbn [mapM] in H.
  - injection H as <-. constructor.
  - inv_bind H. inv_bind H. injection H as <-. constructor; auto.
Qed.
Lemma Forall2_impl {A B} (R S : A -> B -> Prop) l l' : (forall a b, R a b -> S a b) -> Forall2 R l l' -> Forall2 S l l'.
Proof. intros H. induction 1; constructor; auto. Qed.
Lemma Forall2_In_l {A B} (R : A -> B -> Prop) l l' x : Forall2 R l l' -> In x l -> exists y, In y l' /\ R x y.
Proof. intros H. induction H as [|a b l l' Hab H IH]; intros Hi; [destruct Hi|]. destruct Hi as [->|Hi]; [exists b; split; [left; reflexivity|exact Hab]|]. destruct (IH Hi) as (y & H1 & H2). exists y. split; [right; exact H1|exact H2]. Qed.
Lemma Forall2_In_r {A B} (R : A -> B -> Prop) l l' y : Forall2 R l l' -> In y l' -> exists x, In x l /\ R x y.
Proof. intros H. induction H as [|a b l l' Hab H IH]; intros Hi; [destruct Hi|]. destruct Hi as [->|Hi]; [exists a; split; [left; reflexivity|exact Hab]|]. destruct (IH Hi) as (x & H1 & H2). exists x. split; [right; exact H1|exact H2]. Qed.

Lemma In_collected m a b ns : well_named m ->
  (In (a, b, ns) (collect_connections m "") <-> exists p, declared_conn m p a b /\ ns = ns_of p).
Proof.
  intros W. rewrite (collected _ W), in_flat_map. split.
  - intros ([p m'] & Hi & Hm). apply postorder_spec in Hi. cbn [fst snd] in Hm. apply in_map_iff in Hm.
    destruct Hm as ([a' b'] & E & Hc). injection E as <- <- <-. exists p. split; [exists m'; auto|reflexivity].
  - intros (p & (m' & Hs & Hc) & ->). exists (p, m'). split; [apply postorder_spec, Hs|]. cbn [fst snd].
    apply in_map_iff. exists (a, b). auto.
Qed.

Lemma rep_connections_spec m l : well_named m -> rep_connections m = Ok l ->
  exists l0, Forall2 (fun abc ab => resolves_to m (prepend_namespace (snd abc) (fst (fst abc))) (fst ab) /\
                                   resolves_to m (prepend_namespace (snd abc) (snd (fst abc))) (snd ab))
                    (collect_connections m "") l0 /\ l = fromkeys l0.
Proof.
  intros W H. unfold rep_connections in H. inv_bind H. rename a into mp, E into Hmp. inv_bind H. injection H as <-.
  exists a. split; [|reflexivity]. apply mapM_Forall2 in E. eapply Forall2_impl; [|exact E].
  intros abc ab H. cbv beta in H. inv_bind H. inv_bind H. injection H as <-. cbn [fst snd].
  split; apply (find_promoted_iff _ _ _ _ W Hmp); assumption.
Qed.

Lemma connections_resolved m l : well_named m -> rep_connections m = Ok l ->
  NoDup l /\
  (forall a' b', In (a', b') l <-> exists p a b, declared_conn m p a b /\
     resolves_to m (dotted p a) a' /\ resolves_to m (dotted p b) b').
Proof.
  intros W H. destruct (rep_connections_spec _ _ W H) as (l0 & HF & ->).
  destruct (fromkeys_spec l0) as (HN & HI & _). split; [exact HN|]. intros a' b'. rewrite HI. split.
  - intros Hi. destruct (Forall2_In_r _ _ _ _ HF Hi) as ([[a b] ns] & Hc & H1 & H2). cbn [fst snd] in H1, H2.
    apply (In_collected _ _ _ _ W) in Hc. destruct Hc as (p & Hd & ->). exists p, a, b. split; [exact Hd|].
    destruct Hd as (m' & Hs & _). rewrite !prepend_ns_of in * by (apply names_nonempty; eapply sub_at_names; eassumption). auto.
  - intros (p & a & b & Hd & H1 & H2).
    assert (Hc : In (a, b, ns_of p) (collect_connections m "")) by (apply (In_collected _ _ _ _ W); eauto).
    destruct (Forall2_In_l _ _ _ _ HF Hc) as ([a2 b2] & Hi & G1 & G2). cbn [fst snd] in G1, G2.
    destruct Hd as (m' & Hs & _). rewrite !prepend_ns_of in * by (apply names_nonempty; eapply sub_at_names; eassumption).
    unfold rep_connections in H. inv_bind H. rename a0 into mp, E into Hmp.
    rewrite (resolves_fun _ _ _ _ _ W Hmp H1 G1), (resolves_fun _ _ _ _ _ W Hmp H2 G2). exact Hi.
Qed.

(** *** Design variables, constraints *)
Definition opt_step (mp : maps) (t : string * model * string) (acc : dict (string * string)) : res (dict (string * string)) :=
  do own <- maps_of (snd (fst t));
  do n1 <- find_promoted_name (snd t) own;
  do n2 <- find_promoted_name (prepend_namespace (fst (fst t)) n1) mp;
  if dmem n2 acc then Err ValueError else Ok (dset acc n2 (fst (fst t), snd t)).
Fixpoint foldM {A S} (f : A -> S -> res S) (l : list A) (s : S) : res S :=
  match l with [] => Ok s | x :: r => do s' <- f x s; foldM f r s' end.

Lemma foldM_app {A S} (f : A -> S -> res S) l l' s s1 s2 : foldM f l s = Ok s1 -> foldM f l' s1 = Ok s2 -> foldM f (l ++ l') s = Ok s2.
Proof.
  revert s. induction l as [|x l IH]; intros s H H'; cbn [foldM app] in *.
  - injection H as ->. exact H'.
  - inv_bind H. rewrite E. cbn [bind]. apply IH; assumption.
Qed.

Definition opt_items (sel : model -> list string) (ns : string) (m : model) : list (string * model * string) :=
  flat_map (fun pm => map (fun k => (ns_join ns (fst pm), snd pm, k)) (sel (snd pm))) (preorder m).

Definition opt_loop (own mp : maps) (ns : string) :=
  fix loop (ks : list string) (acc : dict (string * string)) : res (dict (string * string)) :=
  match ks with
  | [] => Ok acc
  | k :: r =>
    do n1 <- find_promoted_name k own;
    do n2 <- find_promoted_name (prepend_namespace ns n1) mp;
    if dmem n2 acc then Err ValueError else loop r (dset acc n2 (ns, k))
  end.
Definition opt_subs (f : model -> string -> dict (string * string) -> res (dict (string * string))) (ns : string) :=
  fix go (l : list (string * promotes_t * model)) (acc : dict (string * string)) : res (dict (string * string)) :=
  match l with
  | [] => Ok acc
  | (nm, _, sm) :: r => do acc' <- f sm (prepend_namespace ns nm) acc; go r acc'
  end.
Lemma collect_opt_unfold sel mp m ns acc : collect_opt sel mp m ns acc =
  do own <- maps_of m; do acc1 <- opt_loop own mp ns (sel m) acc; opt_subs (collect_opt sel mp) ns (m_subs m) acc1.
Proof. destruct m; reflexivity. Qed.

Lemma collect_opt_fold sel mp m ns acc d : collect_opt sel mp m ns acc = Ok d ->
  foldM (opt_step mp) (opt_items sel ns m) acc = Ok d.
Proof.
  revert ns acc d. induction m as [m IH] using model_ind'. intros ns acc d H.
  unfold opt_items. rewrite preorder_unfold. cbn [flat_map fst snd ns_join fold_left].
  rewrite flat_map_flat_map.
  assert (EU : exists own acc1, maps_of m = Ok own /\
    foldM (opt_step mp) (map (fun k => (ns, m, k)) (sel m)) acc = Ok acc1 /\
    opt_subs (fun sm => collect_opt sel mp sm) ns (m_subs m) acc1 = Ok d).
  { rewrite collect_opt_unfold in H. inv_bind H. rename a into own.
    inv_bind H. exists own, a. split; [exact E|]. split; [|exact H].
    clear H. revert acc E0. generalize (sel m).
    intros ks. induction ks as [|k0 ks IHk]; intros acc E0; cbn [map foldM]; [exact E0|].
    cbn [opt_loop] in E0.
    inv_bind E0. rename E1 into F1. inv_bind E0. rename E1 into F2. destruct (dmem a1 acc) eqn:Ed; [discriminate|].
    unfold opt_step at 1. cbn [fst snd]. rewrite E. cbn [bind]. rewrite F1. cbn [bind]. rewrite F2. cbn [bind]. rewrite Ed. cbn [bind].
    apply IHk, E0. }
  destruct EU as (own & acc1 & Eo & E1 & E2). eapply foldM_app; [exact E1|]. clear E1 Eo H.
  assert (Hin : incl (m_subs m) (m_subs m)) by apply incl_refl. revert Hin acc1 E2. generalize (m_subs m) at 1 3 4.
  intros l. induction l as [|[[nm pr] sm] r IHr]; intros Hin acc1 E2; cbn [flat_map fst snd]; [exact E2|].
  inv_bind E2. eapply foldM_app; [|apply IHr; [intros t Ht; apply Hin; right; exact Ht|exact E2]].
  rewrite flat_map_map. apply (IH _ _ _ (Hin _ (or_introl eq_refl))) in E. exact E.
Qed.

Lemma foldM_opt m mp items acc d : well_named m -> maps_of m = Ok mp -> NoDup (dkeys acc) ->
  (forall t, In t items -> well_named (snd (fst t))) ->
  foldM (opt_step mp) items acc = Ok d ->
  NoDup (dkeys d) /\ length d = length acc + length items /\
  (forall n v, In (n, v) acc -> In (n, v) d) /\
  (forall ns m' k, In (ns, m', k) items -> exists n1 n2, resolves_to m' k n1 /\ resolves_to m (prepend_namespace ns n1) n2 /\ In (n2, (ns, k)) d).
Proof.
  intros W Hm. revert acc. induction items as [|[[ns m'] k] items IH]; intros acc HN HW H; cbn [foldM] in H.
  - injection H as <-. split; [exact HN|]. split; [cbn; lia|]. split; [auto|]. intros ? ? ? [].
  - inv_bind H. unfold opt_step in E. cbn [fst snd] in E. inv_bind E. rename a0 into own, E0 into Ho. inv_bind E. rename a0 into n1, E0 into F1.
    inv_bind E. rename a0 into n2, E0 into F2. destruct (dmem n2 acc) eqn:Ed; [discriminate|]. injection E as <-.
    assert (Ef : dset acc n2 (ns, k) = acc ++ [(n2, (ns, k))]) by (apply dset_fresh, dmem_false, Ed).
    destruct (IH (dset acc n2 (ns, k))) as (G1 & G2 & G3 & G4); [apply NoDup_dset, HN|intros t Ht; apply HW; right; exact Ht|exact H|].
    split; [exact G1|]. split; [rewrite G2, Ef, app_length; cbn; lia|]. split.
    + intros n v Hi. apply G3. rewrite Ef, in_app_iff. auto.
    + intros ns0 m0 k0 [E|Hi]; [|apply G4, Hi]. injection E as <- <- <-. exists n1, n2.
      split; [apply (find_promoted_iff _ _ _ _ (HW _ (or_introl eq_refl)) Ho), F1|].
      split; [apply (find_promoted_iff _ _ _ _ W Hm), F2|]. apply G3. rewrite Ef, in_app_iff. right. left. reflexivity.
Qed.

(** number of entries declared in the whole hierarchy *)
Definition opt_total (sel : model -> list string) (m : model) : nat :=
  list_sum (map (fun pm => length (sel (snd pm))) (preorder m)).

Lemma opt_items_length sel ns m : length (opt_items sel ns m) = opt_total sel m.
Proof.
  unfold opt_items, opt_total. induction (preorder m) as [|pm l IH]; [reflexivity|]. cbn [flat_map map list_sum fold_right].
  rewrite app_length, map_length. unfold list_sum in IH. rewrite IH. reflexivity.
Qed.

Lemma In_opt_items sel m p m' k : well_named m -> sub_at m p m' -> In k (sel m') -> In (ns_of p, m', k) (opt_items sel "" m).
Proof.
  intros W Hs Hk. unfold opt_items. apply in_flat_map. exists (p, m'). split; [apply preorder_spec, Hs|]. cbn [fst snd].
  apply in_map_iff. exists k. split; [|exact Hk].
  change ""%string with (ns_of []). rewrite (ns_join_of [] p) by (apply names_nonempty; eapply sub_at_names; eassumption). reflexivity.
Qed.

Lemma opt_items_well sel ns m t : well_named m -> In t (opt_items sel ns m) -> well_named (snd (fst t)).
Proof.
  intros W Hi. unfold opt_items in Hi. apply in_flat_map in Hi. destruct Hi as ([p m'] & Hp & Hi). apply in_map_iff in Hi.
  destruct Hi as (k & <- & _). cbn. apply preorder_spec in Hp. eapply well_named_sub_at; eassumption.
Qed.

Lemma collect_opt_spec sel m mp d : well_named m -> maps_of m = Ok mp -> collect_opt sel mp m "" [] = Ok d ->
  NoDup (dkeys d) /\ length d = opt_total sel m /\
  (forall p m' k, sub_at m p m' -> In k (sel m') ->
     exists n1 n2, resolves_to m' k n1 /\ resolves_to m (dotted p n1) n2 /\ dget d n2 = Some (ns_of p, k)).
Proof.
  intros W Hm H. apply collect_opt_fold in H.
  destruct (foldM_opt m mp _ [] d W Hm (NoDup_nil _) (fun t Ht => opt_items_well _ _ _ _ W Ht) H) as (G1 & G2 & _ & G4).
  split; [exact G1|]. split; [rewrite G2, opt_items_length; reflexivity|].
  intros p m' k Hs Hk. destruct (G4 _ _ _ (In_opt_items _ _ _ _ _ W Hs Hk)) as (n1 & n2 & R1 & R2 & Hi).
  exists n1, n2. rewrite prepend_ns_of in R2 by (apply names_nonempty; eapply sub_at_names; eassumption).
  split; [exact R1|]. split; [exact R2|]. apply In_dget; assumption.
Qed.

(** a variable of a model is known there under its own name, and outside under its promoted name *)
Lemma local_resolves m p m' k : well_named m -> sub_at m p m' -> (exists kd s, In (k, s) (vars kd m')) ->
  (forall n1, resolves_to m' k n1 -> n1 = k) /\
  (forall n2, resolves_to m (dotted p k) n2 -> exists q, promoted_ns m p k q /\ n2 = dotted q k).
Proof.
  intros W Hs (kd & s & Hk). pose proof (well_named_sub_at _ _ _ Hs W) as W'.
  assert (Dk : has_dot k = false) by (destruct (W' [] m' (sub_here m')) as (_ & _ & Hd); eapply Hd; exact Hk).
  pose proof (sub_at_names _ _ _ W Hs) as Np. split.
  - intros n1 (p' & kd' & x & s' & q & Hv & Hp & -> & Hf).
    pose proof (has_var_path_names _ _ _ _ _ W' Hv) as Np'. pose proof (promoted_ns_names _ _ _ _ _ _ W' Hv Hp) as Nq.
    pose proof (has_var_no_dot _ _ _ _ _ W' Hv) as Dx. change k with (dotted [] k) in Hf |- *.
    destruct Hf as [E|E]; apply dotted_inj in E; try assumption; try constructor; destruct E as [E ->]; subst.
    + apply promoted_ns_prefix in Hp. destruct Hp as [t Et]. destruct q; [reflexivity|discriminate].
    + reflexivity.
  - intros n2 (p' & kd' & x & s' & q & Hv & Hp & -> & Hf).
    pose proof (has_var_path_names _ _ _ _ _ W Hv) as Np'. pose proof (promoted_ns_names _ _ _ _ _ _ W Hv Hp) as Nq.
    pose proof (has_var_no_dot _ _ _ _ _ W Hv) as Dx.
    destruct Hf as [E|E]; apply dotted_inj in E; try assumption; destruct E as [E ->]; subst.
    + eauto.
    + exists q. split; [apply promoted_ns_self in Hp; exact Hp|reflexivity].
Qed.

Lemma collect_opt_local sel m mp d : well_named m -> maps_of m = Ok mp -> collect_opt sel mp m "" [] = Ok d ->
  forall p m' k, sub_at m p m' -> In k (sel m') -> (exists kd s, In (k, s) (vars kd m')) ->
  exists q, promoted_ns m p k q /\ dget d (dotted q k) = Some (ns_of p, k).
Proof.
  intros W Hm H p m' k Hs Hk Hv. destruct (collect_opt_spec _ _ _ _ W Hm H) as (_ & _ & G).
  destruct (G _ _ _ Hs Hk) as (n1 & n2 & R1 & R2 & Hd). destruct (local_resolves _ _ _ _ W Hs Hv) as [L1 L2].
  rewrite (L1 _ R1) in R2. destruct (L2 _ R2) as (q & Hq & ->). eauto.
Qed.

(** *** Objective *)
Definition has_obj (pm : list string * model) : bool := match m_obj (snd pm) with Some _ => true | None => false end.
Lemma has_obj_eq p m : has_obj (p, m) = match m_obj m with Some _ => true | None => false end.
Proof. reflexivity. Qed.
Definition obj_owners (m : model) : list (list string * model) := filter has_obj (preorder m).

Definition obj_subs (f : model -> string -> option string -> res (option string * model)) (ns : string) :=
  fix go (l : list (string * promotes_t * model)) (obj : option string)
    : res (option string * list (string * promotes_t * model)) :=
  match l with
  | [] => Ok (obj, [])
  | (nm, pr, sm) :: r =>
    do x <- f sm (prepend_namespace ns nm) obj;
    do y <- go r (fst x);
    Ok (fst y, (nm, pr, snd x) :: snd y)
  end.
Definition obj_here (own mp : maps) (ns : string) (mo obj : option string) : res (option string * option string) :=
  match mo with
  | None => Ok (obj, mo)
  | Some n =>
    do n1 <- find_promoted_name n own;
    do n2 <- find_promoted_name (prepend_namespace ns n1) mp;
    match obj with Some _ => Err ValueError | None => Ok (Some n2, Some n2) end
  end.
Definition with_obj (m : model) (mo : option string) (subs : list (string * promotes_t * model)) : model :=
  Mdl (m_inputs m) (m_outputs m) (m_declared m) (m_conns m) (m_dvs m) (m_cons m) mo subs.
Lemma find_objective_unfold mp m ns obj : find_objective mp m ns obj =
  do own <- maps_of m; do ob <- obj_here own mp ns (m_obj m) obj;
  do t <- obj_subs (find_objective mp) ns (m_subs m) (fst ob);
  Ok (fst t, with_obj m (snd ob) (snd t)).
Proof. destruct m; reflexivity. Qed.

Definition obj_step (mp : maps) (t : string * model) (obj : option string) : res (option string) :=
  do own <- maps_of (snd t); do ob <- obj_here own mp (fst t) (m_obj (snd t)) obj; Ok (fst ob).

Lemma find_objective_fold mp m ns obj o m2 : find_objective mp m ns obj = Ok (o, m2) ->
  foldM (obj_step mp) (map (fun pm => (ns_join ns (fst pm), snd pm)) (preorder m)) obj = Ok o.
Proof.
  revert ns obj o m2. induction m as [m IH] using model_ind'. intros ns obj o m2 H.
  rewrite find_objective_unfold in H. inv_bind H. rename a into own, E into Ho. inv_bind H. rename a into ob, E into Hb.
  inv_bind H. destruct a as [o' subs']. injection H as <- <-. rewrite preorder_unfold. cbn [map fst snd ns_join fold_left foldM].
  unfold obj_step at 1. cbn [fst snd]. rewrite Ho. cbn [bind]. rewrite Hb. cbn [bind].
  assert (Hin : incl (m_subs m) (m_subs m)) by apply incl_refl. revert Hin E. generalize (fst ob). revert o' subs'.
  generalize (m_subs m) at 1 3 4. intros l. clear Hb Ho.
  induction l as [|[[nm pr] sm] r IHr]; intros o' subs' ob1 Hin E; cbn [obj_subs] in E.
  - injection E as <- <-. reflexivity.
  - inv_bind E. destruct a as [o1 sm']. rename E0 into E1. inv_bind E. destruct a as [o2 r']. injection E as <- <-.
    cbn [fst snd] in *. cbn [flat_map fst snd]. rewrite map_app. eapply foldM_app.
    + rewrite map_map. cbn [fst snd]. apply (IH _ _ _ (Hin _ (or_introl eq_refl))) in E1. exact E1.
    + eapply IHr; [intros t Ht; apply Hin; right; exact Ht|exact E0].
Qed.

Lemma foldM_obj m mp items obj o : well_named m -> maps_of m = Ok mp ->
  (forall t, In t items -> well_named (snd t)) ->
  foldM (obj_step mp) items obj = Ok o ->
  match obj, filter (fun t => match m_obj (snd t) with Some _ => true | None => false end) items with
  | _, [] => o = obj
  | None, [(ns, m')] => exists k n1 n2, m_obj m' = Some k /\ resolves_to m' k n1 /\
       resolves_to m (prepend_namespace ns n1) n2 /\ o = Some n2
  | _, _ => False
  end.
Proof.
  intros W Hm. revert obj. induction items as [|[ns m'] items IH]; intros obj HW H; cbn [foldM] in H.
  - injection H as <-. cbn. destruct obj; reflexivity.
  - inv_bind H. unfold obj_step in E. cbn [fst snd] in E. inv_bind E. rename a0 into own, E0 into Ho. inv_bind E. injection E as <-.
    unfold obj_here in E0. cbn [filter snd]. specialize (IH (fst a0) (fun t Ht => HW t (or_intror Ht)) H).
    destruct (m_obj m') as [k|] eqn:Ek.
    + inv_bind E0. rename a into n1, E into F1. inv_bind E0. rename a into n2, E into F2.
      destruct obj as [ob|]; [discriminate|]. injection E0 as <-. cbn [fst] in IH.
      destruct (filter _ items) as [|? ?]; [|destruct IH]. subst o.
      exists k, n1, n2. split; [exact Ek|]. split; [apply (find_promoted_iff _ _ _ _ (HW _ (or_introl eq_refl)) Ho), F1|].
      split; [apply (find_promoted_iff _ _ _ _ W Hm), F2|reflexivity].
    + injection E0 as <-. cbn [fst] in IH. exact IH.
Qed.

Lemma objective_unique m o m2 : well_named m -> rep_objective m = Ok (o, m2) ->
  match obj_owners m with
  | [] => o = None
  | [(p, m')] => exists k n1 n2, m_obj m' = Some k /\ resolves_to m' k n1 /\ resolves_to m (dotted p n1) n2 /\ o = Some n2
  | _ => False
  end.
Proof.
  intros W H. unfold rep_objective in H. inv_bind H. rename a into mp, E into Hm.
  apply find_objective_fold in H.
  apply (foldM_obj _ _ _ _ _ W Hm) in H.
  2:{ intros t Ht. apply in_map_iff in Ht. destruct Ht as ([p m'] & <- & Hp). apply preorder_spec in Hp. cbn. eapply well_named_sub_at; eassumption. }
  unfold obj_owners. revert H.
  assert (E : forall l, filter (fun t : string * model => match m_obj (snd t) with Some _ => true | None => false end)
      (map (fun pm => (ns_join "" (fst pm), snd pm)) l) = map (fun pm => (ns_join "" (fst pm), snd pm)) (filter has_obj l)).
  { induction l as [|[p m'] l IH]; [reflexivity|]. cbn [map filter fst snd]. rewrite has_obj_eq.
    destruct (m_obj m'); cbn [map fst snd]; rewrite IH; reflexivity. }
  rewrite E. assert (Hf : forall pm, In pm (filter has_obj (preorder m)) -> sub_at m (fst pm) (snd pm)).
  { intros [p m'] Hi. apply filter_In in Hi. apply preorder_spec, Hi. }
  destruct (filter has_obj (preorder m)) as [|[p m'] [|? ?]]; cbn [map fst snd]; [auto| |tauto].
  intros (k & n1 & n2 & H1 & H2 & H3 & H4). exists k, n1, n2. split; [exact H1|]. split; [exact H2|]. split; [|exact H4].
  pose proof (Hf (p, m') (or_introl eq_refl)) as Hs. cbn [fst snd] in Hs.
  assert (Np : Forall (fun n => n <> ""%string) p) by (apply names_nonempty; eapply sub_at_names; eassumption).
  change ""%string with (ns_of []) in H3. rewrite (ns_join_of [] p) in H3 by exact Np. cbn [app] in H3.
  rewrite prepend_ns_of in H3 by exact Np. exact H3.
Qed.

(** *** Objective of a second representation *)
Lemma find_objective_none mp m ns obj o m2 : find_objective mp m ns obj = Ok (o, m2) -> obj_owners m = [] -> o = obj /\ m2 = m.
Proof.
  revert ns obj o m2. induction m as [m IH] using model_ind'. intros ns obj o m2 H HO.
  rewrite find_objective_unfold in H. inv_bind H. rename a into own, E into Ho. inv_bind H. rename a into ob, E into Hb.
  inv_bind H. destruct a as [o' subs']. injection H as <- <-.
  unfold obj_owners in HO. rewrite preorder_unfold in HO. cbn [filter] in HO. rewrite has_obj_eq in HO.
  destruct (m_obj m) as [k|] eqn:Ek; [discriminate|]. cbn [obj_here] in Hb. injection Hb as <-. cbn [fst snd] in *.
  assert (G : o' = obj /\ subs' = m_subs m).
  { assert (Hin : incl (m_subs m) (m_subs m)) by apply incl_refl. revert Hin HO E. revert o' subs'. generalize obj.
    generalize (m_subs m) at 1 3 4 5. intros l. induction l as [|[[nm pr] sm] r IHr]; intros ob o' subs' Hin HO E; cbn [obj_subs] in E.
    - injection E as <- <-. auto.
    - inv_bind E. destruct a as [o1 sm']. rename E0 into E1. inv_bind E. destruct a as [o2 r']. injection E as <- <-.
      cbn [fst snd] in *. cbn [flat_map] in HO. rewrite filter_app in HO. apply app_eq_nil in HO. destruct HO as [HO1 HO2].
      apply (IH _ _ _ (Hin _ (or_introl eq_refl))) in E1.
      + destruct E1 as [-> ->]. destruct (IHr ob o2 r') as [-> ->]; [intros t Ht; apply Hin; right; exact Ht|exact HO2|exact E0|auto].
      + unfold obj_owners. cbn [fst snd] in HO1. revert HO1. generalize (preorder sm). intros L. induction L as [|[p m'] L IHL]; [reflexivity|].
        cbn [map filter]. cbn [fst snd]. rewrite !has_obj_eq. destruct (m_obj m'); [discriminate|exact IHL]. }
  destruct G as [-> ->]. split; [reflexivity|]. destruct m; cbn in *. unfold with_obj. cbn. congruence.
Qed.

Lemma maps_of_with_obj m mo : maps_of (with_obj m mo (m_subs m)) = maps_of m.
Proof. destruct m; reflexivity. Qed.

Lemma objective_twice m o m2 : well_named m -> rep_objective m = Ok (o, m2) -> m_obj m <> None ->
  rep_objective m2 = Ok (o, m2).
Proof.
  intros W H Ho. pose proof (objective_unique _ _ _ W H) as HU. unfold rep_objective in H. inv_bind H. rename a into mp, E into Hm.
  rewrite find_objective_unfold in H. rewrite Hm in H. cbn [bind] in H. inv_bind H. rename a into ob, E into Hb.
  inv_bind H. destruct a as [o' subs']. injection H as <- <-.
  unfold obj_here in Hb. destruct (m_obj m) as [k|] eqn:Ek; [|congruence]. inv_bind Hb. rename a into n1, E0 into F1.
  inv_bind Hb. rename a into n2, E0 into F2. injection Hb as <-. cbn [fst snd] in *.
  assert (HO : flat_map (fun t => obj_owners (snd t)) (m_subs m) = []).
  { unfold obj_owners in HU. rewrite preorder_unfold in HU. cbn [filter] in HU. rewrite has_obj_eq in HU. rewrite Ek in HU.
    destruct (filter has_obj _) eqn:Ef in HU; [|destruct HU]. clear HU F1 F2 Hm E Ho Ek W. revert Ef. generalize (m_subs m).
    intros l. induction l as [|[[nm pr] sm] r IHr]; [reflexivity|]. cbn [flat_map fst snd]. rewrite filter_app. intros Ef. apply app_eq_nil in Ef.
    destruct Ef as [E1 E2]. rewrite IHr by exact E2. rewrite app_nil_r. unfold obj_owners. revert E1. generalize (preorder sm). intros L.
    induction L as [|[p m'] L IHL]; [reflexivity|]. cbn [map filter]. cbn [fst snd]. rewrite !has_obj_eq. destruct (m_obj m'); [discriminate|exact IHL]. }
  assert (G : o' = Some n2 /\ subs' = m_subs m).
  { clear HU Ho Ek F1 F2. revert o' subs' E HO. generalize (Some n2). generalize (m_subs m). intros l.
    induction l as [|[[nm pr] sm] r IHr]; intros ob o' subs' E HO; cbn [obj_subs] in E.
    - injection E as <- <-. auto.
    - inv_bind E. destruct a as [o1 sm']. rename E0 into E1. inv_bind E. destruct a as [o2 r']. injection E as <- <-.
      cbn [fst snd] in *. cbn [flat_map snd] in HO. apply app_eq_nil in HO. destruct HO as [HO1 HO2].
      apply find_objective_none in E1; [|exact HO1]. destruct E1 as [-> ->]. destruct (IHr ob o2 r') as [-> ->]; auto. }
  destruct G as [-> ->].
  unfold rep_objective. rewrite maps_of_with_obj, Hm. cbn [bind]. rewrite find_objective_unfold, maps_of_with_obj, Hm. cbn [bind].
  assert (Hr : find_promoted_name n2 mp = Ok n2).
  { apply (find_promoted_iff _ _ _ _ W Hm). apply (find_promoted_iff _ _ _ _ W Hm) in F2.
    destruct F2 as (p & kd & x & s & q & Hv & Hp & -> & _). exists p, kd, x, s, q. auto. }
  unfold obj_here. cbn [with_obj m_obj m_subs]. rewrite Hr. cbn [bind]. change (prepend_namespace "" n2) with n2. rewrite Hr. cbn [bind fst snd].
  rewrite E. cbn [bind fst snd]. reflexivity.
Qed.
