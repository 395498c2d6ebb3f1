From Verif Require Import PyBase NamesModel PromotionsModel PromotionsSpec PromotionsProofs PromotionsProofs2 PromotionsProofs3 HierModel HierSpec HierProofs.

Lemma resolve_none m pr r : resolve m pr = Ok r -> exists r', resolve m None = Ok r' /\ rp_p2u r' = rp_p2u r.
Proof.
  destruct m as [ins outs decl conns dvs csts obj subs]. cbn [resolve].
  intros H. inv_bind H. rewrite E. cbn [bind]. rename E into E0. inv_bind H. rewrite E. cbn [bind]. clear E.
  inv_bind H. rewrite E. cbn [bind]. clear E. inv_bind H. rewrite E. cbn [bind]. clear E. inv_bind H. rewrite E. cbn [bind]. clear E.
  inv_bind H. rewrite E. cbn [bind]. injection H as <-. eexists. split; reflexivity.
Qed.

Lemma maps_sub m mp p m' : maps_of m = Ok mp -> sub_at m p m' -> exists mp', maps_of m' = Ok mp'.
Proof.
  intros H Hs. revert mp H. induction Hs as [m|m nm pr sm p m' Hi Hs IH]; intros mp H; [eauto|].
  unfold maps_of in H. inv_bind H. apply resolve_inv in E. destruct E as (csrc & ctgt & cs & Hch & _).
  apply resolve_children_spec in Hch. destruct Hch as (_ & Hc2 & _). destruct (Hc2 _ _ _ Hi) as (r & Hr & _).
  destruct (resolve_none _ _ _ Hr) as (r' & Hr' & _). eapply IH. unfold maps_of. rewrite Hr'. reflexivity.
Qed.

Lemma mapM_ok {A B} (f : A -> res B) l : (exists l', mapM f l = Ok l') <-> forall x, In x l -> exists y, f x = Ok y.
Proof.
  induction l as [|x l IH]; cbn [mapM].
  - split; [intros _ x []|eauto].
  - split.
    + intros [l' H]. inv_bind H. inv_bind H. intros y [<-|Hy]; [eauto|]. apply IH; eauto.
    + intros H. destruct (H x (or_introl eq_refl)) as [y Hy]. rewrite Hy. cbn [bind].
      destruct (proj2 IH (fun z Hz => H z (or_intror Hz))) as [l' Hl']. rewrite Hl'. cbn [bind]. eauto.
Qed.

Lemma connections_accepted m mp : well_named m -> maps_of m = Ok mp ->
  ((exists l, rep_connections m = Ok l) <->
   forall p a b, declared_conn m p a b -> (exists a', resolves_to m (dotted p a) a') /\ (exists b', resolves_to m (dotted p b) b')).
Proof.
  intros W Hm. unfold rep_connections. rewrite Hm. cbn [bind].
  match goal with |- context [mapM ?f ?l] => pose proof (mapM_ok f l) as M; set (F := f) in * end.
  assert (L : (exists l, (do l <- mapM F (collect_connections m ""); Ok (fromkeys l)) = Ok l) <-> exists l, mapM F (collect_connections m "") = Ok l).
  { split; intros [l H].
    - inv_bind H. eauto.
    - rewrite H. cbn [bind]. eauto. }
  rewrite L, M. clear L M. split.
  - intros H p a b Hd. assert (Hc : In (a, b, ns_of p) (collect_connections m "")) by (apply (In_collected _ _ _ _ W); eauto).
    destruct (H _ Hc) as [y Hy]. subst F. cbn [fst snd] in Hy. inv_bind Hy. rename E into E1. inv_bind Hy.
    destruct Hd as (m' & Hs & _). rewrite !prepend_ns_of in * by (apply names_nonempty; eapply sub_at_names; eassumption).
    apply (find_promoted_iff _ _ _ _ W Hm) in E, E1. eauto.
  - intros H [[a b] ns] Hc. apply (In_collected _ _ _ _ W) in Hc. destruct Hc as (p & Hd & ->).
    destruct (H _ _ _ Hd) as [[a' Ha] [b' Hb]]. exists (a', b'). subst F. cbn [fst snd].
    destruct Hd as (m' & Hs & _). rewrite !prepend_ns_of by (apply names_nonempty; eapply sub_at_names; eassumption).
    apply (find_promoted_iff _ _ _ _ W Hm) in Ha, Hb. rewrite Ha. cbn [bind]. rewrite Hb. reflexivity.
Qed.

(** ** Design variables and constraints *)
Lemma foldM_app_eq {A S} (f : A -> S -> res S) l l' s : foldM f (l ++ l') s = do t <- foldM f l s; foldM f l' t.
Proof.
  revert s. induction l as [|x l IH]; intros s; cbn [app foldM bind]; [reflexivity|].
  destruct (f x s); cbn [bind]; [apply IH|reflexivity].
Qed.

Lemma collect_opt_eq sel mp m ns acc : (forall p m', sub_at m p m' -> exists mp', maps_of m' = Ok mp') ->
  collect_opt sel mp m ns acc = foldM (opt_step mp) (opt_items sel ns m) acc.
Proof.
  revert ns acc. induction m as [m IH] using model_ind'. intros ns acc HM.
  unfold opt_items. rewrite preorder_unfold. cbn [flat_map fst snd ns_join fold_left].
  rewrite flat_map_flat_map, foldM_app_eq, collect_opt_unfold.
  destruct (HM [] m (sub_here m)) as [own Ho]. rewrite Ho. cbn [bind].
  assert (EL : forall ks acc, opt_loop own mp ns ks acc = foldM (opt_step mp) (map (fun k => (ns, m, k)) ks) acc).
  { induction ks as [|k ks IHk]; intros acc'; cbn [opt_loop map foldM]; [reflexivity|].
    unfold opt_step at 1. cbn [fst snd]. rewrite Ho. cbn [bind].
    destruct (find_promoted_name k own); cbn [bind]; [|reflexivity].
    destruct (find_promoted_name _ mp); cbn [bind]; [|reflexivity]. destruct (dmem _ acc'); cbn [bind]; [reflexivity|]. apply IHk. }
  rewrite EL. destruct (foldM (opt_step mp) _ acc) as [acc1|e]; cbn [bind]; [|reflexivity]. clear EL acc.
  assert (HS : forall nm pr sm, In (nm, pr, sm) (m_subs m) -> forall p m', sub_at sm p m' -> exists mp', maps_of m' = Ok mp').
  { intros nm pr sm Hi p m' Hs. eapply HM. econstructor; eassumption. }
  clear HM Ho. revert acc1. revert HS IH. generalize (m_subs m). intros l.
  induction l as [|[[nm pr] sm] r IHr]; intros HS IH acc1; cbn [flat_map fst snd opt_subs]; [reflexivity|].
  rewrite foldM_app_eq, flat_map_map. rewrite (IH _ _ _ (or_introl eq_refl)) by (eapply HS; left; reflexivity).
  unfold opt_items. cbn [fst snd].
  match goal with |- bind ?x _ = bind ?y _ => assert (E : x = y) by reflexivity; rewrite E; destruct y as [a|e] end; cbn [bind]; [|reflexivity].
  apply IHr; intros; [eapply HS; [right; eassumption|eassumption]|]. eapply IH; [right; eassumption|assumption].
Qed.

Lemma foldM_opt_accept m mp items acc : well_named m -> maps_of m = Ok mp ->
  (forall t, In t items -> well_named (snd (fst t)) /\ exists mp', maps_of (snd (fst t)) = Ok mp') ->
  ((exists d, foldM (opt_step mp) items acc = Ok d) <->
   exists ns, Forall2 (fun t n2 => exists n1, resolves_to (snd (fst t)) (snd t) n1 /\ resolves_to m (prepend_namespace (fst (fst t)) n1) n2) items ns /\
     NoDup ns /\ forall n, In n ns -> ~ In n (dkeys acc)).
Proof.
  intros W Hm. revert acc. induction items as [|[[ns m'] k] items IH]; intros acc HI; cbn [foldM].
  - split; [intros _|eauto]. exists []. split; [constructor|]. split; [constructor|]. intros n [].
  - destruct (HI _ (or_introl eq_refl)) as [W' [own Ho]]. cbn [fst snd] in *. unfold opt_step at 1. cbn [fst snd]. rewrite Ho. cbn [bind].
    assert (HI' : forall t, In t items -> well_named (snd (fst t)) /\ exists mp', maps_of (snd (fst t)) = Ok mp') by (intros; apply HI; right; assumption).
    split.
    + intros [d H]. inv_bind H. inv_bind E. rename a0 into n1, E0 into F1. inv_bind E. rename a0 into n2, E0 into F2.
      destruct (dmem n2 acc) eqn:Ed; [discriminate|]. injection E as <-. apply dmem_false in Ed.
      destruct (proj1 (IH _ HI') (ex_intro _ d H)) as (nl & G1 & G2 & G3). exists (n2 :: nl). split; [|split].
      * constructor; [|exact G1]. exists n1. split; [apply (find_promoted_iff _ _ _ _ W' Ho), F1|apply (find_promoted_iff _ _ _ _ W Hm), F2].
      * constructor; [|exact G2]. intros Hi. apply G3 in Hi. apply Hi. apply In_dkeys_dset. auto.
      * intros n [<-|Hn]; [exact Ed|]. intros Hi. apply (G3 n Hn). apply In_dkeys_dset. auto.
    + intros (nl & G1 & G2 & G3). inversion G1 as [|t n2 l nl' (n1 & R1 & R2) G1']; subst. cbn [fst snd] in *.
      apply (find_promoted_iff _ _ _ _ W' Ho) in R1. apply (find_promoted_iff _ _ _ _ W Hm) in R2. rewrite R1. cbn [bind]. rewrite R2. cbn [bind].
      assert (Ed : dmem n2 acc = false) by (apply dmem_false, G3; left; reflexivity). rewrite Ed. cbn [bind].
      apply (IH _ HI'). exists nl'. inversion G2; subst. split; [exact G1'|]. split; [assumption|].
      intros n Hn Hi. apply In_dkeys_dset in Hi. destruct Hi as [->|Hi]; [contradiction|]. eapply G3; [right; exact Hn|exact Hi].
Qed.

Lemma opt_accepted sel m mp : well_named m -> maps_of m = Ok mp ->
  ((exists d, collect_opt sel mp m "" [] = Ok d) <->
   exists ns, Forall2 (fun t n2 => exists n1, resolves_to (snd (fst t)) (snd t) n1 /\ resolves_to m (dotted (fst (fst t)) n1) n2) (opts_declared sel m) ns /\ NoDup ns).
Proof.
  intros W Hm. rewrite collect_opt_eq by (intros p m' Hs; eapply maps_sub; eassumption).
  rewrite (foldM_opt_accept _ _ _ _ W Hm).
  2:{ intros t Ht. split; [eapply opt_items_well; eassumption|]. unfold opt_items in Ht. apply in_flat_map in Ht.
      destruct Ht as ([p m'] & Hp & Hi). apply in_map_iff in Hi. destruct Hi as (k & <- & _). cbn. apply preorder_spec in Hp.
      eapply maps_sub; eassumption. }
  assert (EQ : opt_items sel "" m = map (fun t => (ns_of (fst (fst t)), snd (fst t), snd t)) (opts_declared sel m)).
  { unfold opt_items, opts_declared. assert (Hin : incl (preorder m) (preorder m)) by apply incl_refl. revert Hin.
    generalize (preorder m) at 1 3 4. intros l Hin. induction l as [|[p m'] l IH]; [reflexivity|]. cbn [flat_map fst snd].
    rewrite map_app, map_map. cbn [fst snd]. rewrite IH by (intros t Ht; apply Hin; right; exact Ht). f_equal.
    apply map_ext. intros k. change ""%string with (ns_of []). rewrite (ns_join_of [] p); [reflexivity|].
    apply names_nonempty. eapply sub_at_names; [exact W|]. apply preorder_spec, Hin. left. reflexivity. }
  rewrite EQ.
  assert (HP : forall t, In t (opts_declared sel m) -> Forall (fun n => n <> ""%string) (fst (fst t))).
  { intros t Ht. unfold opts_declared in Ht. apply in_flat_map in Ht. destruct Ht as ([p m'] & Hp & Hi). apply in_map_iff in Hi.
    destruct Hi as (k & <- & _). cbn. apply preorder_spec in Hp. apply names_nonempty. eapply sub_at_names; eassumption. }
  assert (F : forall ns, Forall2 (fun t n2 => exists n1, resolves_to (snd (fst t)) (snd t) n1 /\ resolves_to m (prepend_namespace (fst (fst t)) n1) n2)
        (map (fun t => (ns_of (fst (fst t)), snd (fst t), snd t)) (opts_declared sel m)) ns <->
      Forall2 (fun t n2 => exists n1, resolves_to (snd (fst t)) (snd t) n1 /\ resolves_to m (dotted (fst (fst t)) n1) n2) (opts_declared sel m) ns).
  { revert HP. generalize (opts_declared sel m). induction l as [|[[p m'] k] l IH]; intros HP ns; cbn [map].
    - split; intros H; inversion H; constructor.
    - specialize (IH (fun t Ht => HP t (or_intror Ht))).
      pose proof (HP _ (or_introl eq_refl)) as Np. cbn [fst snd] in *.
      split; intros H; inversion H as [|? n2 ? ns' (n1 & R1 & R2) H']; subst; constructor; try (apply IH; assumption);
        exists n1; cbn [fst snd] in *; rewrite ?prepend_ns_of in * by exact Np; auto. }
  split.
  - intros (ns & H1 & H2 & _). exists ns. split; [apply F, H1|exact H2].
  - intros (ns & H1 & H2). exists ns. split; [apply F, H1|]. split; [exact H2|]. intros n _ [].
Qed.

(** ** Objective *)
Lemma find_objective_eq mp m ns obj : (forall p m', sub_at m p m' -> exists mp', maps_of m' = Ok mp') ->
  (do r <- find_objective mp m ns obj; Ok (fst r)) = foldM (obj_step mp) (map (fun pm => (ns_join ns (fst pm), snd pm)) (preorder m)) obj.
Proof.
  revert ns obj. induction m as [m IH] using model_ind'. intros ns obj HM.
  rewrite find_objective_unfold, preorder_unfold. cbn [map fst snd ns_join fold_left foldM].
  destruct (HM [] m (sub_here m)) as [own Ho]. rewrite Ho. cbn [bind]. unfold obj_step at 1. cbn [fst snd]. rewrite Ho. cbn [bind].
  destruct (obj_here own mp ns (m_obj m) obj) as [ob|e]; cbn [bind]; [|reflexivity].
  assert (HS : forall nm pr sm, In (nm, pr, sm) (m_subs m) -> forall p m', sub_at sm p m' -> exists mp', maps_of m' = Ok mp').
  { intros nm pr sm Hi p m' Hs. eapply HM. econstructor; eassumption. }
  transitivity (do t <- obj_subs (find_objective mp) ns (m_subs m) (fst ob); Ok (fst t)).
  { destruct (obj_subs _ _ _ _) as [t|e]; reflexivity. }
  clear HM Ho. generalize (fst ob). revert HS IH. generalize (m_subs m). intros l.
  induction l as [|[[nm pr] sm] r IHr]; intros HS IH o; cbn [flat_map fst snd obj_subs map]; [reflexivity|].
  rewrite map_app, foldM_app_eq, map_map. cbn [fst snd].
  pose proof (IH _ _ _ (or_introl eq_refl) (prepend_namespace ns nm) o (HS _ _ _ (or_introl eq_refl))) as E.
  match goal with |- _ = bind ?y _ => assert (E' : (do r0 <- find_objective mp sm (prepend_namespace ns nm) o; Ok (fst r0)) = y) by exact E; rewrite <- E' end.
  destruct (find_objective mp sm (prepend_namespace ns nm) o) as [x|e]; cbn [bind]; [|reflexivity].
  rewrite <- IHr; [|intros; eapply HS; [right; eassumption|eassumption]|intros; eapply IH; [right; eassumption|assumption]].
  destruct (obj_subs _ _ _ _); reflexivity.
Qed.

Lemma foldM_obj_accept m mp items obj : well_named m -> maps_of m = Ok mp ->
  (forall t, In t items -> well_named (snd t) /\ exists mp', maps_of (snd t) = Ok mp') ->
  match obj, filter (fun t => match m_obj (snd t) with Some _ => true | None => false end) items with
  | _, [] => True
  | None, [(ns, m')] => exists k n1 n2, m_obj m' = Some k /\ resolves_to m' k n1 /\ resolves_to m (prepend_namespace ns n1) n2
  | _, _ => False
  end -> exists o, foldM (obj_step mp) items obj = Ok o.
Proof.
  intros W Hm. revert obj. induction items as [|[ns m'] items IH]; intros obj HI H; cbn [foldM]; [eauto|].
  destruct (HI _ (or_introl eq_refl)) as [W' [own Ho]]. cbn [fst snd] in *. unfold obj_step at 1. cbn [fst snd]. rewrite Ho. cbn [bind].
  assert (HI' : forall t, In t items -> well_named (snd t) /\ exists mp', maps_of (snd t) = Ok mp') by (intros; apply HI; right; assumption).
  cbn [filter snd] in H. unfold obj_here. destruct (m_obj m') as [k|] eqn:Ek.
  - destruct obj as [o|]; [contradiction|]. destruct (filter _ items) eqn:Ef; [|contradiction].
    destruct H as (k' & n1 & n2 & E & R1 & R2). rewrite Ek in E. injection E as <-.
    apply (find_promoted_iff _ _ _ _ W' Ho) in R1. apply (find_promoted_iff _ _ _ _ W Hm) in R2.
    rewrite R1. cbn [bind]. rewrite R2. cbn [bind fst]. apply IH; [exact HI'|]. exact I.
  - cbn [bind fst]. apply IH; assumption.
Qed.

Lemma objective_accepted m mp : well_named m -> maps_of m = Ok mp ->
  match obj_owners m with
  | [] => True
  | [(p, m')] => exists k n1 n2, m_obj m' = Some k /\ resolves_to m' k n1 /\ resolves_to m (dotted p n1) n2
  | _ => False
  end -> exists r, rep_objective m = Ok r.
Proof.
  intros W Hm H. unfold rep_objective. rewrite Hm. cbn [bind].
  pose proof (find_objective_eq mp m "" None (fun p m' Hs => maps_sub _ _ _ _ Hm Hs)) as E.
  assert (X : exists o, foldM (obj_step mp) (map (fun pm => (ns_join "" (fst pm), snd pm)) (preorder m)) None = Ok o).
  { apply (foldM_obj_accept _ _ _ _ W Hm).
    - intros t Ht. apply in_map_iff in Ht. destruct Ht as ([p m'] & <- & Hp). apply preorder_spec in Hp. cbn.
      split; [eapply well_named_sub_at; eassumption|eapply maps_sub; eassumption].
    - assert (EF : forall l, filter (fun t : string * model => match m_obj (snd t) with Some _ => true | None => false end)
          (map (fun pm => (ns_join "" (fst pm), snd pm)) l) = map (fun pm => (ns_join "" (fst pm), snd pm)) (filter has_obj l)).
      { induction l as [|[p m'] l IH]; [reflexivity|]. cbn [map filter fst snd]. rewrite has_obj_eq.
        destruct (m_obj m'); cbn [map fst snd]; rewrite IH; reflexivity. }
      rewrite EF. unfold obj_owners in H. assert (Hf : forall pm, In pm (filter has_obj (preorder m)) -> sub_at m (fst pm) (snd pm)).
      { intros [p m'] Hi. apply filter_In in Hi. apply preorder_spec, Hi. }
      destruct (filter has_obj (preorder m)) as [|[p m'] [|? ?]]; cbn [map fst snd]; [exact I| |exact H].
      destruct H as (k & n1 & n2 & H1 & H2 & H3). exists k, n1, n2. split; [exact H1|]. split; [exact H2|].
      pose proof (Hf (p, m') (or_introl eq_refl)) as Hs. cbn [fst snd] in Hs.
      assert (Np : Forall (fun n => n <> ""%string) p) by (apply names_nonempty; eapply sub_at_names; eassumption).
      change ""%string with (ns_of []). rewrite (ns_join_of [] p) by exact Np. cbn [app]. rewrite prepend_ns_of by exact Np. exact H3. }
  destruct X as [o X]. rewrite X in E. destruct (find_objective mp m "" None) as [r|e]; [eauto|discriminate].
Qed.
