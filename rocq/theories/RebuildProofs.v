From Verif Require Import PyBase NamesModel PromotionsModel PromotionsSpec PromotionsProofs PromotionsProofs2 HierModel HierSpec HierProofs HierProofs2 RebuildSpec.
Local Open Scope list_scope.
Local Notation erase := without_objective.

Lemma erase_unfold m : erase m = Mdl (m_inputs m) (m_outputs m) (m_declared m) (m_conns m) (m_dvs m) (m_cons m) None
  (map (fun t => (fst t, erase (snd t))) (m_subs m)).
Proof. destruct m; reflexivity. Qed.

(** The other passes do not look at the objective. *)
Lemma resolve_children_erase f g l : (forall nm pr sm, In (nm, pr, sm) l -> forall p, f sm p = g (erase sm) p) ->
  forall a b, resolve_children f l a b = resolve_children g (map (fun t => (fst t, erase (snd t))) l) a b.
Proof.
  induction l as [|[[nm pr] sm] r IH]; intros H a b; cbn [resolve_children map fst snd]; [reflexivity|].
  rewrite (H _ _ _ (or_introl eq_refl)). destruct (g (erase sm) pr) as [x|e]; cbn [bind]; [|reflexivity].
  destruct (check_duplicate_keys _ _); cbn [bind]; [|reflexivity]. destruct (find_names_with_matching_shapes _ _); cbn [bind]; [|reflexivity].
  rewrite IH; [reflexivity|]. intros. apply (H nm0 pr0). right. assumption.
Qed.
Lemma resolve_erase m : forall pr, resolve m pr = resolve (erase m) pr.
Proof.
  induction m as [m IH] using model_ind'. intros pr. rewrite erase_unfold. destruct m as [i o d c v k mo subs]. cbn [resolve m_inputs m_outputs m_declared m_conns m_dvs m_cons m_subs].
  rewrite (resolve_children_erase resolve resolve subs); [reflexivity|]. intros nm p sm Hi. exact (IH _ _ _ Hi).
Qed.
Lemma maps_erase m : maps_of m = maps_of (erase m).
Proof. unfold maps_of. rewrite resolve_erase. reflexivity. Qed.
Lemma connections_erase m : forall ns, collect_connections m ns = collect_connections (erase m) ns.
Proof.
  induction m as [m IH] using model_ind'. intros ns. destruct m as [i o d c v k mo subs]. cbn [collect_connections without_objective]. f_equal.
  cbn [m_subs] in IH. induction subs as [|[[nm pr] sm] r IHr]; cbn [map fst snd]; [reflexivity|].
  f_equal; [exact (IH _ _ _ (or_introl eq_refl) _)|]. apply IHr. intros. eapply IH. right. eassumption.
Qed.
Lemma collect_opt_erase sel mp : (forall m, sel (erase m) = sel m) -> forall m ns acc, collect_opt sel mp m ns acc = collect_opt sel mp (erase m) ns acc.
Proof.
  intros HS. induction m as [m IH] using model_ind'. intros ns acc.
  pose proof (maps_erase m) as Hm. pose proof (HS m) as Hs. destruct m as [i o d c v k mo subs]. cbn [without_objective] in *. cbn [collect_opt].
  rewrite Hm, Hs. clear Hm Hs. match goal with |- bind ?x _ = bind ?x _ => destruct x as [own|e]; cbn [bind]; [|reflexivity] end.
  match goal with |- bind ?x _ = bind ?x _ => destruct x as [acc1|e]; cbn [bind]; [|reflexivity] end.
  cbn [m_subs] in IH. revert acc1. induction subs as [|[[nm pr] sm] r IHr]; intros acc1; cbn [map fst snd]; [reflexivity|].
  rewrite (IH _ _ _ (or_introl eq_refl)). match goal with |- bind ?x _ = bind ?x _ => destruct x as [acc2|e]; cbn [bind]; [|reflexivity] end.
  apply IHr. intros. eapply IH. right. eassumption.
Qed.
Lemma dvs_erase m : m_dvs (erase m) = m_dvs m. Proof. destruct m; reflexivity. Qed.
Lemma cons_erase m : m_cons (erase m) = m_cons m. Proof. destruct m; reflexivity. Qed.

(** Finding the objective changes only objectives. *)
Definition match_obj (o : option string) (a b : list string * model) : Prop :=
  fst a = fst b /\ erase (snd a) = erase (snd b) /\
  match m_obj (snd a) with None => m_obj (snd b) = None | Some _ => o <> None /\ m_obj (snd b) = o end.

Lemma find_objective_keeps mp m : forall ns x o m2, find_objective mp m ns (Some x) = Ok (o, m2) -> o = Some x.
Proof.
  induction m as [m IH] using model_ind'. intros ns x o m2 H. rewrite find_objective_unfold in H. inv_bind H. inv_bind H. inv_bind H.
  destruct a1 as [o' subs']. injection H as <- <-. rename E0 into Hb.
  assert (Hf : fst a0 = Some x).
  { unfold obj_here in Hb. destruct (m_obj m); [|injection Hb as <-; reflexivity]. inv_bind Hb. inv_bind Hb. discriminate. }
  rewrite Hf in E1. cbn [fst]. clear Hb E Hf. revert o' subs' E1 IH. generalize (m_subs m). intros l.
  induction l as [|[[nm pr] sm] r IHr]; intros o' subs' E IH; cbn [obj_subs] in E; [injection E as <- <-; reflexivity|].
  inv_bind E. destruct a1 as [o1 sm']. rename E0 into E1. inv_bind E. destruct a1 as [o2 r']. injection E as <- <-. cbn [fst snd] in *.
  apply (IH _ _ _ (or_introl eq_refl)) in E1. subst o1. eapply IHr; [exact E0|]. intros. eapply IH; [right; eassumption|eassumption].
Qed.

Lemma find_objective_erase mp m : forall ns obj o m2, find_objective mp m ns obj = Ok (o, m2) -> erase m2 = erase m.
Proof.
  induction m as [m IH] using model_ind'. intros ns obj o m2 H. rewrite find_objective_unfold in H. inv_bind H. inv_bind H. inv_bind H.
  destruct a1 as [o' subs']. injection H as <- <-. rewrite (erase_unfold m), erase_unfold. unfold with_obj. cbn [m_inputs m_outputs m_declared m_conns m_dvs m_cons m_subs].
  f_equal. clear E E0. revert o' subs' E1 IH. generalize (fst a0). generalize (m_subs m). intros l.
  induction l as [|[[nm pr] sm] r IHr]; intros ob o' subs' E IH; cbn [obj_subs] in E; [injection E as <- <-; reflexivity|].
  inv_bind E. destruct a1 as [o1 sm']. rename E0 into E1. inv_bind E. destruct a1 as [o2 r']. injection E as <- <-. cbn [fst snd map] in *.
  f_equal; [f_equal; eapply IH; [left; reflexivity|eassumption]|]. eapply IHr; [exact E0|]. intros. eapply IH; [right; eassumption|eassumption].
Qed.

Lemma find_objective_matches mp m : forall ns obj o m2, find_objective mp m ns obj = Ok (o, m2) ->
  (obj <> None -> o = obj) /\ Forall2 (match_obj o) (preorder m) (preorder m2).
Proof.
  induction m as [m IH] using model_ind'. intros ns obj o m2 H. split.
  { intros Hn. destruct obj as [x|]; [eapply find_objective_keeps; exact H|congruence]. }
  pose proof (find_objective_erase _ _ _ _ _ _ H) as HE.
  rewrite find_objective_unfold in H. inv_bind H. inv_bind H. inv_bind H.
  destruct a1 as [o' subs']. injection H as <- <-. rewrite (preorder_unfold m), preorder_unfold. cbn [with_obj m_subs]. cbn [fst snd].
  assert (Hpre : (fst a0 <> None -> o' = fst a0) /\ Forall2 (match_obj o')
     (flat_map (fun t => map (fun pm => (fst (fst t) :: fst pm, snd pm)) (preorder (snd t))) (m_subs m))
     (flat_map (fun t => map (fun pm => (fst (fst t) :: fst pm, snd pm)) (preorder (snd t))) subs')).
  { clear E E0 HE. revert o' subs' E1 IH. generalize (fst a0). generalize (m_subs m). intros l.
    induction l as [|[[nm pr] sm] r IHr]; intros ob o' subs' E IH; cbn [obj_subs] in E; [injection E as <- <-; split; [auto|constructor]|].
    inv_bind E. destruct a1 as [o1 sm']. rename E0 into E1. inv_bind E. destruct a1 as [o2 r']. injection E as <- <-. cbn [fst snd flat_map] in *.
    destruct (IH _ _ _ (or_introl eq_refl) _ _ _ _ E1) as [K1 F1].
    destruct (IHr _ _ _ E0) as [K2 F2]; [intros; eapply IH; [right; eassumption|eassumption]|].
    split; [intros Hn; specialize (K1 Hn); subst o1; apply K2, Hn|].
    apply Forall2_app; [|exact F2].
    assert (F1' : Forall2 (match_obj o2) (preorder sm) (preorder sm')).
    { clear -F1 K2. induction F1 as [|[p x] [q y] A B (H1 & H2 & H3) F IH]; constructor; [|exact IH].
      split; [exact H1|]. split; [exact H2|]. cbn [fst snd] in *. destruct (m_obj x); [|exact H3]. destruct H3 as [H3 ->]. rewrite (K2 H3). auto. }
    clear -F1'. induction F1' as [|[p x] [q y] A B (H1 & H2 & H3) F IH]; cbn [map]; constructor; [|exact IH].
    cbn [fst snd] in *. subst q. split; [reflexivity|]. split; assumption. }
  destruct Hpre as [K F]. constructor; [|exact F]. split; [reflexivity|]. cbn [fst snd]. split; [symmetry; exact HE|].
  cbn [with_obj m_obj]. unfold obj_here in E0. destruct (m_obj m) as [n|].
  - inv_bind E0. inv_bind E0. destruct obj; [discriminate|]. injection E0 as <-. cbn [fst snd] in *.
    rewrite K by discriminate. split; [discriminate|reflexivity].
  - injection E0 as <-. reflexivity.
Qed.
