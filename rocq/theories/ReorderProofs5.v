(** Programs whose calls are in another order. *)
From Verif Require Import PyBase NamesModel PromotionsModel PromotionsSpec PromotionsProofs ExprModel ExprSpec ExprProofs UnflatModel EffectSpec EffectProofs WorldModel WorldSpec WorldSpec2 WorldProofs WorldProofs2 WorldProofs4 WorldProofs5 WorldProofs6 WorldProofs7 ReorderSpec ReorderProofs ReorderProofs3 ReorderProofs4.
From Coq Require Import Permutation Lia.
Local Open Scope list_scope.

Lemma wsim_sym a b : wsim a b -> wsim b a.
Proof.
  intros [A1 A2 A3]. split; auto. clear - A3. induction A3 as [|x y l k [B1 B2 B3 B4 B5 B6 B7 B8] F IH]; constructor; [|exact IH]. split; auto; apply Permutation_sym; assumption.
Qed.
Lemma nth_upd_same {A} (l : list A) : forall k f, nth_error (upd l k f) k = option_map f (nth_error l k).
Proof. induction l as [|y l IH]; intros [|k] f; cbn; auto. Qed.
Lemma nth_upd_diff {A} (l : list A) : forall j k f, j <> k -> nth_error (upd l j f) k = nth_error l k.
Proof. induction l as [|y l IH]; intros [|j] [|k] f N; cbn; auto; try lia; try (exfalso; lia). Qed.
Lemma len_upd {A} (l : list A) : forall j f, length (upd l j f) = length l.
Proof. induction l as [|y l IH]; intros [|j] f; cbn; auto. Qed.
Lemma msims_refl ms : Forall2 msim ms ms.
Proof. induction ms; constructor; auto using msim_refl. Qed.
Lemma sim_same ms k f g : (forall a, nth_error ms k = Some a -> msim (f a) (g a)) -> Forall2 msim (upd ms k f) (upd ms k g).
Proof. intros H. apply sim_upd; [apply msims_refl|]. intros a b Ea Eb _. rewrite Ea in Eb. injection Eb as <-. auto. Qed.

Lemma swap_decl w e1 e2 : declares e1 = true -> declares e2 = true -> independent e1 e2 -> wsim (wstep (wstep w e1) e2) (wstep (wstep w e2) e1).
Proof.
  intros D1 D2 I. rewrite (wstep_decl w e1 D1), (wstep_decl w e2 D2), !(wstep_decl (World _ _ _)) by assumption. cbn [w_heap w_count w_models]. rewrite !len_upd.
  set (hp := w_heap w). set (n := length (w_models w)). set (ms := w_models w). destruct (Nat.eq_dec (actor e1) (actor e2)) as [E|NE].
  - assert (C : forall m, nth_error ms (actor e1) = Some m -> _) by (intros m _; exact (eff_swap hp n e1 e2 m D1 D2 I E)).
    split; cbn [w_heap w_count w_models]; [reflexivity| |].
    + unfold cnt_at. rewrite <- E, !nth_upd_same. destruct (nth_error ms (actor e1)) as [m|] eqn:Em; cbn [option_map]; [|reflexivity]. destruct (C m eq_refl) as [_ Q]. rewrite <- !N.add_assoc, Q. reflexivity.
    + rewrite <- E, !upd_twice. apply sim_same. intros m Em. apply (C m Em).
  - rewrite upd_swap by exact NE. unfold cnt_at. rewrite !nth_upd_diff by auto. split; cbn [w_heap w_count w_models]; [reflexivity| |apply msims_refl].
    rewrite <- !N.add_assoc. f_equal. apply N.add_comm.
Qed.

(** Connections and constraints do not meet the other calls. *)
Definition apart_of_calls (e : wevent) : bool := match e with WConnect _ _ _ | WConstraint _ _ => true | _ => false end.
Lemma apart_eff e hp n hp' n' m : apart_of_calls e = true -> eff hp n e m = eff hp' n' e m.
Proof. destruct e; try discriminate; reflexivity. Qed.
Lemma apart_cnt e hp n m : apart_of_calls e = true -> cnt hp n e m = 0%N.
Proof. destruct e; try discriminate; intros _; unfold cnt; destruct (dstep _ _ _ _); reflexivity. Qed.
Lemma apart_view e hp n w m : apart_of_calls e = true -> view w (eff hp n e m) = view w m.
Proof. destruct e; try discriminate; intros _; unfold eff; cbn [dstep]; repeat match goal with |- context [if ?b then _ else _] => destruct b end; reflexivity. Qed.
Lemma apart_lists e hp n s m : apart_of_calls e = true -> with_lists s (eff hp n e m) = eff hp n e (with_lists s m).
Proof. destruct e; try discriminate; intros _; unfold eff; cbn [dstep]; cbn [with_lists wm_conns wm_cons]; repeat match goal with |- context [if ?b then _ else _] => destruct b end; reflexivity. Qed.
Lemma on_add w k on : wstep w (WOn k (EAdd on)) = w.
Proof. cbn [wstep]. destruct (nth_error (w_models w) k); reflexivity. Qed.
Lemma on_none w k ev : nth_error (w_models w) k = None -> wstep w (WOn k ev) = w.
Proof. cbn [wstep]. intros ->. destruct ev; reflexivity. Qed.
Lemma on_some w k ev m : (forall on, ev <> EAdd on) -> nth_error (w_models w) k = Some m -> wstep w (WOn k ev) = put w k (bstep (view w m) ev).
Proof. cbn [wstep]. intros N ->. destruct ev; try reflexivity. exfalso. eapply N. reflexivity. Qed.
Lemma swap_on w e k ev : apart_of_calls e = true -> wstep (wstep w e) (WOn k ev) = wstep (wstep w (WOn k ev)) e.
Proof.
  intros A. assert (D : declares e = true) by (destruct e; try discriminate; reflexivity).
  assert (NE : (exists on, ev = EAdd on) \/ forall on, ev <> EAdd on) by (destruct ev; eauto; right; discriminate).
  destruct NE as [[on ->]|NE]; [rewrite !on_add; reflexivity|].
  assert (WE : forall v, wstep v e = World (w_heap v) (w_count v) (upd (w_models v) (actor e) (eff [] 0 e))).
  { intros v. rewrite (wstep_decl v e D). f_equal; [|apply upd_ext; intros; apply apart_eff, A]. unfold cnt_at. destruct (nth_error _ _); rewrite ?apart_cnt by exact A; apply N.add_0_r. }
  destruct (nth_error (w_models w) k) as [m|] eqn:E.
  - assert (X : exists m', nth_error (w_models (wstep w e)) k = Some m' /\ view (wstep w e) m' = view w m).
    { rewrite WE. cbn [w_models]. destruct (Nat.eq_dec (actor e) k) as [<-|N].
      - rewrite nth_upd_same, E. exists (eff [] 0 e m). split; [reflexivity|]. exact (apart_view e [] 0 w m A).
      - rewrite nth_upd_diff by exact N. exists m. split; [exact E|reflexivity]. }
    destruct X as (m' & Em' & V). rewrite (on_some _ _ _ _ NE Em'), (on_some _ _ _ _ NE E), V, !WE. unfold put. cbn [w_heap w_count w_models]. f_equal.
    destruct (Nat.eq_dec (actor e) k) as [<-|N].
    + rewrite !upd_twice. apply upd_ext. intros x _. apply apart_lists, A.
    + apply upd_swap, N.
  - rewrite (on_none w k ev E), on_none; [reflexivity|]. rewrite WE. cbn [w_models]. destruct (Nat.eq_dec (actor e) k) as [<-|N]; [rewrite nth_upd_same, E; reflexivity|rewrite nth_upd_diff by exact N; exact E].
Qed.
Lemma swap_sim w e1 e2 : independent e1 e2 -> wsim (wstep (wstep w e1) e2) (wstep (wstep w e2) e1).
Proof.
  intros I. destruct (declares e1) eqn:D1, (declares e2) eqn:D2.
  - apply swap_decl; assumption.
  - destruct e1 as [|k ev|k [nm|] pr c|k a b|k x|k x|k x]; try discriminate; destruct e2 as [|k' ev'|k' [nm'|] pr' c'|k' a' b'|k' x'|k' x'|k' x']; try discriminate; cbn in I; try (destruct I; discriminate);
      rewrite swap_on by reflexivity; apply wsim_refl.
  - destruct e1 as [|k ev|k [nm|] pr c|k a b|k x|k x|k x]; try discriminate; destruct e2 as [|k' ev'|k' [nm'|] pr' c'|k' a' b'|k' x'|k' x'|k' x']; try discriminate; cbn in I; try (destruct I; discriminate);
      rewrite <- swap_on by reflexivity; apply wsim_refl.
  - destruct e1 as [|k ev|k [nm|] pr c|k a b|k x|k x|k x]; try discriminate; destruct e2 as [|k' ev'|k' [nm'|] pr' c'|k' a' b'|k' x'|k' x'|k' x']; try discriminate; cbn in I; destruct I; discriminate.
Qed.
Lemma reordered_sim l l' : reordered l l' -> wsim (whistory l) (whistory l').
Proof.
  induction 1 as [l|l e1 e2 r I|a b c _ IH1 _ IH2]; [apply wsim_refl| |eapply wsim_trans; eassumption].
  unfold whistory. rewrite !fold_left_app. cbn [fold_left]. apply run_sim, swap_sim, I.
Qed.

(** ** The hierarchies *)
Lemma all_some_perm {A} (l l' : list (option A)) : Permutation l l' -> forall x, all_some l = Some x -> exists x', all_some l' = Some x' /\ Permutation x x'.
Proof.
  induction 1 as [|o l l' P IH|a b l|l l2 l3 P1 IH1 P2 IH2]; intros x H.
  - injection H as <-. exists []. auto.
  - cbn in *. destruct o as [o|]; [|discriminate]. destruct (all_some l) as [y|]; [|discriminate]. injection H as <-. destruct (IH y eq_refl) as (y' & -> & Q). exists (o :: y'). auto.
  - cbn in *. destruct a as [a|], b as [b|]; try discriminate; destruct (all_some l) as [y|]; try discriminate. injection H as <-. exists (a :: b :: y). split; [reflexivity|constructor].
  - destruct (IH1 x H) as (y & Hy & Q). destruct (IH2 y Hy) as (z & Hz & Q'). exists z. split; [exact Hz|eapply perm_trans; eassumption].
Qed.
(** [tree] as a list of results for the submodels. *)
Lemma tree_list {A B} (g : A -> option B) l x : all_some (map g l) = Some x -> Forall2 (fun a b => g a = Some b) l x.
Proof. revert x. induction l as [|a l IH]; intros x H; cbn in H; [injection H as <-; constructor|]. destruct (g a) eqn:E; [|discriminate]. destruct (all_some (map g l)); [|discriminate]. injection H as <-. constructor; auto. Qed.
Lemma list_tree {A B} (g : A -> option B) l x : Forall2 (fun a b => g a = Some b) l x -> all_some (map g l) = Some x.
Proof. induction 1 as [|a b l x E F IH]; cbn; [reflexivity|]. rewrite E, IH. reflexivity. Qed.
Lemma forall2_perm_pairs {A B} (P : A -> B -> Prop) l l2 x : Permutation l l2 -> Forall2 P l x -> exists x2, Permutation (combine l x) (combine l2 x2) /\ Forall2 P l2 x2.
Proof.
  intros Q. revert x. induction Q as [|a l l2 Q IH|a b l|l l2 l3 Q1 IH1 Q2 IH2]; intros x F.
  - inversion F; subst. exists []. auto.
  - inversion F as [|? c ? x' Pa F']; subst. destruct (IH _ F') as (x2 & R & F2). exists (c :: x2). split; [cbn; constructor; exact R|constructor; assumption].
  - inversion F as [|? c ? x' Pb F']; subst. inversion F' as [|? d ? x'' Pa F'']; subst. exists (d :: c :: x''). split; [cbn; constructor|]. repeat constructor; assumption.
  - destruct (IH1 _ F) as (x2 & R & F2). destruct (IH2 _ F2) as (x3 & R' & F3). exists x3. split; [eapply perm_trans; eassumption|exact F3].
Qed.
Lemma combine_maps {A B C D} (f : A -> C) (g : B -> D) l : forall x, combine (map f l) (map g x) = map (fun p => (f (fst p), g (snd p))) (combine l x).
Proof. induction l as [|a l IH]; intros [|b x]; cbn; try reflexivity. f_equal. apply IH. Qed.
Lemma combine_forall {A B} (R : B -> B -> Prop) (l : list A) : forall x y, Forall2 R x y -> Forall2 (fun s t => fst s = fst t /\ R (snd s) (snd t)) (combine l x) (combine l y).
Proof. induction l as [|a l IH]; intros x y F; [constructor|]. inversion F; subst; cbn; constructor; auto. Qed.
Lemma tree_sim w w' shp : wsim w w' -> forall f k um m, tree f w shp k = Some (um, m) -> exists um' m', tree f w' shp k = Some (um', m') /\ um_reorder um um' /\ reorder m m'.
Proof.
  intros S. pose proof S as [HH _ F]. induction f as [|f IH]; intros k um m T; [discriminate|]. cbn [tree] in *. pose proof (sim_nth _ _ k F) as N.
  destruct (nth_error (w_models w) k) as [a|]; [|discriminate]. destruct (nth_error (w_models w') k) as [b|]; [|contradiction]. destruct N as [M1 M2 M3 M4 M5 M6 M7 M8].
  destruct (all_some (map (fun t => tree f w shp (snd t)) (wm_subs a))) as [x|] eqn:E; [|discriminate]. injection T as <- <-.
  apply tree_list in E. destruct (forall2_perm_pairs _ _ _ _ M5 E) as (x2 & PX & FX).
  assert (Y : exists y, all_some (map (fun t => tree f w' shp (snd t)) (wm_subs b)) = Some y /\ Forall2 (fun c d => um_reorder (fst c) (fst d) /\ reorder (snd c) (snd d)) x2 y).
  { clear - IH FX. induction FX as [|t c l x2 Ht FX IHF]; [exists []; split; [reflexivity|constructor]|]. destruct IHF as (y & Hy & Fy). destruct c as [u v]. destruct (IH _ _ _ Ht) as (u' & v' & T' & RU & R).
    exists ((u', v') :: y). split; [cbn; rewrite T', Hy; reflexivity|constructor; auto]. }
  destruct Y as (y & Hy & Fy). rewrite Hy. do 2 eexists. split; [reflexivity|].
  assert (Z : permR (fun s t => fst s = fst t /\ um_reorder (fst (snd s)) (fst (snd t)) /\ reorder (snd (snd s)) (snd (snd t))) (combine (wm_subs a) x) (combine (wm_subs b) y)).
  { eapply permR_perm_l; [exact PX|]. exists (combine (wm_subs b) y). split; [apply Permutation_refl|]. exact (combine_forall _ _ _ _ Fy). }
  rewrite <- HH. split.
  - unfold sub_names. rewrite !combine_maps.
    assert (Q : permR (fun s t : string * umodel => fst s = fst t /\ um_reorder (snd s) (snd t)) (map (fun p => (fst (fst (fst p)), fst (snd p))) (combine (wm_subs a) x)) (map (fun p => (fst (fst (fst p)), fst (snd p))) (combine (wm_subs b) y))).
    { eapply permR_map; [|exact Z]. intros s t (E1 & E2 & _). cbn. split; [congruence|exact E2]. }
    destruct Q as (s2 & P2 & F2). rewrite M1, M2, M3. apply (um_reorder_intro _ _ _ _ _ _ _ _ s2); try apply Permutation_refl; assumption.
  - rewrite !combine_maps.
    assert (Q : permR (fun s t : string * promotes_t * model => fst s = fst t /\ reorder (snd s) (snd t)) (map (fun p => (fst (fst p), snd (snd p))) (combine (wm_subs a) x)) (map (fun p => (fst (fst p), snd (snd p))) (combine (wm_subs b) y))).
    { eapply permR_map; [|exact Z]. intros s t (E1 & _ & E2). cbn. split; [congruence|exact E2]. }
    destruct Q as (s2 & P2 & F2). rewrite M1, M2, M3, M4. apply (reorder_intro _ _ s2); cbn; try apply Permutation_refl; try assumption; try reflexivity.
Qed.
