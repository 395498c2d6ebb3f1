(** Hierarchies that differ in the order of what they list have the same equations, and the same
    rules hold for them. *)
From Verif Require Import PyBase NamesModel PromotionsModel PromotionsSpec PromotionsProofs HierModel HierSpec Digraph FlatModel ExprModel UnflatModel UnflatSpec
  FlattenModel FlattenSpec FlattenProofs3 CompileModel CompileSpec AcceptSpec DependSpec ExtendSpec ExtendProofs ReorderSpec.
From Coq Require Import Permutation.
Local Open Scope list_scope.

(** ** Lists that are equal up to order and a relation on elements *)
Definition permR {A B} (R : A -> B -> Prop) (l : list A) (l' : list B) : Prop := exists k, Permutation l' k /\ Forall2 R l k.
Lemma forall2_perm {A B} (R : A -> B -> Prop) l l2 k : Permutation l l2 -> Forall2 R l k -> exists k2, Permutation k k2 /\ Forall2 R l2 k2.
Proof.
  intros P. revert k. induction P as [|x l l2 P IH|x y l|l l2 l3 P1 IH1 P2 IH2]; intros k F.
  - exists k. auto.
  - inversion F as [|? b ? k' Rx F']; subst. destruct (IH _ F') as (k2 & P' & F2). exists (b :: k2). split; [constructor; exact P'|constructor; assumption].
  - inversion F as [|? b ? k' Rx F']; subst. inversion F' as [|? c ? k'' Ry F'']; subst. exists (c :: b :: k''). split; [constructor|]. repeat constructor; assumption.
  - destruct (IH1 _ F) as (k2 & P' & F2). destruct (IH2 _ F2) as (k3 & P'' & F3). exists k3. split; [eapply perm_trans; eassumption|exact F3].
Qed.
Lemma forall2_flip {A B} (R : A -> B -> Prop) l k : Forall2 R l k -> Forall2 (fun b a => R a b) k l.
Proof. induction 1; constructor; assumption. Qed.
Lemma forall2_map2 {A B C D} (R : A -> B -> Prop) (S : C -> D -> Prop) (f : A -> C) (g : B -> D) l k : (forall a b, R a b -> S (f a) (g b)) -> Forall2 R l k -> Forall2 S (map f l) (map g k).
Proof. intros H. induction 1; constructor; auto. Qed.
Lemma permR_flip {A B} (R : A -> B -> Prop) l l' : permR R l l' -> permR (fun b a => R a b) l' l.
Proof. intros (k & P & F). apply forall2_flip in F. apply Permutation_sym in P. destruct (forall2_perm _ _ _ _ P F) as (k2 & P' & F'). exists k2. auto. Qed.
Lemma permR_in {A B} (R : A -> B -> Prop) l l' x : permR R l l' -> In x l -> exists y, In y l' /\ R x y.
Proof.
  intros (k & P & F) Hx. apply Permutation_sym in P. assert (G : exists y, In y k /\ R x y); [|destruct G as (y & Hy & Ry); exists y; split; [eapply Permutation_in; eassumption|exact Ry]].
  clear P. induction F as [|a b l k Rab F IH]; [destruct Hx|]. destruct Hx as [->|Hx]; [exists b; cbn; auto|]. destruct (IH Hx) as (y & Hy & Ry). exists y. cbn. auto.
Qed.
Lemma permR_app {A B} (R : A -> B -> Prop) a b a' b' : permR R a a' -> permR R b b' -> permR R (a ++ b) (a' ++ b').
Proof. intros (k & P & F) (k2 & P2 & F2). exists (k ++ k2). split; [apply Permutation_app; assumption|apply Forall2_app; assumption]. Qed.
Lemma permR_perm {A} (l l' : list A) : Permutation l l' -> permR eq l l'.
Proof. intros P. exists l. split; [apply Permutation_sym, P|]. clear P. induction l; constructor; auto. Qed.
Lemma permR_perm_r {A B} (R : A -> B -> Prop) l l' l2 : permR R l l' -> Permutation l' l2 -> permR R l l2.
Proof. intros (k & P & F) Q. exists k. split; [eapply perm_trans; [apply Permutation_sym, Q|exact P]|exact F]. Qed.
Lemma permR_perm_l {A B} (R : A -> B -> Prop) l l' l2 : Permutation l l2 -> permR R l2 l' -> permR R l l'.
Proof. intros Q H. apply permR_flip in H. apply permR_flip in H. destruct H as (k & P & F). apply Permutation_sym in Q. destruct (forall2_perm _ _ _ _ Q F) as (k2 & P' & F'). exists k2. split; [eapply perm_trans; eassumption|exact F']. Qed.
Lemma permR_map {A B C D} (R : A -> B -> Prop) (S : C -> D -> Prop) (f : A -> C) (g : B -> D) l l' : (forall a b, R a b -> S (f a) (g b)) -> permR R l l' -> permR S (map f l) (map g l').
Proof. intros H (k & P & F). exists (map g k). split; [apply Permutation_map, P|eapply forall2_map2; eassumption]. Qed.
Lemma permR_flat {A B C D} (R : A -> B -> Prop) (S : C -> D -> Prop) (f : A -> list C) (g : B -> list D) l l' :
  (forall a b, In a l -> R a b -> permR S (f a) (g b)) -> permR R l l' -> permR S (flat_map f l) (flat_map g l').
Proof.
  intros H (k & P & F). assert (Q : permR S (flat_map f l) (flat_map g k)).
  { clear P. induction F as [|a b l k Rab F IH]; cbn; [exists []; auto|]. apply permR_app; [apply H; [left; reflexivity|exact Rab]|]. apply IH. intros x y Hx. apply H. right. exact Hx. }
  eapply permR_perm_r; [exact Q|]. apply Permutation_sym, Permutation_flat_map, P.
Qed.
Lemma permR_filter {A B} (R : A -> B -> Prop) (f : A -> bool) (g : B -> bool) l l' : (forall a b, R a b -> f a = g b) -> permR R l l' -> permR R (filter f l) (filter g l').
Proof.
  intros H (k & P & F). exists (filter g k). split.
  - clear F H f R l. induction P as [|x a b P IH|x y a|a b c P1 IH1 P2 IH2]; cbn; [constructor|destruct (g x); [constructor|]; exact IH|destruct (g x), (g y); try constructor; apply Permutation_refl|eapply perm_trans; eassumption].
  - clear P. induction F as [|a b l k Rab F IH]; cbn; [constructor|]. rewrite (H _ _ Rab). destruct (g b); [constructor; assumption|exact IH].
Qed.
Lemma permR_sub {A B} (R S : A -> B -> Prop) l l' : (forall a b, R a b -> S a b) -> permR R l l' -> permR S l l'.
Proof. intros H (k & P & F). exists k. split; [exact P|]. clear P. induction F; constructor; auto. Qed.

Lemma forall2_in {A B} (R S : A -> B -> Prop) l k : (forall a b, In a l -> R a b -> S a b) -> Forall2 R l k -> Forall2 S l k.
Proof. intros H F. induction F as [|a b l k Rab F IH]; constructor; [apply H; [left; reflexivity|exact Rab]|]. apply IH. intros x y Hx. apply H. right. exact Hx. Qed.

(** ** The relation *)
Definition same_sub (R : model -> model -> Prop) (a b : string * promotes_t * model) : Prop := fst a = fst b /\ R (snd a) (snd b).
Lemma reorder_sym m : forall m', reorder m m' -> reorder m' m.
Proof.
  induction m as [m IH] using model_ind'. intros m' H. inversion H as [? ? s2 P1 P2 P3 P4 P5 P6 P7 P8 F]; subst.
  assert (Q : permR (same_sub reorder) (m_subs m') (m_subs m)).
  { assert (F' : Forall2 (fun a b => same_sub reorder b a) (m_subs m) s2).
    { eapply forall2_in; [|exact F]. intros [[n pr] a] b Ha [E R]. split; [symmetry; exact E|]. exact (IH _ _ _ Ha _ R). }
    assert (Q : permR (fun a b => same_sub reorder b a) (m_subs m) (m_subs m')) by (exists s2; auto). apply permR_flip in Q. exact Q. }
  destruct Q as (k & P & FF). econstructor; try (apply Permutation_sym; eassumption); [symmetry; exact P7|exact P|exact FF].
Qed.
Lemma um_reorder_sym u : forall u', um_reorder u u' -> um_reorder u' u.
Proof.
  induction u as [ins outs decls subs IH] using umodel_ind'. intros u' H. inversion H as [? ? ? ? i o d s s2 P1 P2 P3 P8 F]; subst.
  assert (Q : permR (fun a b : string * umodel => fst a = fst b /\ um_reorder (snd a) (snd b)) s subs).
  { assert (F' : Forall2 (fun a b : string * umodel => fst b = fst a /\ um_reorder (snd b) (snd a)) subs s2).
    { eapply forall2_in; [|exact F]. intros a b Ha [E R]. split; [symmetry; exact E|]. rewrite Forall_forall in IH. exact (IH _ Ha _ R). }
    assert (Q : permR (fun a b : string * umodel => fst b = fst a /\ um_reorder (snd b) (snd a)) subs s) by (exists s2; auto). apply permR_flip in Q. exact Q. }
  destruct Q as (k & P & FF). econstructor; try (apply Permutation_sym; eassumption); [exact P|exact FF].
Qed.
Lemma perm_incl {A} (l l' : list A) : Permutation l l' -> incl l l'.
Proof. intros P x Hx. eapply Permutation_in; eassumption. Qed.
Lemma reorder_grows m : forall m', reorder m m' -> grows m m'.
Proof.
  induction m as [m IH] using model_ind'. intros m' H. inversion H as [? ? s2 P1 P2 P3 P4 P5 P6 P7 P8 F]; subst. constructor.
  - intros [| |]; apply perm_incl; assumption.
  - apply perm_incl, P4.
  - intros nm pr sm Hi. destruct (permR_in (same_sub reorder) (m_subs m) (m_subs m') (nm, pr, sm)) as ([[nm' pr'] sm'] & Hi' & E & R); [exists s2; auto|exact Hi|].
    cbn in E, R. injection E as <- <-. exists sm'. split; [exact Hi'|]. exact (IH _ _ _ Hi _ R).
Qed.
Lemma um_reorder_grows u : forall u', um_reorder u u' -> um_grows u u'.
Proof.
  induction u as [ins outs decls subs IH] using umodel_ind'. intros u' H. inversion H as [? ? ? ? i o d s s2 P1 P2 P3 P8 F]; subst. constructor; try (apply perm_incl; assumption).
  intros n sm Hi. destruct (permR_in (fun a b : string * umodel => fst a = fst b /\ um_reorder (snd a) (snd b)) subs s (n, sm)) as ([n' sm'] & Hi' & E & R); [exists s2; auto|exact Hi|].
  cbn in E, R. subst n'. exists sm'. split; [exact Hi'|]. rewrite Forall_forall in IH. exact (IH _ Hi _ R).
Qed.

(** The models of the hierarchy. *)
Definition at_same (a b : list string * model) : Prop := fst a = fst b /\ reorder (snd a) (snd b).
Lemma preorder_reorder m : forall m', reorder m m' -> permR at_same (preorder m) (preorder m').
Proof.
  induction m as [m IH] using model_ind'. intros m' H. pose proof H as H0. inversion H as [? ? s2 P1 P2 P3 P4 P5 P6 P7 P8 F]; subst.
  assert (Q : permR at_same (flat_map (fun t => map (fun pm => (fst (fst t) :: fst pm, snd pm)) (preorder (snd t))) (m_subs m)) (flat_map (fun t => map (fun pm => (fst (fst t) :: fst pm, snd pm)) (preorder (snd t))) (m_subs m'))).
  { apply permR_flat with (R := same_sub reorder); [|exists s2; auto]. intros [[n pr] a] b Ha [E R].
    apply permR_map with (R := at_same); [|exact (IH _ _ _ Ha _ R)]. intros [p x] [p' x'] [Ep Rx]. destruct b as [[n' pr'] b]. cbn in *. injection E as <- <-. split; cbn; [congruence|exact Rx]. }
  assert (S : permR at_same [([], m)] [([], m')]) by (exists [([], m')]; split; [apply Permutation_refl|constructor; [split; [reflexivity|exact H0]|constructor]]).
  pose proof (permR_app _ _ _ _ _ S Q) as G. destruct m, m'. exact G.
Qed.
Lemma postorder_reorder m : forall m', reorder m m' -> permR at_same (postorder m) (postorder m').
Proof.
  induction m as [m IH] using model_ind'. intros m' H. pose proof H as H0. inversion H as [? ? s2 P1 P2 P3 P4 P5 P6 P7 P8 F]; subst.
  assert (Q : permR at_same (flat_map (fun t => map (fun pm => (fst (fst t) :: fst pm, snd pm)) (postorder (snd t))) (m_subs m)) (flat_map (fun t => map (fun pm => (fst (fst t) :: fst pm, snd pm)) (postorder (snd t))) (m_subs m'))).
  { apply permR_flat with (R := same_sub reorder); [|exists s2; auto]. intros [[n pr] a] b Ha [E R].
    apply permR_map with (R := at_same); [|exact (IH _ _ _ Ha _ R)]. intros [p x] [p' x'] [Ep Rx]. destruct b as [[n' pr'] b]. cbn in *. injection E as <- <-. split; cbn; [congruence|exact Rx]. }
  assert (S : permR at_same [([], m)] [([], m')]) by (exists [([], m')]; split; [apply Permutation_refl|constructor; [split; [reflexivity|exact H0]|constructor]]).
  pose proof (permR_app _ _ _ _ _ Q S) as G. destruct m, m'. exact G.
Qed.
