(** The rules do not depend on the order of declarations. *)
From Verif Require Import PyBase NamesModel PromotionsModel PromotionsSpec PromotionsProofs ExprModel ExprSpec ExprProofs UnflatModel EffectSpec EffectProofs WorldModel WorldSpec WorldSpec2 WorldProofs WorldProofs2 WorldProofs4 WorldProofs5 WorldProofs6 WorldProofs7 ReorderSpec ReorderProofs ReorderProofs3 ReorderProofs4 ReorderProofs5.
From Coq Require Import Permutation Lia.
Local Open Scope list_scope.

Lemma decl_heap w e : declares e = true -> w_heap (wstep w e) = w_heap w.
Proof. intros D. rewrite (wstep_decl w e D). reflexivity. Qed.
Definition ow_run (l : list wevent) (w : world) (os : list nat) : list nat := snd (fold_left owners_step l (w, os)).
Lemma ow_world l : forall w os, fst (fold_left owners_step l (w, os)) = fold_left wstep l w.
Proof. induction l as [|e l IH]; intros w os; [reflexivity|]. cbn [fold_left]. unfold owners_step at 2. apply IH. Qed.
Lemma ow_sim l : forall w w' os, wsim w w' -> ow_run l w os = ow_run l w' os.
Proof.
  induction l as [|e l IH]; intros w w' os S; [reflexivity|]. unfold ow_run in *. cbn [fold_left]. unfold owners_step at 2 4. cbn [fst snd].
  rewrite (ws_heap _ _ S), (ws_heap _ _ (wstep_sim w w' e S)). apply IH, wstep_sim, S.
Qed.
Lemma ow_app l r : owners (l ++ r) = ow_run r (whistory l) (owners l).
Proof. unfold owners at 1, ow_run. rewrite fold_left_app, owners_world. reflexivity. Qed.
Lemma independent_declares e1 e2 : independent e1 e2 -> (declares e1 = true /\ declares e2 = true) \/ (apart_of_calls e1 = true /\ exists k ev, e2 = WOn k ev) \/ (apart_of_calls e2 = true /\ exists k ev, e1 = WOn k ev).
Proof.
  intros I. destruct e1 as [|k ev|k [nm|] pr c|k a b|k x|k x|k x]; destruct e2 as [|k' ev'|k' [nm'|] pr' c'|k' a' b'|k' x'|k' x'|k' x']; cbn in I; try (destruct I; discriminate); eauto 6.
Qed.
Lemma apart_declares e : apart_of_calls e = true -> declares e = true.
Proof. destruct e; try discriminate; reflexivity. Qed.
Lemma owners_decl l e : declares e = true -> owners (l ++ [e]) = owners l.
Proof. intros D. rewrite owners_snoc, whistory_snoc, (decl_heap _ _ D), Nat.sub_diag. apply app_nil_r. Qed.
Lemma app_two {A} (l : list A) a b : l ++ [a; b] = (l ++ [a]) ++ [b].
Proof. rewrite <- app_assoc. reflexivity. Qed.
Lemma owners_on l e k ev : apart_of_calls e = true -> owners ((l ++ [e]) ++ [WOn k ev]) = owners ((l ++ [WOn k ev]) ++ [e]).
Proof.
  intros A. pose proof (apart_declares _ A) as D. rewrite (owners_decl (l ++ [WOn k ev]) e D), (owners_snoc (l ++ [e])), (owners_snoc l (WOn k ev)), (owners_decl l e D), !whistory_snoc, (swap_on _ _ _ _ A).
  rewrite (decl_heap (wstep (whistory l) (WOn k ev)) e D), (decl_heap (whistory l) e D). reflexivity.
Qed.
Lemma owners_two l e1 e2 : independent e1 e2 -> owners (l ++ [e1; e2]) = owners (l ++ [e2; e1]).
Proof.
  intros I. rewrite !app_two. destruct (independent_declares e1 e2 I) as [[D1 D2]|[[D (k & ev & ->)]|[D (k & ev & ->)]]].
  - rewrite !owners_decl by assumption. reflexivity.
  - apply owners_on, D.
  - symmetry. apply owners_on, D.
Qed.
Lemma owners_swap l e1 e2 r : independent e1 e2 -> owners (l ++ e1 :: e2 :: r) = owners (l ++ e2 :: e1 :: r).
Proof.
  intros I. change (e1 :: e2 :: r) with ([e1; e2] ++ r). change (e2 :: e1 :: r) with ([e2; e1] ++ r). rewrite !app_assoc, (ow_app (l ++ [e1; e2])), (ow_app (l ++ [e2; e1])), (owners_two l e1 e2 I).
  apply ow_sim. rewrite !app_two, !whistory_snoc. apply swap_sim, I.
Qed.
Lemma reordered_owners l l' : reordered l l' -> owners l = owners l'.
Proof. induction 1 as [l|l e1 e2 r I|a b c _ IH1 _ IH2]; [reflexivity|apply owners_swap, I|congruence]. Qed.

(** ** Rules *)
Lemma rule_before used b b' e : owners b = owners b' -> (forall k ev, In (WOn k ev) b' -> In (WOn k ev) b) -> rule used b e -> rule used b' e.
Proof.
  intros O H. destruct e as [|k ev|k on pr c|k x y|k x|k x|k x]; cbn [rule]; auto. intros (A & B & C & D). split; [exact A|]. split; [exact B|]. split; [rewrite <- O; exact C|].
  intros op args outs -> k' args' outs' Hi. eapply (D op args outs eq_refl). apply H, Hi.
Qed.
Lemma rule_decl used b b' e : declares e = true -> rule used b e -> rule used b' e.
Proof. destruct e; try discriminate; auto. Qed.
Lemma snoc_split {A} (l : list A) : forall x r b e a, l ++ x :: r = b ++ e :: a -> (exists l2, l = b ++ e :: l2) \/ (b = l /\ e = x) \/ (exists b2, b = l ++ x :: b2 /\ r = b2 ++ e :: a).
Proof.
  induction l as [|y l IH]; intros x r [|c b] e a E; cbn in E.
  - injection E as -> ->. right. left. auto.
  - injection E as <- ->. right. right. exists b. auto.
  - injection E as <- <-. left. exists l. reflexivity.
  - injection E as <- E. destruct (IH _ _ _ _ _ E) as [(l2 & ->)|[[-> ->]|(b2 & -> & ->)]]; [left; exists l2; reflexivity|right; left; auto|right; right; exists b2; auto].
Qed.
Lemma follows_swap used l e1 e2 r : independent e1 e2 -> follows used (l ++ e1 :: e2 :: r) -> follows used (l ++ e2 :: e1 :: r).
Proof.
  intros I F b e a E. apply snoc_split in E. destruct E as [(l2 & ->)|[[-> ->]|(b2 & -> & E)]].
  - apply (F b e (l2 ++ e1 :: e2 :: r)). rewrite <- app_assoc. reflexivity.
  - assert (R : rule used (l ++ [e1]) e2) by (apply (F (l ++ [e1]) e2 r); rewrite <- app_assoc; reflexivity).
    destruct (independent_declares e1 e2 I) as [[D1 D2]|[[D (k & ev & ->)]|[D (k & ev & ->)]]].
    + exact (rule_decl _ _ _ _ D2 R).
    + revert R. apply rule_before; [apply owners_decl, apart_declares, D|]. intros k' ev' Hi. apply in_or_app. left. exact Hi.
    + exact (rule_decl _ _ _ _ (apart_declares _ D) R).
  - destruct b2 as [|c b2]; cbn in E.
    + injection E as <- <-. assert (R : rule used l e1) by (apply (F l e1 (e2 :: r)); reflexivity).
      destruct (independent_declares e1 e2 I) as [[D1 D2]|[[D (k & ev & ->)]|[D (k & ev & ->)]]].
      * exact (rule_decl _ _ _ _ D1 R).
      * exact (rule_decl _ _ _ _ (apart_declares _ D) R).
      * revert R. apply rule_before; [symmetry; apply owners_decl, apart_declares, D|]. intros k' ev' Hi. apply in_app_or in Hi. destruct Hi as [Hi|[Hi|[]]]; [exact Hi|subst e2; discriminate D].
    + injection E as <- ->. assert (R : rule used (l ++ e1 :: e2 :: b2) e) by (apply (F _ _ a); rewrite <- app_assoc; reflexivity).
      revert R. apply rule_before; [apply owners_swap, I|]. intros k ev Hi. apply in_app_or in Hi. apply in_or_app. destruct Hi as [Hi|[Hi|[Hi|Hi]]]; cbn; auto.
Qed.
Lemma reordered_rules l l' : reordered l l' -> follows_rules l -> follows_rules l'.
Proof.
  unfold follows_rules. intros R F. rewrite <- (ws_count _ _ (reordered_sim l l' R)). revert F. generalize (w_count (whistory l)) as used. intros used.
  induction R as [l|l e1 e2 r I|a b c _ IH1 _ IH2]; intros F; [exact F|exact (follows_swap _ _ _ _ _ I F)|auto].
Qed.
Lemma reordered_finished l l' : reordered l l' -> finished l -> finished l'.
Proof.
  intros R [A B C D]. pose proof (reordered_sim l l' R) as [H K M]. split.
  - rewrite <- H. exact A.
  - rewrite <- H, <- K, <- (reordered_owners l l' R). intros o ob k E1 E2 E3 E4. destruct (B o ob k E1 E2 E3 E4) as (m & Em & Hm). pose proof (sim_nth _ _ k M) as N. rewrite Em in N.
    destruct (nth_error (w_models (whistory l')) k) as [m'|] eqn:E'; [|contradiction]. exists m'. split; [reflexivity|]. rewrite <- (ms_outs _ _ N). exact Hm.
  - intros k m' E'. pose proof (sim_nth _ _ k M) as N. rewrite E' in N. destruct (nth_error (w_models (whistory l)) k) as [m|] eqn:E; [|contradiction].
    specialize (C k m E). rewrite <- H, <- (ms_ins _ _ N), <- (ms_outs _ _ N), <- (ms_decls _ _ N). eapply Permutation_NoDup; [|exact C]. apply Permutation_app_head, sim_sub_names, N.
  - rewrite <- K. exact D.
Qed.
