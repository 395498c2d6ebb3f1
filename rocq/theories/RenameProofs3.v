(** Programs that differ in names: the process and the hierarchies. *)
From Verif Require Import PyBase NamesModel PromotionsModel PromotionsSpec PromotionsProofs ExprModel ExprProofs UnflatModel UnflatSpec FlattenSpec WorldModel WorldSpec WorldProofs WorldProofs5 ReorderProofs4 ReorderProofs5 RenameSpec RenameProofs2.
From Coq Require Import Lia.
Local Open Scope list_scope.

Definition em (m : wmodel) : list nat * list nat * list nat * list nat := (wm_ins m, wm_outs m, wm_decls m, map snd (wm_subs m)).
Definition wrel (w w' : world) : Prop := hrel (w_heap w) (w_heap w') /\ map em (w_models w) = map em (w_models w').
Lemma wrel_nth w w' k : wrel w w' -> option_map em (nth_error (w_models w) k) = option_map em (nth_error (w_models w') k).
Proof. intros [_ E]. rewrite <- !nth_error_map, E. reflexivity. Qed.
Lemma em_upd ms ms' k f f' : map em ms = map em ms' -> (forall m m', nth_error ms k = Some m -> nth_error ms' k = Some m' -> em m = em m' -> em (f m) = em (f' m')) -> map em (upd ms k f) = map em (upd ms' k f').
Proof.
  revert ms' k. induction ms as [|m ms IH]; intros [|m' ms'] k E H; try discriminate; [reflexivity|]. pose proof (f_equal (hd (em m)) E) as E1. pose proof (f_equal (@tl _) E) as E2. cbn [map hd tl] in E1, E2.
  destruct k as [|k]; cbn [upd map]; f_equal; auto.
Qed.
Lemma entries_rel w w' k : wrel w w' -> entries w k = entries w' k.
Proof.
  intros R. unfold entries. pose proof (wrel_nth w w' k R) as E. destruct (nth_error (w_models w) k) as [m|], (nth_error (w_models w') k) as [m'|]; try discriminate E; [|reflexivity].
  cbn in E. injection E as -> -> _ E. f_equal. rewrite <- (map_length snd (wm_subs m)), E. apply map_length.
Qed.
Definition skipped (e : wevent) : bool := match e with WConnect _ _ _ | WDesign _ _ | WConstraint _ _ | WObjective _ _ => true | _ => false end.
Lemma wrel_skip w e : skipped e = true -> wrel (wstep w e) w.
Proof.
  assert (G : forall k f, (forall m, em (f m) = em m) -> wrel (on_model w k f) w).
  { intros k f H. split; [reflexivity|]. unfold on_model. cbn [w_models]. rewrite <- (upd_same (w_models w) k) at 2. apply em_upd; [reflexivity|]. intros m m' E E' _. rewrite E in E'. injection E' as <-. apply H. }
  intros S. destruct e as [| | |k a b|k x|k x|k x]; try discriminate; cbn [wstep]; (destruct (nth_error (w_models w) k) as [m|]; [|split; reflexivity]);
    repeat match goal with |- context [if ?b then _ else _] => destruct b | |- context [match wm_obj m with Some _ => _ | None => _ end] => destruct (wm_obj m) end; try (split; reflexivity); apply G; reflexivity.
Qed.
Lemma bsize_put w k m s : nth_error (w_models w) k = Some m -> entries (put w k s) k = bsize s + length (wm_subs m).
Proof.
  intros E. unfold entries, put. cbn [w_models]. rewrite nth_upd_same, E. cbn. reflexivity.
Qed.
Lemma wrel_step w w' e e' : wrel w w' -> skipped e = false -> nameless [e] = nameless [e'] ->
  (gives_name e = true -> entries (wstep w e) (called_on e) <> entries w (called_on e)) -> (gives_name e' = true -> entries (wstep w' e') (called_on e') <> entries w' (called_on e')) -> wrel (wstep w e) (wstep w' e').
Proof.
  intros R S Q A A'. pose proof R as [RH RM]. destruct e as [|k ev|k on pr c|k a b|k x|k x|k x]; try discriminate S; destruct e' as [|k' ev'|k' on' pr' c'|k' a' b'|k' x'|k' x'|k' x']; try discriminate Q; cbn [nameless flat_map app] in Q.
  - split; [exact RH|]. cbn [wstep w_models]. rewrite !map_app, RM. reflexivity.
  - injection Q as <- Q. assert (NE : (exists on, ev = EAdd on) \/ forall on, ev <> EAdd on) by (destruct ev; eauto; right; discriminate).
    destruct NE as [[on ->]|NE]; [destruct ev'; try discriminate Q; rewrite !on_add; exact R|]. assert (NE' : forall on, ev' <> EAdd on) by (intros on ->; destruct ev; try discriminate Q; eapply NE; reflexivity).
    pose proof (wrel_nth w w' k R) as E. destruct (nth_error (w_models w) k) as [m|] eqn:M, (nth_error (w_models w') k) as [m'|] eqn:M'; try discriminate E; [|rewrite (on_none w k ev M), (on_none w' k ev' M'); exact R].
    cbn in E. injection E as E1 E2 E3 E4. rewrite (on_some w k ev m NE M) in *. rewrite (on_some w' k ev' m' NE' M') in *.
    assert (B : brel (bstep (view w m) ev) (bstep (view w' m') ev')).
    { apply brel_step; [split; [exact RH|cbn; auto]|exact Q| |].
      - intros K X. apply A; [destruct ev; try discriminate K; reflexivity|]. cbn [called_on]. rewrite (bsize_put w k m _ M), X. unfold entries. rewrite M. reflexivity.
      - intros K X. apply A'; [destruct ev'; try discriminate K; reflexivity|]. cbn [called_on]. rewrite (bsize_put w' k m' _ M'), X. unfold entries. rewrite M'. reflexivity. }
    destruct B as (B1 & B2 & B3 & B4). split; [exact B1|]. unfold put. cbn [w_models]. apply em_upd; [exact RM|]. intros m1 m1' _ _ X. unfold em in *. cbn. injection X as X1 X2 X3 X4. congruence.
  - injection Q as <- Q <-. specialize (A eq_refl). specialize (A' eq_refl). cbn [wstep called_on] in *. pose proof (wrel_nth w w' k R) as E. pose proof (wrel_nth w w' c R) as Ec.
    destruct (nth_error (w_models w) k) as [m|] eqn:M, (nth_error (w_models w') k) as [m'|] eqn:M'; try discriminate E; [|exact R].
    destruct (nth_error (w_models w) c) as [mc|], (nth_error (w_models w') c) as [mc'|]; try discriminate Ec; [|exact R].
    assert (G : forall n n' pr pr', map em (upd (w_models w) k (app_sub (n, pr, c))) = map em (upd (w_models w') k (app_sub (n', pr', c)))).
    { intros n n' p p'. apply em_upd; [exact RM|]. intros m1 m1' _ _ X. unfold em in *. cbn. injection X as X1 X2 X3 X4. rewrite !map_app. cbn. congruence. }
    destruct on as [n|], on' as [n'|]; try discriminate Q.
    + destruct (_ && _) in *; [|destruct (A eq_refl)]. destruct (is_ok (check_banned_chars n') && _) in *; [|destruct (A' eq_refl)]. split; [exact RH|apply G].
    + split; [exact RH|apply G].
Qed.
Definition accepted_from (w : world) (l : list wevent) : Prop := forall before e after, l = before ++ e :: after -> gives_name e = true ->
  entries (fold_left wstep (before ++ [e]) w) (called_on e) <> entries (fold_left wstep before w) (called_on e).
Lemma accepted_tail w e l : accepted_from w (e :: l) -> accepted_from (wstep w e) l.
Proof. intros A before e1 after -> G. exact (A (e :: before) e1 after eq_refl G). Qed.
Lemma accepted_head w e l : accepted_from w (e :: l) -> gives_name e = true -> entries (wstep w e) (called_on e) <> entries w (called_on e).
Proof. intros A G. exact (A [] e l eq_refl G). Qed.
Lemma nameless_cons e l : nameless (e :: l) = nameless [e] ++ nameless l.
Proof. unfold nameless. cbn [flat_map]. rewrite app_nil_r. reflexivity. Qed.
Lemma skipped_nameless e : skipped e = true -> nameless [e] = [].
Proof. destruct e; try discriminate; reflexivity. Qed.
Lemma kept_nameless e : skipped e = false -> exists x, nameless [e] = [x].
Proof. destruct e; try discriminate; cbn; eauto. Qed.
Lemma wrel_trans a b c : wrel a b -> wrel b c -> wrel a c.
Proof. intros [A B] [A' B']. split; [unfold hrel in *|]; congruence. Qed.
Lemma wrel_sym a b : wrel a b -> wrel b a.
Proof. intros [A B]. split; [unfold hrel in *|]; congruence. Qed.
Lemma wrel_run : forall n l l' w w', length l + length l' <= n -> wrel w w' -> nameless l = nameless l' -> accepted_from w l -> accepted_from w' l' -> wrel (fold_left wstep l w) (fold_left wstep l' w').
Proof.
  induction n as [|n IH]; intros l l' w w' Le R Q A A'; [destruct l, l'; try (cbn in Le; lia); exact R|].
  destruct l as [|e l].
  - destruct l' as [|e' l']; [exact R|]. destruct (skipped e') eqn:S.
    + cbn [fold_left]. apply (IH [] l'); [cbn in *; lia| | |exact A|apply accepted_tail, A']; [eapply wrel_trans; [exact R|apply wrel_sym, wrel_skip, S]|]. rewrite nameless_cons, (skipped_nameless e' S) in Q. exact Q.
    + rewrite nameless_cons in Q. destruct (kept_nameless e' S) as (x & X). rewrite X in Q. discriminate.
  - destruct (skipped e) eqn:S.
    + cbn [fold_left]. apply IH; [cbn in *; lia| | |apply accepted_tail, A|exact A']; [eapply wrel_trans; [apply wrel_skip, S|exact R]|]. rewrite nameless_cons, (skipped_nameless e S) in Q. exact Q.
    + destruct l' as [|e' l']; [rewrite nameless_cons in Q; destruct (kept_nameless e S) as (x & X); rewrite X in Q; discriminate|]. destruct (skipped e') eqn:S'.
      * change (fold_left wstep (e' :: l') w') with (fold_left wstep l' (wstep w' e')). apply (IH (e :: l) l'); [cbn in *; lia| | |exact A|apply accepted_tail, A']; [eapply wrel_trans; [exact R|apply wrel_sym, wrel_skip, S']|]. rewrite (nameless_cons e'), (skipped_nameless e' S') in Q. exact Q.
      * rewrite (nameless_cons e l), (nameless_cons e' l') in Q. destruct (kept_nameless e S) as (x & X). destruct (kept_nameless e' S') as (x' & X'). rewrite X, X' in Q. injection Q as -> Q.
        cbn [fold_left]. apply IH; [cbn in *; lia| |exact Q|apply accepted_tail, A|apply accepted_tail, A']. apply wrel_step; [exact R|exact S|congruence|apply (accepted_head _ _ _ A)|apply (accepted_head _ _ _ A')].
Qed.
Lemma Forall2_map_eq {A B C} (f : A -> C) (g : B -> C) (P : A -> B -> Prop) l l' : (forall a b, f a = g b -> P a b) -> map f l = map g l' -> Forall2 P l l'.
Proof. intros H. revert l'. induction l as [|a l IH]; intros [|b l'] E; try discriminate; constructor; cbn in E; [apply H|apply IH]; injection E; auto. Qed.
Lemma nameless_worlds l l' : nameless l = nameless l' -> names_accepted l -> names_accepted l' -> same_worlds (whistory l) (whistory l').
Proof.
  intros Q A A'. assert (R : wrel (whistory l) (whistory l')) by (apply (wrel_run (length l + length l')); [lia|split; reflexivity|exact Q|exact A|exact A']). destruct R as [RH RM]. split.
  - unfold same_objects. eapply Forall2_map_eq; [|exact RH]. intros a b E. injection E as E1 E2 E3 E4 E5. split; auto.
  - eapply Forall2_map_eq; [|exact RM]. intros a b E. injection E as E1 E2 E3 E4. split; auto.
Qed.
Lemma all_some_nth {A B} (g : A -> option B) l x : all_some (map g l) = Some x -> length x = length l /\ forall i b, nth_error x i = Some b -> exists a, nth_error l i = Some a /\ g a = Some b.
Proof.
  revert x. induction l as [|a l IH]; intros x E; cbn in E; [injection E as <-; split; [reflexivity|intros [|i] b H; discriminate]|]. destruct (g a) as [b|] eqn:G; [|discriminate]. destruct (all_some (map g l)) as [y|]; [|discriminate].
  injection E as <-. destruct (IH y eq_refl) as [Le N]. split; [cbn; congruence|]. intros [|i] b' H; cbn in *; [injection H as <-; eauto|eauto].
Qed.
Lemma nth_combine {A B} (l : list A) (l' : list B) i x y : nth_error (combine l l') i = Some (x, y) -> nth_error l i = Some x /\ nth_error l' i = Some y.
Proof. revert l' i. induction l as [|a l IH]; intros [|b l'] [|i] H; try discriminate; cbn in *; [injection H as -> ->; auto|apply IH, H]. Qed.
Lemma Forall2_nth {A B} (P : A -> B -> Prop) l l' i a b : Forall2 P l l' -> nth_error l i = Some a -> nth_error l' i = Some b -> P a b.
Proof. intros F. revert i. induction F as [|x y l l' H F IH]; intros [|i] E E'; try discriminate; cbn in *; [congruence|eapply IH; eassumption]. Qed.
Lemma tree_same w w' shp shp' : same_worlds w w' -> forall f f' k um m um' m', tree f w shp k = Some (um, m) -> tree f' w' shp' k = Some (um', m') -> same_models um um'.
Proof.
  intros [_ SM]. induction f as [|f IH]; intros f' k um m um' m' T T'; [discriminate|].
  apply tree_inv in T. destruct T as (f1 & wm & x & Ef & E & AL & _ & -> & _). injection Ef as <-. apply tree_inv in T'. destruct T' as (f2 & wm' & x' & -> & E' & AL' & _ & -> & _).
  destruct (Forall2_nth _ _ _ _ _ _ SM E E') as (-> & -> & -> & S). destruct (all_some_nth _ _ _ AL) as [Le N]. destruct (all_some_nth _ _ _ AL') as [Le' N'].
  assert (Ll : length (wm_subs wm) = length (wm_subs wm')) by (rewrite <- (map_length snd (wm_subs wm)), S; apply map_length). constructor.
  - rewrite !combine_length. unfold sub_names. rewrite !map_length. lia.
  - intros i [n u] [n' u'] A B. apply nth_combine in A, B. destruct A as [_ A], B as [_ B]. rewrite nth_error_map in A, B. cbn [snd].
    destruct (nth_error x i) as [[u1 m1]|] eqn:X; [|discriminate]. destruct (nth_error x' i) as [[u1' m1']|] eqn:X'; [|discriminate]. cbn in A, B. injection A as ->. injection B as ->.
    destruct (N i _ X) as (t & Ht & T). destruct (N' i _ X') as (t' & Ht' & T').
    assert (Es : snd t = snd t'). { pose proof (map_nth_error snd i _ Ht) as P. pose proof (map_nth_error snd i _ Ht') as P'. rewrite S in P. congruence. }
    rewrite Es in T. eapply IH; eassumption.
Qed.
