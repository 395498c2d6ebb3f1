(** Programs that follow the rules build well-formed hierarchies. *)
From Verif Require Import PyBase NamesModel NamesProofs PromotionsModel PromotionsSpec HierSpec ExprModel ExprSpec UnflatModel UnflatSpec UnflatProofs FlattenModel FlattenSpec ExprProofs ExprProofs2 ExprProofs3
  EffectProofs CompileSpec WorldModel WorldSpec WorldProofs WorldProofs2 WorldProofs3.
From Coq Require Import Lia.
Set Implicit Arguments.
Local Open Scope list_scope.

Lemma owners_world l : fold_left owners_step l (world0, []) = (whistory l, owners l).
Proof.
  unfold owners. rewrite (surjective_pairing (fold_left owners_step l (world0, []))) at 1. f_equal. unfold whistory.
  assert (H : forall l w os, fst (fold_left owners_step l (w, os)) = fold_left wstep l w).
  { clear l. induction l as [|e r IH]; intros w os; cbn [fold_left]; [reflexivity|]. unfold owners_step at 2. cbn [fst snd]. apply IH. }
  apply H.
Qed.
Lemma whistory_snoc l e : whistory (l ++ [e]) = wstep (whistory l) e.
Proof. unfold whistory. rewrite fold_left_app. reflexivity. Qed.
Lemma owners_snoc l e : owners (l ++ [e]) = owners l ++ repeat (actor e) (length (w_heap (whistory (l ++ [e]))) - length (w_heap (whistory l))).
Proof.
  unfold owners at 1. rewrite fold_left_app. cbn [fold_left]. rewrite owners_world. unfold owners_step. cbn [fst snd]. rewrite whistory_snoc. reflexivity.
Qed.
Lemma follows_snoc used l e : follows used (l ++ [e]) -> follows used l /\ rule used l e.
Proof.
  intros H. split.
  - intros b x a ->. apply (H b x (a ++ [e])). rewrite <- app_assoc. reflexivity.
  - apply (H l e []). reflexivity.
Qed.

Definition lists (f : wmodel -> list nat) (w : world) (k : nat) : list nat := match nth_error (w_models w) k with Some m => f m | None => [] end.
Definition applied (l : list wevent) : list nat := flat_map (fun e => match e with WOn _ (ECustom op _ _) => [op] | _ => [] end) l.
Definition wst (l : list wevent) : st :=
  St (w_heap (whistory l)) (w_count (whistory l)) (owners l) (lists wm_ins (whistory l)) (lists wm_outs (whistory l)) (lists wm_decls (whistory l)) (applied l).

Lemma inv_eqv used t t' : inv used t -> t_heap t' = t_heap t -> (t_count t <= t_count t')%N -> t_own t' = t_own t ->
  (forall k i, In i (t_ins t' k) <-> In i (t_ins t k)) -> (forall k i, In i (t_outs t' k) <-> In i (t_outs t k)) -> (forall k i, In i (t_decls t' k) <-> In i (t_decls t k)) ->
  (forall i, In i (t_ap t) -> In i (t_ap t')) -> inv used t'.
Proof.
  intros IV E C EO L1 L2 L3 AP. eapply inv_next; [exact IV|..].
  - split; rewrite ?E; auto.
    + intros i ob Ei. exists ob. auto.
    + unfold owned. rewrite EO. auto.
    + intros k i. apply L1.
    + intros k i. apply L2.
    + intros k i. apply L3.
  - rewrite E. apply IV.
  - rewrite E, EO. apply IV.
  - rewrite E. apply IV.
  - rewrite E. intros o Ho. pose proof (i_few IV o Ho). lia.
  - intros i ob k. unfold owned. rewrite E, EO. auto.
  - intros k i H. left. apply L1, H.
  - intros k i H. left. apply L2, H.
  - intros k i H. left. apply L3, H.
Qed.

Lemma lists_upd f w k g h' c' j : lists f (World h' c' (upd (w_models w) k g)) j = if Nat.eqb k j then match nth_error (w_models w) j with Some m => f (g m) | None => [] end else lists f w j.
Proof. unfold lists. cbn. rewrite nth_upd. destruct (Nat.eqb k j); [|reflexivity]. destruct (nth_error (w_models w) j); reflexivity. Qed.
Lemma lists_keep f w k g h' c' j : (forall m, f (g m) = f m) -> lists f (World h' c' (upd (w_models w) k g)) j = lists f w j.
Proof. intros H. rewrite lists_upd. unfold lists. destruct (Nat.eqb k j); [|reflexivity]. destruct (nth_error (w_models w) j); auto. Qed.

Lemma applied_snoc l e : applied (l ++ [e]) = applied l ++ applied [e].
Proof. unfold applied. rewrite flat_map_app. reflexivity. Qed.

(** A call that creates no objects and changes no list of variables. *)
Lemma inv_quiet used l e : inv used (wst l) -> w_heap (whistory (l ++ [e])) = w_heap (whistory l) -> (w_count (whistory l) <= w_count (whistory (l ++ [e])))%N ->
  (forall k, lists wm_ins (whistory (l ++ [e])) k = lists wm_ins (whistory l) k) ->
  (forall k, lists wm_outs (whistory (l ++ [e])) k = lists wm_outs (whistory l) k) ->
  (forall k, lists wm_decls (whistory (l ++ [e])) k = lists wm_decls (whistory l) k) -> inv used (wst (l ++ [e])).
Proof.
  intros IV E C L1 L2 L3. eapply inv_eqv; [exact IV|exact E|exact C|..]; cbn [wst t_own t_ins t_outs t_decls t_ap].
  - rewrite owners_snoc, E, Nat.sub_diag. cbn. apply app_nil_r.
  - intros k i. rewrite L1. reflexivity.
  - intros k i. rewrite L2. reflexivity.
  - intros k i. rewrite L3. reflexivity.
  - intros i Hi. rewrite applied_snoc. apply in_app_iff. auto.
Qed.

Theorem inv_follows used l : (used <= 62 * 63 ^ 4)%N -> follows used l -> inv used (wst l).
Proof.
  intros US. induction l as [|e l IH] using rev_ind; intros FR.
  - split; cbn; try (intros [|i]; discriminate).
    + reflexivity.
    + constructor.
    + intros o [].
    + intros k i. unfold lists. cbn. destruct k; intros [].
    + intros k i. unfold lists. cbn. destruct k; intros [].
    + intros k i. unfold lists. cbn. destruct k; intros [].
  - apply follows_snoc in FR. destruct FR as [FR RU]. specialize (IH FR). set (w := whistory l) in *.
    destruct e as [|k ev|k on pr c|k a b|k n|k n|k n].
    + apply inv_quiet; auto; rewrite ?whistory_snoc; cbn; try reflexivity; fold w; try lia;
        intros j; unfold lists; cbn; (destruct (Nat.lt_ge_cases j (length (w_models w))) as [H|H];
          [rewrite nth_error_app1 by exact H; reflexivity|
           rewrite nth_error_app2 by exact H; replace (nth_error (w_models w) j) with (@None wmodel) by (symmetry; apply nth_error_None; exact H);
           destruct (j - length (w_models w)) as [|[|?]]; reflexivity]).
    + destruct (nth_error (w_models w) k) as [m|] eqn:Em.
      2:{ assert (E : wstep w (WOn k ev) = w) by (cbn; rewrite Em; destruct ev; reflexivity).
          apply inv_quiet; auto; rewrite ?whistory_snoc; fold w; rewrite ?E; auto. lia. }
      destruct RU as (R1 & R2 & R3 & R4).
      assert (NE : (exists on, ev = EAdd on) \/ forall on, ev <> EAdd on) by (destruct ev; eauto; right; discriminate).
      destruct NE as [[on ->]|NE].
      { assert (E : wstep w (WOn k (EAdd on)) = w) by (cbn; rewrite Em; reflexivity).
        apply inv_quiet; auto; rewrite ?whistory_snoc; fold w; rewrite ?E; auto. lia. }
      assert (E : wstep w (WOn k ev) = put w k (bstep (view w m) ev)).
      { cbn [wstep]. rewrite Em. destruct ev; try reflexivity. exfalso. eapply NE; reflexivity. }
      set (s := view w m) in *. set (s' := bstep s ev) in *.
      assert (IV : inv used (mk (lists wm_ins w) (lists wm_outs w) (lists wm_decls w) (applied l) (owners l) k s)).
      { eapply inv_eqv; [exact IH|reflexivity|apply N.le_refl|reflexivity|..|auto]; cbn [mk wst t_ins t_outs t_decls]; fold w;
          intros j i; unfold ovr; (destruct (Nat.eqb_spec j k) as [->|_]; [|reflexivity]); unfold lists; rewrite Em; reflexivity. }
      assert (IV' : inv used (mk (lists wm_ins w) (lists wm_outs w) (lists wm_decls w) (next_ap (applied l) ev) (owners l ++ repeat k (length (b_heap s') - length (b_heap s))) k s')).
      { apply inv_bstep; auto. intros op args outs Ev Hi. unfold applied in Hi. apply in_flat_map in Hi. destruct Hi as (x & Hx & Hi).
        destruct x as [|k' [| | | | | | |op' args' outs'| | | | |]| | | | |]; cbn in Hi; try contradiction. destruct Hi as [Hi|[]]. subst op'.
        eapply R4; [exact Ev|exact Hx]. }
      eapply inv_eqv; [exact IV'|..]; cbn [wst mk t_heap t_count t_own t_ins t_outs t_decls t_ap].
      * rewrite whistory_snoc. fold w. rewrite E. reflexivity.
      * rewrite whistory_snoc. fold w. rewrite E. cbn. lia.
      * rewrite owners_snoc, whistory_snoc. fold w. rewrite E. reflexivity.
      * intros j i. rewrite whistory_snoc. fold w. rewrite E. unfold put. rewrite lists_upd. unfold ovr. rewrite (Nat.eqb_sym j k). destruct (Nat.eqb_spec k j) as [<-|_]; [rewrite Em|]; reflexivity.
      * intros j i. rewrite whistory_snoc. fold w. rewrite E. unfold put. rewrite lists_upd. unfold ovr. rewrite (Nat.eqb_sym j k). destruct (Nat.eqb_spec k j) as [<-|_]; [rewrite Em|]; reflexivity.
      * intros j i. rewrite whistory_snoc. fold w. rewrite E. unfold put. rewrite lists_upd. unfold ovr. rewrite (Nat.eqb_sym j k). destruct (Nat.eqb_spec k j) as [<-|_]; [rewrite Em|]; reflexivity.
      * intros i Hi. rewrite applied_snoc, in_app_iff. destruct ev; cbn in *; intuition.
    + assert (E : wstep w (WAdd k on pr c) = w \/ exists t, wstep w (WAdd k on pr c) = World (w_heap w) (w_count w + 1)%N (upd (w_models w) k (app_sub t))).
      { cbn. destruct (nth_error (w_models w) k); [|auto]. destruct (nth_error (w_models w) c); [|auto]. destruct on as [n|]; [|eauto]. destruct (is_ok _ && _); eauto. }
      destruct E as [E|(t & E)]; apply inv_quiet; auto; rewrite ?whistory_snoc; fold w; rewrite ?E; auto; try (cbn; lia); intros j; apply lists_keep; reflexivity.
    + assert (E : wstep w (WConnect k a b) = w \/ wstep w (WConnect k a b) = on_model w k (app_conn (a, b))).
      { cbn. destruct (nth_error (w_models w) k); [|auto]. destruct (String.eqb a b); [auto|]. destruct (existsb _ _); auto. }
      destruct E as [E|E]; apply inv_quiet; auto; rewrite ?whistory_snoc; fold w; rewrite ?E; auto; try (cbn; lia); intros j; apply lists_keep; reflexivity.
    + assert (E : wstep w (WDesign k n) = w \/ wstep w (WDesign k n) = on_model w k (app_dv n)).
      { cbn. destruct (nth_error (w_models w) k); [|auto]. destruct (negb _); [auto|]. destruct (smem _ _); auto. }
      destruct E as [E|E]; apply inv_quiet; auto; rewrite ?whistory_snoc; fold w; rewrite ?E; auto; try (cbn; lia); intros j; apply lists_keep; reflexivity.
    + assert (E : wstep w (WConstraint k n) = w \/ wstep w (WConstraint k n) = on_model w k (app_con n)).
      { cbn. destruct (nth_error (w_models w) k); [|auto]. destruct (smem _ _); auto. }
      destruct E as [E|E]; apply inv_quiet; auto; rewrite ?whistory_snoc; fold w; rewrite ?E; auto; try (cbn; lia); intros j; apply lists_keep; reflexivity.
    + assert (E : wstep w (WObjective k n) = w \/ wstep w (WObjective k n) = on_model w k (set_obj n)).
      { cbn. destruct (nth_error (w_models w) k) as [m|]; [|auto]. destruct (wm_obj m); auto. }
      destruct E as [E|E]; apply inv_quiet; auto; rewrite ?whistory_snoc; fold w; rewrite ?E; auto; try (cbn; lia); intros j; apply lists_keep; reflexivity.
Qed.

(** Submodel names. *)
Definition subs_ok (used : N) (m : wmodel) : Prop :=
  NoDup (sub_names m) /\ forall n, In n (sub_names m) -> has_dot n = false /\ n <> EmptyString /\ chosen_name used n.
Lemma upd_models (P : wmodel -> Prop) l k f : (forall j m, nth_error l j = Some m -> P m) -> (forall m, nth_error l k = Some m -> P m -> P (f m)) ->
  forall j m, nth_error (upd l k f) j = Some m -> P m.
Proof.
  intros H F j m. rewrite nth_upd. destruct (Nat.eqb_spec k j) as [<-|_]; [|apply H]. destruct (nth_error l k) as [m0|] eqn:E; [|discriminate]. cbn. intros Q. injection Q as <-. apply F; [reflexivity|eapply H, E].
Qed.
Lemma subs_follows used l : follows used l -> forall k m, nth_error (w_models (whistory l)) k = Some m -> subs_ok used m.
Proof.
  induction l as [|e l IH] using rev_ind; intros FR; [intros [|k] m; discriminate|]. apply follows_snoc in FR. destruct FR as [FR RU]. specialize (IH FR). rewrite whistory_snoc.
  set (w := whistory l) in *. destruct e as [|k ev|k on pr c|k a b|k n|k n|k n]; cbn [wstep].
  - intros k m E. cbn in E. apply ExprProofs.nth_app_last in E. destruct E as [E|[_ ->]]; [eapply IH, E|]. split; [constructor|intros n []].
  - destruct (nth_error (w_models w) k) as [m|] eqn:Em; [|destruct ev; exact IH].
    assert (Q : forall j m', nth_error (w_models (put w k (bstep (view w m) ev))) j = Some m' -> subs_ok used m').
    { cbn. apply upd_models; [exact IH|]. intros m' _ H. exact H. }
    destruct ev; try exact Q. exact IH.
  - destruct RU as (n & -> & Cn & Nn). destruct (nth_error (w_models w) k) as [m|] eqn:Em; [|exact IH]. destruct (nth_error (w_models w) c); [|exact IH].
    destruct (check_banned_chars n) as [[]|] eqn:CB; cbn [is_ok andb]; [|exact IH]. destruct (smem n (sub_names m)) eqn:SM; cbn [negb]; [exact IH|]. cbn.
    apply upd_models; [exact IH|]. intros m' E' (H1 & H2). rewrite Em in E'. injection E' as <-. unfold subs_ok, sub_names in *. cbn. rewrite map_app. cbn. split.
    + apply NoDup_app_iff. split; [exact H1|]. split; [repeat constructor; intros []|]. intros x Hx [<-|[]]. apply smem_false in SM. exact (SM Hx).
    + intros x Hx. apply in_app_iff in Hx. destruct Hx as [Hx|[<-|[]]]; [auto|]. split; [apply banned_no_dot, CB|auto].
  - destruct (nth_error (w_models w) k); [|exact IH]. destruct (String.eqb a b); [exact IH|]. destruct (existsb _ _); [exact IH|]. cbn. apply upd_models; [exact IH|]. intros m' _ H. exact H.
  - destruct (nth_error (w_models w) k); [|exact IH]. destruct (negb _); [exact IH|]. destruct (smem _ _); [exact IH|]. cbn. apply upd_models; [exact IH|]. intros m' _ H. exact H.
  - destruct (nth_error (w_models w) k); [|exact IH]. destruct (smem _ _); [exact IH|]. cbn. apply upd_models; [exact IH|]. intros m' _ H. exact H.
  - destruct (nth_error (w_models w) k) as [m0|]; [|exact IH]. destruct (wm_obj m0); [exact IH|]. cbn. apply upd_models; [exact IH|]. intros m' _ H. exact H.
Qed.

(** The number of nodes grows. *)
Lemma wstep_count w e : (w_count w <= w_count (wstep w e))%N.
Proof.
  destruct e as [|k ev|k on pr c|k a b|k n|k n|k n]; cbn [wstep]; try (cbn; lia).
  - destruct (nth_error (w_models w) k) as [m|]; [|destruct ev; lia]. pose proof (bstep_count (view w m) ev) as Q. cbn in Q. destruct ev; try exact Q. lia.
  - destruct (nth_error (w_models w) k); [|lia]. destruct (nth_error (w_models w) c); [|lia]. destruct on as [n|]; [destruct (_ && _)|]; cbn; lia.
  - destruct (nth_error (w_models w) k); [|lia]. destruct (String.eqb a b); [lia|]. destruct (existsb _ _); cbn; lia.
  - destruct (nth_error (w_models w) k); [|lia]. destruct (negb _); [lia|]. destruct (smem _ _); cbn; lia.
  - destruct (nth_error (w_models w) k); [|lia]. destruct (smem _ _); cbn; lia.
  - destruct (nth_error (w_models w) k) as [m|]; [|lia]. destruct (wm_obj m); cbn; lia.
Qed.
Lemma whistory_count l r : (w_count (whistory l) <= w_count (whistory (l ++ r)))%N.
Proof.
  induction r as [|e r IH] using rev_ind; [rewrite app_nil_r; lia|]. rewrite app_assoc, whistory_snoc. pose proof (wstep_count (whistory (l ++ r)) e). lia.
Qed.
Lemma rule_le a b before e : (a <= b)%N -> rule b before e -> rule a before e.
Proof.
  intros L. destruct e as [|k ev|k on pr c|k x y|k n|k n|k n]; cbn; auto.
  - intros (R1 & R2). split; [eapply clean_le; eauto|exact R2].
  - intros (n & E & C & D). exists n. split; [exact E|]. split; [eapply chosen_le; eauto|exact D].
Qed.
Lemma follows_le a b l : (a <= b)%N -> follows b l -> follows a l.
Proof. intros L H before e after E. eapply rule_le; [exact L|apply (H _ _ _ E)]. Qed.
Lemma rules_snoc l e : follows_rules (l ++ [e]) -> follows_rules l /\ rule (w_count (whistory (l ++ [e]))) l e.
Proof.
  intros H. apply follows_snoc in H. destruct H as [H R]. split; [|exact R]. eapply follows_le; [|exact H]. apply whistory_count.
Qed.
Definition small (l : list wevent) : N := N.min (w_count (whistory l)) (62 * 63 ^ 4).
Theorem inv_history l : follows_rules l -> inv (small l) (wst l).
Proof.
  intros FR. apply inv_follows; [apply N.le_min_r|]. eapply follows_le; [|exact FR]. apply N.le_min_l.
Qed.
Theorem inv_finished l : follows_rules l -> finished l -> inv (w_count (whistory l)) (wst l).
Proof. intros FR FI. apply inv_follows; [apply FI|exact FR]. Qed.
Lemma subs_history l : follows_rules l -> forall k m, nth_error (w_models (whistory l)) k = Some m -> subs_ok (w_count (whistory l)) m.
Proof. apply subs_follows. Qed.
