From Verif Require Import PyBase NamesModel ExprModel EffectSpec.
From Coq Require Import Lia.
Local Open Scope list_scope.

Fixpoint out_objs (op : nat) (k : N) (names : list (option string)) : list obj :=
  match names with
  | [] => []
  | n :: r => Obj KOut k (match n with Some x => x | None => hex_id k end) [op] [] None false :: out_objs op (k + 1)%N r
  end.
Lemma out_objs_length op k names : length (out_objs op k names) = length names.
Proof. revert k. induction names; intros; cbn; auto. Qed.
Lemma out_objs_In op names : forall k o, In o (out_objs op k names) -> ob_kind o = KOut /\ ob_deps o = [op].
Proof. induction names; intros k o; cbn; [intros []|]. intros [<- |H]; eauto. Qed.

Lemma bst_eta s : s = Bst (b_heap s) (b_count s) (b_ins s) (b_outs s) (b_decls s) (b_subs s).
Proof. destruct s; reflexivity. Qed.
Lemma new_outputs_eq op names : forall s, new_outputs s op names =
  (Bst (b_heap s ++ out_objs op (b_count s) names) (b_count s + N.of_nat (length names))%N (b_ins s) (b_outs s) (b_decls s) (b_subs s),
   seq (length (b_heap s)) (length names)).
Proof.
  induction names as [|n r IH]; intros s; cbn [new_outputs out_objs length seq].
  - rewrite app_nil_r. cbn. rewrite N.add_0_r. rewrite <- bst_eta. reflexivity.
  - unfold alloc. cbn [fst snd]. rewrite IH. cbn. rewrite <- app_assoc. cbn. rewrite app_length. cbn. rewrite Nat.add_1_r.
    do 2 f_equal. lia.
Qed.
Lemma upd_app_mid {A} (l : list A) x r f : upd (l ++ x :: r) (length l) f = l ++ f x :: r.
Proof. induction l; cbn; congruence. Qed.
Definition op_obj (k : N) (args vs : list nat) : obj := Obj (KOp false) k (hex_id k) args vs None false.
Lemma new_op_eq s args names : new_op s args names =
  (Bst (b_heap s ++ op_obj (b_count s) args (seq (S (length (b_heap s))) (length names)) :: out_objs (length (b_heap s)) (b_count s + 1)%N names)
       (b_count s + 1 + N.of_nat (length names))%N (b_ins s) (b_outs s) (b_decls s) (b_subs s),
   seq (S (length (b_heap s))) (length names)).
Proof.
  unfold new_op, alloc. rewrite new_outputs_eq. cbn [b_heap b_count b_ins b_outs b_decls b_subs bump with_objs].
  rewrite app_length. cbn [length]. rewrite Nat.add_1_r. rewrite <- app_assoc. cbn [app].
  f_equal. f_equal. unfold with_objs. cbn. rewrite upd_app_mid. reflexivity.
Qed.

Lemma nth_app_old {A} (l r : list A) i x : nth_error l i = Some x -> nth_error (l ++ r) i = Some x.
Proof. intros H. rewrite nth_error_app1; auto. apply nth_error_Some. congruence. Qed.
Lemma nth_None_ge {A} (l : list A) i : nth_error l i = None <-> length l <= i.
Proof. apply nth_error_None. Qed.

(** [grows s s']: objects are only added, the lists stay. *)
Definition grows (s s' : bst) : Prop := same_lists s s' /\ exists ext, b_heap s' = b_heap s ++ ext.
Lemma grows_refl s : grows s s.
Proof. split; [repeat split|]. exists []. rewrite app_nil_r. reflexivity. Qed.
Lemma grows_trans a b c : grows a b -> grows b c -> grows a c.
Proof.
  intros [(A1 & A2 & A3 & A4) (e & E)] [(B1 & B2 & B3 & B4) (f & F)]. split; [repeat split; congruence|].
  exists (e ++ f). rewrite F, E, app_assoc. reflexivity.
Qed.
Lemma grows_kept s s' l : grows s s' -> kept_except l s s'.
Proof. intros [_ (e & E)] i o H _. rewrite E. apply nth_app_old, H. Qed.
Lemma grows_length s s' : grows s s' -> length (b_heap s) <= length (b_heap s').
Proof. intros [_ (e & E)]. rewrite E, app_length. lia. Qed.
Lemma grows_new s s' i o : grows s s' -> nth_error (b_heap s) i = Some o -> nth_error (b_heap s') i = Some o.
Proof. intros [_ (e & E)] H. rewrite E. apply nth_app_old, H. Qed.
Lemma new_mono a b c d i o : grows a b -> grows c d -> new b c i o -> new a d i o.
Proof.
  intros G1 G2 [H1 H2]. split; [|eapply grows_new; eauto]. apply nth_None_ge. apply nth_None_ge in H1. pose proof (grows_length _ _ G1). lia.
Qed.
Lemma computes_mono a b c d op args vs : grows a b -> grows c d -> computes b c op args vs -> computes a d op args vs.
Proof.
  intros G1 G2 ((o & Ho & H) & Hn & Hv). split; [exists o; split; auto; eapply new_mono; eauto|]. split; auto.
  intros v Hi. destruct (Hv v Hi) as (o' & Ho' & H'). exists o'. split; auto. eapply new_mono; eauto.
Qed.

Lemma new_op_spec s args names : let s' := fst (new_op s args names) in let vs := snd (new_op s args names) in
  grows s s' /\ computes s s' (length (b_heap s)) args vs /\ length vs = length names /\
  (forall i o, new s s' i o -> i = length (b_heap s) \/ In i vs) /\ (forall v, In v vs -> length (b_heap s) < v < length (b_heap s')).
Proof.
  rewrite new_op_eq. cbn [fst snd]. set (h := b_heap s). set (vs := seq (S (length h)) (length names)).
  split; [split; [repeat split|eexists; reflexivity]|].
  assert (L : forall v, In v vs -> length h < v < length (h ++ op_obj (b_count s) args vs :: out_objs (length h) (b_count s + 1) names)).
  { intros v Hv. apply in_seq in Hv. rewrite app_length. cbn. rewrite out_objs_length. lia. }
  split; [|split; [apply seq_length|split; [|exact L]]].
  - split; [|split].
    + exists (op_obj (b_count s) args vs). split; [|repeat split]. split; [apply nth_None_ge; fold h; lia|]. cbn [b_heap]. rewrite nth_error_app2, Nat.sub_diag by lia. reflexivity.
    + apply seq_NoDup.
    + intros v Hv. pose proof Hv as Hs. apply in_seq in Hs.
      destruct (nth_error (h ++ op_obj (b_count s) args vs :: out_objs (length h) (b_count s + 1) names) v) as [o|] eqn:E.
      2:{ apply nth_None_ge in E. specialize (L v Hv). lia. }
      exists o. split; [split; [apply nth_None_ge; fold h; lia|exact E]|]. rewrite nth_error_app2 in E by lia.
      replace (v - length h) with (S (v - S (length h))) in E by lia. cbn in E. apply nth_error_In in E. apply out_objs_In in E. exact E.
  - intros i o [H1 H2]. cbn [b_heap] in H2. apply nth_None_ge in H1. fold h in H1. assert (Hi : i < length (h ++ op_obj (b_count s) args vs :: out_objs (length h) (b_count s + 1) names)) by (apply nth_error_Some; congruence).
    rewrite app_length in Hi. cbn in Hi. rewrite out_objs_length in Hi. destruct (Nat.eq_dec i (length h)); auto. right. apply in_seq. lia.
Qed.

Lemma memn_In x l : memn x l = true <-> In x l.
Proof.
  unfold memn. rewrite existsb_exists. split; [intros (y & H & E); apply Nat.eqb_eq in E; subst; auto|]. intros H. exists x. split; auto. apply Nat.eqb_refl.
Qed.

(** Where an argument list ends up. *)
Definition placed (s s' : bst) (before : list nat) (args args' : list nat) : Prop :=
  length args' = length args /\
  forall i a, nth_error args i = Some a ->
    exists a', nth_error args' i = Some a' /\ (if memn a (before ++ firstn i args) then copy_of s s' a a' else a' = a).
Lemma dedup_spec N0 args : forall before seen s, N0 <= length (b_heap s) ->
  (forall a, In a args -> a < N0) -> (forall a, a < N0 -> (In a seen <-> In a before)) -> (forall a, In a seen -> a < length (b_heap s)) ->
  let s' := fst (dedup_args s seen args) in let l := snd (dedup_args s seen args) in
  grows s s' /\ placed s s' before args l /\ NoDup l /\ (forall x, In x l -> ~ In x seen /\ x < length (b_heap s')) /\
  (forall i o, new s s' i o -> exists a a' op, In a args /\ In a' l /\ computes s s' op [a] [a'] /\ (i = op \/ i = a')).
Proof.
  induction args as [|a r IH]; intros before seen s HN Ha Hs Hl; cbn [dedup_args fst snd].
  - split; [apply grows_refl|]. split; [split; [reflexivity|intros [|i] x; discriminate]|]. split; [constructor|]. split; [intros ? []|].
    intros i o [H1 H2]. congruence.
  - assert (HaN : a < N0) by (apply Ha; left; reflexivity). destruct (memn a seen) eqn:M.
    + pose proof (new_op_spec s [a] [None]) as HO. destruct (new_op s [a] [None]) as [s1 vs] eqn:En. cbn [fst snd] in HO.
      destruct HO as (G & C & Lv & Nw & Bd). destruct vs as [|v [|? ?]]; try discriminate Lv. clear Lv.
      assert (Bv := Bd v (or_introl eq_refl)).
      destruct (IH (before ++ [a]) (v :: seen) s1) as (G2 & (P1 & P2) & Nl & Hl2 & Nw2).
      * pose proof (grows_length _ _ G). lia.
      * intros x Hx. apply Ha. right; exact Hx.
      * intros x Hx. rewrite in_app_iff. cbn. rewrite (Hs x Hx). apply memn_In in M. apply Hs in M; [|exact HaN]. split.
        -- intros [E|H]; auto. exfalso. lia.
        -- intros [H|[<- |[]]]; auto.
      * intros x [<- |Hx]; [lia|]. specialize (Hl x Hx). pose proof (grows_length _ _ G). lia.
      * destruct (dedup_args s1 (v :: seen) r) as [s2 l] eqn:Ed. cbn [fst snd] in *.
        assert (G12 : grows s s2) by (eapply grows_trans; eauto).
        assert (Ca : computes s s2 (length (b_heap s)) [a] [v]) by (eapply computes_mono; [apply grows_refl|exact G2|exact C]).
        assert (HaB : In a before) by (apply Hs; auto; apply memn_In; exact M).
        split; [exact G12|]. split; [split|].
        -- cbn. congruence.
        -- intros [|i] x E; cbn in E.
           ++ injection E as <-. exists v. split; [reflexivity|]. cbn [firstn]. rewrite app_nil_r. replace (memn a before) with true by (symmetry; apply memn_In; auto).
              exists (length (b_heap s)). exact Ca.
           ++ destruct (P2 i x E) as (x' & E' & H). exists x'. split; [exact E'|]. cbn [firstn]. replace (before ++ a :: firstn i r) with ((before ++ [a]) ++ firstn i r) by (rewrite <- app_assoc; reflexivity).
              destruct (memn x ((before ++ [a]) ++ firstn i r)); auto. destruct H as (op & H). exists op. eapply computes_mono; [exact G|apply grows_refl|exact H].
        -- split; [|split].
           ++ constructor; auto. intros Hv. apply Hl2 in Hv. destruct Hv as [Hv _]. apply Hv. left; reflexivity.
           ++ intros x [<- |Hx].
              ** split; [|pose proof (grows_length _ _ G2); lia]. intros H. specialize (Hl _ H). lia.
              ** apply Hl2 in Hx. destruct Hx as [H1 H2]. split; auto. intros H. apply H1. right; exact H.
           ++ intros i o [H1 H2]. destruct (nth_error (b_heap s1) i) as [o1|] eqn:E1.
              ** exists a, v, (length (b_heap s)). split; [left; reflexivity|]. split; [left; reflexivity|]. split; [exact Ca|]. destruct (Nw i o1 (conj H1 E1)) as [H|[H|[]]]; auto.
              ** destruct (Nw2 i o (conj E1 H2)) as (b & b' & op & Hbb & Hb & Cb & Hi). exists b, b', op. split; [right; exact Hbb|]. split; [right; exact Hb|]. split; auto. eapply computes_mono; [exact G|apply grows_refl|exact Cb].
    + destruct (IH (before ++ [a]) (a :: seen) s) as (G2 & (P1 & P2) & Nl & Hl2 & Nw2).
      * exact HN.
      * intros x Hx. apply Ha. right; exact Hx.
      * intros x Hx. rewrite in_app_iff. cbn. rewrite (Hs x Hx). tauto.
      * intros x [<- |Hx]; [lia|apply Hl, Hx].
      * destruct (dedup_args s (a :: seen) r) as [s2 l] eqn:Ed. cbn [fst snd] in *. split; [exact G2|]. split; [split|].
        -- cbn. congruence.
        -- intros [|i] x E; cbn in E.
           ++ injection E as <-. exists a. split; [reflexivity|]. cbn [firstn]. rewrite app_nil_r. destruct (memn a before) eqn:B; [|reflexivity].
              exfalso. apply memn_In in B. apply Hs in B; auto. apply memn_In in B. congruence.
           ++ destruct (P2 i x E) as (x' & E' & H). exists x'. split; [exact E'|]. cbn [firstn]. replace (before ++ a :: firstn i r) with ((before ++ [a]) ++ firstn i r) by (rewrite <- app_assoc; reflexivity). exact H.
        -- split; [|split].
           ++ constructor; auto. intros Hv. apply Hl2 in Hv. destruct Hv as [Hv _]. apply Hv. left; reflexivity.
           ++ intros x [<- |Hx].
              ** split; [rewrite <- memn_In; congruence|]. pose proof (grows_length _ _ G2). lia.
              ** apply Hl2 in Hx. destruct Hx as [H1 H2]. split; auto. intros H. apply H1. right; exact H.
           ++ intros i o H. destruct (Nw2 i o H) as (b & b' & op & Hbb & Hb & Cb & Hi). exists b, b', op. split; [right; exact Hbb|]. split; [right; exact Hb|]. auto.
Qed.

Lemma kind_is_variable s i : kind_is is_variable s i = true <-> variable_in s i.
Proof.
  unfold kind_is, variable_in, is_variable, is_op. destruct (nth_error (b_heap s) i) as [o|].
  - destruct (ob_kind o) eqn:E; cbn; (split; [intros H; try discriminate H; exists o; rewrite E; auto|intros (o' & Eo & H); injection Eo as <-; rewrite E in H; try contradiction; reflexivity]).
  - split; [discriminate|intros (o & E & _); discriminate].
Qed.
Lemma variable_lt s i : variable_in s i -> i < length (b_heap s).
Proof. intros (o & E & _). apply nth_error_Some. congruence. Qed.
