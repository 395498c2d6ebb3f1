(** Execution of a list of nodes in dependency order. *)
From Verif Require Import PyBase Digraph TopoSpec UnflatModel UnflatProofs CompileSpec.
Set Implicit Arguments.

Lemma precedes_split {A} (l l1 l2 : list A) (a b : A) : NoDup l -> precedes l a b -> l = l1 ++ b :: l2 -> In a l1.
Proof.
  intros N (x & y & z & E) E'. rewrite E' in E, N. clear E'. revert x E. induction l1 as [|c l1 IH]; intros x E.
  - exfalso. destruct x as [|d x]; cbn in E; injection E as -> E.
    + subst l2. cbn in N. inversion N as [|? ? Nn _]. apply Nn. apply in_app_iff. right. left. reflexivity.
    + subst l2. cbn in N. inversion N as [|? ? Nn _]. apply Nn. apply in_app_iff. right. right. apply in_app_iff. right. left. reflexivity.
  - destruct x as [|d x]; cbn in E; injection E as -> E; [left; reflexivity|right]. cbn in N. inversion N; subst.
    eapply IH; [|exact E]. assumption.
Qed.
Lemma precedes_trans {A} (l : list A) (a b c : A) : NoDup l -> precedes l a b -> precedes l b c -> precedes l a c.
Proof.
  intros N Hab Hbc. assert (Hc : In c l) by (destruct Hbc as (x & y & z & ->); apply in_app_iff; right; right; apply in_app_iff; right; left; reflexivity).
  apply in_split in Hc. destruct Hc as (l1 & l2 & E). pose proof (@precedes_split _ _ _ _ _ _ N Hbc E) as Hb. apply in_split in Hb. destruct Hb as (k1 & k2 & ->).
  rewrite <- app_assoc in E. cbn in E. pose proof (@precedes_split _ _ _ _ _ _ N Hab E) as Ha. apply in_split in Ha. destruct Ha as (j1 & j2 & ->).
  exists j1, (j2 ++ b :: k2), l2. rewrite E. rewrite <- !app_assoc. cbn. rewrite <- ?app_assoc. reflexivity.
Qed.

Lemma position_nth x l k : position x l = Some k -> nth_error l k = Some x.
Proof.
  revert k. induction l as [|y l IH]; intros k; cbn; [discriminate|]. destruct (irnode_eqb x y) eqn:E.
  - intros H. injection H as <-. apply irnode_eqb_spec in E. subst. reflexivity.
  - destruct (position x l) as [j|]; [|discriminate]. intros H. injection H as <-. cbn. apply IH. reflexivity.
Qed.
Lemma position_none x l : position x l = None <-> ~ In x l.
Proof.
  induction l as [|y l IH]; cbn; [tauto|]. destruct (irnode_eqb x y) eqn:E.
  - apply irnode_eqb_spec in E. subst. split; [discriminate|tauto].
  - assert (x <> y) by (intros ->; rewrite (proj2 (irnode_eqb_spec y y) eq_refl) in E; discriminate).
    destruct (position x l) as [j|]; cbn; split; try discriminate; try tauto; intros; destruct IH as [I1 I2]; firstorder congruence.
Qed.
Lemma position_nodup x l k : NoDup l -> nth_error l k = Some x -> position x l = Some k.
Proof.
  intros N H. destruct (position x l) as [j|] eqn:E.
  - apply position_nth in E. f_equal. rewrite NoDup_nth_error in N. apply N; [apply nth_error_Some; congruence|congruence].
  - apply position_none in E. exfalso. apply E. eapply nth_error_In, H.
Qed.

Section Exec.
  Context {V : Type} (outs args : irnode -> list irnode) (app : irnode -> list V -> nat -> V) (order : list irnode).
  Definition estep (env : irnode -> V) (x : irnode) : irnode -> V := store env (outs x) (app x (map env (args x))).
  Hypothesis (N : NoDup order).
  Hypothesis (NO : forall x, In x order -> NoDup (outs x)).
  Hypothesis (U : forall x y b, In x order -> In y order -> In b (outs x) -> In b (outs y) -> x = y).
  Hypothesis (P : forall x y a, In x order -> In y order -> In a (args x) -> In a (outs y) -> precedes order y x).

  Lemma fold_other l env b : (forall x, In x l -> ~ In b (outs x)) -> fold_left estep l env b = env b.
  Proof.
    revert env. induction l as [|x l IH]; intros env H; cbn; [reflexivity|]. rewrite IH by (intros y Hy; apply H; right; exact Hy).
    unfold estep, store. rewrite (proj2 (position_none _ _)); [reflexivity|]. apply H. left. reflexivity.
  Qed.
  Lemma fold_computes env x k b : In x order -> nth_error (outs x) k = Some b ->
    fold_left estep order env b = app x (map (fold_left estep order env) (args x)) k.
  Proof.
    intros Hx Hb. pose proof Hx as Hs. apply in_split in Hs. destruct Hs as (l1 & l2 & E).
    assert (Dis : forall y, In y l2 -> y <> x /\ In y order).
    { intros y Hy. split; [|rewrite E; apply in_app_iff; right; right; exact Hy]. intros ->. rewrite E in N. apply NoDup_remove_2 in N. apply N, in_app_iff. auto. }
    assert (K : forall env', fold_left estep order env' b = estep (fold_left estep l1 env') x b).
    { intros env'. rewrite E, fold_left_app. cbn [fold_left]. apply fold_other. intros y Hy Hi. destruct (Dis y Hy) as [D1 D2]. apply D1.
      eapply U; [exact D2|exact Hx|exact Hi|]. eapply nth_error_In, Hb. }
    rewrite K. unfold estep at 1, store. rewrite (@position_nodup b (outs x) k (@NO _ Hx) Hb).
    f_equal. apply map_ext_in. intros a Ha. symmetry. rewrite E, fold_left_app. cbn [fold_left]. rewrite fold_other.
    - unfold estep, store. rewrite (proj2 (position_none _ _)); [reflexivity|]. intros Hi.
      pose proof (@P _ _ _ Hx Hx Ha Hi) as Pr. pose proof (@precedes_split _ _ _ _ _ _ N Pr E) as Hl. rewrite E in N. apply NoDup_remove_2 in N. apply N, in_app_iff. auto.
    - intros y Hy Hi. destruct (Dis y Hy) as [D1 D2]. pose proof (@P _ _ _ Hx D2 Ha Hi) as Pr. pose proof (@precedes_split _ _ _ _ _ _ N Pr E) as Hl.
      rewrite E in N. clear -N Hy Hl. induction l1 as [|z l1 IH]; [destruct Hl|]. cbn in N. inversion N as [|? ? Nn N']; subst. destruct Hl as [->|Hl].
      + apply Nn, in_app_iff. right. right. exact Hy.
      + apply IH; assumption.
  Qed.
  Lemma fold_initial env b : (forall x, In x order -> ~ In b (outs x)) -> fold_left estep order env b = env b.
  Proof. apply fold_other. Qed.

  (** Induction along the order. *)
  Lemma order_ind (C : irnode -> Prop) : (forall b, (forall x, In x order -> ~ In b (outs x)) -> C b) ->
    (forall x, In x order -> (forall a, In a (args x) -> C a) -> forall b, In b (outs x) -> C b) -> forall b, C b.
  Proof.
    intros H0 H1.
    assert (K : forall l1 l2, order = l1 ++ l2 -> forall x, In x l1 -> forall b, In b (outs x) -> C b).
    { induction l1 as [|z l1 IH] using rev_ind; intros l2 E x Hx b Hb; [destruct Hx|]. rewrite <- app_assoc in E. cbn in E.
      apply in_app_iff in Hx. destruct Hx as [Hx|[<-|[]]]; [exact (IH _ E x Hx b Hb)|].
      assert (Hz : In z order) by (rewrite E; apply in_app_iff; right; left; reflexivity).
      apply (H1 z Hz); [|exact Hb]. intros a Ha.
      destruct (Exists_dec (fun y => In a (outs y)) order) as [D|D].
      { intros y. apply in_dec. apply (eqA_dec _ irnode_eqb_spec). }
      - apply Exists_exists in D. destruct D as (y & Hy & Hi). pose proof (@P _ _ _ Hz Hy Ha Hi) as Pr.
        exact (IH _ E y (@precedes_split _ _ _ _ _ _ N Pr E) a Hi).
      - apply H0. intros y Hy Hi. apply D, Exists_exists. exists y. auto. }
    intros b. destruct (Exists_dec (fun y => In b (outs y)) order) as [D|D].
    { intros y. apply in_dec. apply (eqA_dec _ irnode_eqb_spec). }
    - apply Exists_exists in D. destruct D as (y & Hy & Hi). eapply (K order []); [rewrite app_nil_r; reflexivity|exact Hy|exact Hi].
    - apply H0. intros y Hy Hi. apply D, Exists_exists. exists y. auto.
  Qed.
End Exec.
