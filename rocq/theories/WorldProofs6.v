(** When a program's model is a finite tree. *)
From Verif Require Import PyBase NamesModel PromotionsModel ExprModel ExprProofs UnflatModel WorldModel WorldSpec WorldProofs WorldProofs2 WorldProofs3 WorldProofs4 WorldProofs5.
From Coq Require Import Lia Relations.
Set Implicit Arguments.
Local Open Scope list_scope.

Lemma subs_known l : forall k m, nth_error (w_models (whistory l)) k = Some m -> forall t, In t (wm_subs m) -> snd t < length (w_models (whistory l)).
Proof.
  induction l as [|e l IH] using rev_ind; intros k m E t Ht; [destruct k; discriminate|].
  rewrite whistory_snoc in *. set (w := whistory l) in *.
  assert (UP : forall j (g : wmodel -> wmodel) h c, (forall x, wm_subs (g x) = wm_subs x) -> nth_error (w_models (World h c (upd (w_models w) j g))) k = Some m ->
            snd t < length (w_models (World h c (upd (w_models w) j g)))).
  { intros j g h c Hg E'. cbn in *. rewrite upd_length. rewrite nth_upd in E'. destruct (Nat.eqb j k); [|eapply IH; eassumption].
    destruct (nth_error (w_models w) k) as [x|] eqn:Ex; [|discriminate]. cbn in E'. injection E' as <-. rewrite Hg in Ht. eapply IH; eassumption. }
  destruct e as [|j ev|j on pr c|j a b|j n|j n|j n]; cbn [wstep] in *.
  - cbn in *. rewrite app_length. cbn. destruct (Nat.lt_ge_cases k (length (w_models w))) as [H|H].
    + rewrite nth_error_app1 in E by exact H. pose proof (IH _ _ E _ Ht). lia.
    + rewrite nth_error_app2 in E by exact H. destruct (k - length (w_models w)) as [|[|?]]; try discriminate. injection E as <-. destruct Ht.
  - destruct (nth_error (w_models w) j) as [x|] eqn:Ej; destruct ev; try (eapply IH; eassumption); unfold put in *; (eapply UP; [reflexivity|exact E]).
  - destruct (nth_error (w_models w) j) as [x|] eqn:Ej; [|eapply IH; eassumption]. destruct (nth_error (w_models w) c) as [y|] eqn:Ec; [|eapply IH; eassumption].
    assert (LC : c < length (w_models w)) by (apply nth_error_Some; congruence).
    assert (G : forall n cc, nth_error (w_models (World (w_heap w) cc (upd (w_models w) j (app_sub (n, pr, c))))) k = Some m ->
        snd t < length (w_models (World (w_heap w) cc (upd (w_models w) j (app_sub (n, pr, c)))))).
    { intros n cc E'. cbn in *. rewrite upd_length. rewrite nth_upd in E'. destruct (Nat.eqb j k) eqn:B; [|eapply IH; eassumption].
      apply Nat.eqb_eq in B. subst j. rewrite Ej in E'. cbn in E'. injection E' as <-. cbn in Ht. apply in_app_iff in Ht.
      destruct Ht as [Ht|[<-|[]]]; [exact (IH _ _ Ej _ Ht)|exact LC]. }
    destruct on as [n|].
    + destruct (is_ok (check_banned_chars n) && negb (smem n (sub_names x))); [eapply G, E|eapply IH; eassumption].
    + eapply G, E.
  - destruct (nth_error (w_models w) j) as [x|]; [|eapply IH; eassumption]. destruct (String.eqb a b); [eapply IH; eassumption|].
    destruct (existsb _ _); [eapply IH; eassumption|]. eapply UP; [reflexivity|exact E].
  - destruct (nth_error (w_models w) j) as [x|]; [|eapply IH; eassumption]. destruct (negb _); [eapply IH; eassumption|].
    destruct (smem n (wm_dvs x)); [eapply IH; eassumption|]. eapply UP; [reflexivity|exact E].
  - destruct (nth_error (w_models w) j) as [x|]; [|eapply IH; eassumption]. destruct (smem n (wm_cons x)); [eapply IH; eassumption|]. eapply UP; [reflexivity|exact E].
  - destruct (nth_error (w_models w) j) as [x|]; [|eapply IH; eassumption]. destruct (wm_obj x); [eapply IH; eassumption|]. eapply UP; [reflexivity|exact E].
Qed.

Lemma all_some_none {A} (l : list (option A)) : all_some l = None -> In None l.
Proof. induction l as [|[a|] r IH]; cbn; [discriminate| |auto]. destruct (all_some r); [discriminate|]. auto. Qed.
Lemma all_some_every {A} (l : list (option A)) xs : all_some l = Some xs -> forall y, In y l -> exists x, y = Some x.
Proof.
  revert xs. induction l as [|[a|] r IH]; intros xs H y Hy; cbn in *; try discriminate; [destruct Hy|].
  destruct (all_some r) as [ys|]; [|discriminate]. destruct Hy as [<-|Hy]; eauto.
Qed.

Section TreeExists.
  Variables (w : world) (shp : nat -> shape).
  Hypothesis KN : forall k m, nth_error (w_models w) k = Some m -> forall t, In t (wm_subs m) -> snd t < length (w_models w).

  Lemma tree_none f k : k < length (w_models w) -> tree f w shp k = None -> exists l, length l = f /\ Forall (fun j => j < length (w_models w)) l /\
     (forall i j, i < j -> j < length l -> clos_trans nat (contains w) (nth i l 0) (nth j l 0)) /\ (0 < length l -> nth 0 l 0 = k).
  Proof.
    revert k. induction f as [|f IH]; intros k L H.
    - exists []. split; [reflexivity|]. split; [constructor|]. split; cbn; intros; lia.
    - cbn in H. destruct (nth_error (w_models w) k) as [m|] eqn:E; [|apply nth_error_None in E; lia].
      destruct (all_some _) as [l|] eqn:A; [discriminate|]. apply all_some_none in A. apply in_map_iff in A. destruct A as ([[n pr] c] & Hc & Ht). cbn in Hc.
      pose proof (KN _ E _ Ht) as Lc. cbn in Lc. destruct (IH c Lc Hc) as (l & LL & FA & CH & H0).
      assert (CK : contains w k c) by (exists m, n, pr; auto).
      exists (k :: l). split; [cbn; lia|]. split; [constructor; assumption|]. split; [|reflexivity].
      intros i j Hij Hj. cbn [length] in Hj. destruct j as [|j]; [lia|]. cbn [nth]. destruct i as [|i]; cbn [nth].
      + destruct j as [|j].
        * rewrite H0 by lia. constructor. exact CK.
        * eapply t_trans; [constructor; exact CK|]. rewrite <- (H0 ltac:(lia)). apply CH; lia.
      + apply CH; lia.
  Qed.
  Lemma tree_down f k t j : clos_trans nat (contains w) k j -> tree f w shp k = Some t -> exists f' t', f' < f /\ tree f' w shp j = Some t'.
  Proof.
    intros C. revert f t. induction C as [k j (m & n & pr & E & Ht)|k i j _ IH1 _ IH2]; intros f t H.
    - destruct f as [|f]; cbn in H; [discriminate|]. rewrite E in H. destruct (all_some _) as [l|] eqn:A; [|discriminate].
      destruct (@all_some_every _ _ _ A (tree f w shp j)) as (x & Ex). { apply in_map_iff. exists (n, pr, j). auto. }
      exists f, x. split; [lia|exact Ex].
    - destruct (IH1 _ _ H) as (f1 & t1 & L1 & H1). destruct (IH2 _ _ H1) as (f2 & t2 & L2 & H2). exists f2, t2. split; [lia|exact H2].
  Qed.

  Theorem tree_exists k : k < length (w_models w) ->
    ((exists f um m, tree f w shp k = Some (um, m)) <-> ~ exists j, clos_refl_trans nat (contains w) k j /\ clos_trans nat (contains w) j j).
  Proof.
    intros L. split.
    - intros (f & um & m & H) (j & C1 & C2).
      assert (G : forall f t, tree f w shp j = Some t -> False).
      { clear -C2 KN. intros f. induction f as [f IH] using (well_founded_induction Wf_nat.lt_wf). intros t H.
        destruct (@tree_down _ _ _ _ C2 H) as (f' & t' & L & H'). eapply IH; eassumption. }
      apply clos_rt_rtn1 in C1. assert (D : j = k \/ clos_trans nat (contains w) k j).
      { clear -C1. induction C1 as [|y z H _ IH]; [auto|right]. destruct IH as [->|IH]; [constructor; exact H|eapply t_trans; [exact IH|constructor; exact H]]. }
      destruct D as [->|D]; [eapply G, H|]. destruct (@tree_down _ _ _ _ D H) as (f' & t' & _ & H'). eapply G, H'.
    - intros N. destruct (tree (S (length (w_models w))) w shp k) as [[um m]|] eqn:E; [eauto|]. exfalso.
      destruct (@tree_none _ _ L E) as (l & LL & FA & CH & H0).
      assert (ND : ~ NoDup l).
      { intros ND. assert (I : incl l (seq 0 (length (w_models w)))) by (intros x Hx; apply in_seq; rewrite Forall_forall in FA; specialize (FA x Hx); lia).
        pose proof (NoDup_incl_length ND I) as Q. rewrite seq_length in Q. lia. }
      assert (D : exists i j, i < j /\ j < length l /\ nth i l 0 = nth j l 0).
      { clear -ND. induction l as [|x l IH]; [exfalso; apply ND; constructor|]. destruct (in_dec Nat.eq_dec x l) as [I|I].
        - apply (In_nth _ _ 0) in I. destruct I as (i & Li & Ei). exists 0, (S i). cbn. split; [lia|]. split; [lia|]. symmetry. exact Ei.
        - destruct IH as (i & j & H1 & H2 & H3); [intros ND'; apply ND; constructor; assumption|]. exists (S i), (S j). cbn. split; [lia|]. split; [lia|exact H3]. }
      destruct D as (i & j & H1 & H2 & H3). apply N. exists (nth i l 0). split.
      + destruct i as [|i]; [rewrite H0 by lia; apply rt_refl|]. rewrite <- (H0 ltac:(lia)).
        assert (Q : clos_trans nat (contains w) (nth 0 l 0) (nth (S i) l 0)) by (apply CH; lia). clear -Q. induction Q; [apply rt_step; assumption|eapply rt_trans; eassumption].
      + rewrite H3 at 2. apply CH; assumption.
  Qed.
End TreeExists.
