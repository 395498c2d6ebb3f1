(** Each call keeps the invariant. *)
From Verif Require Import PyBase NamesModel NamesProofs PromotionsModel ExprModel ExprSpec UnflatModel UnflatSpec UnflatProofs ExprProofs EffectProofs WorldModel WorldSpec WorldProofs.
From Coq Require Import Lia.
Set Implicit Arguments.
Local Open Scope list_scope.

Lemma upd_beyond {A} (l : list A) i f : length l <= i -> upd l i f = l.
Proof. revert i. induction l as [|x r IH]; intros [|i] H; cbn in *; try lia; auto. f_equal. apply IH. lia. Qed.
Lemma upd_app {A} (l r : list A) i f : i < length l -> upd (l ++ r) i f = upd l i f ++ r.
Proof. revert i. induction l as [|x l IH]; intros [|i] H; cbn in *; try lia; auto. f_equal. apply IH. lia. Qed.
Lemma upd_upd {A} (l : list A) i f g : upd (upd l i f) i g = upd l i (fun x => g (f x)).
Proof. revert i. induction l as [|x l IH]; intros [|i]; cbn; auto. f_equal. apply IH. Qed.
Lemma nth_lt {A} (l : list A) i x : nth_error l i = Some x -> i < length l.
Proof. intros E. apply nth_error_Some. congruence. Qed.

Section Call.
  Variables (used : N) (I O D : nat -> list nat) (k : nat).
  Local Notation inv := (inv used).
  Local Notation oinv := (oinv used).
  Local Notation out_ok := (out_ok used).
  Local Notation wext := (wext used).
  Local Notation chosen_name := (chosen_name used).
  Notation T ap own s := (mk I O D ap own k s).

  (** Objects [r] are appended, then object [i] is changed. *)
  Lemma inv_gen ap ap' own s s' r i f :
    inv (T ap own s) -> sinv (b_heap s') ->
    b_heap s' = upd (b_heap s ++ r) i f ->
    (i < length (b_heap s) /\ nth_error own i = Some k) \/ length (b_heap s) + length r <= i ->
    (b_count s <= b_count s')%N ->
    NoDup (map ob_num r) -> (forall o, In o r -> (b_count s <= ob_num o < b_count s')%N) ->
    (forall x, In x ap -> In x ap') ->
    (forall ob, nth_error (b_heap s) i = Some ob -> ob_kind (f ob) = ob_kind ob /\ ob_num (f ob) = ob_num ob /\
       (ob_name (f ob) = ob_name ob \/ (is_output ob = true /\ chosen_name (ob_name (f ob)) /\ has_dot (ob_name (f ob)) = false)) /\
       (forall v, is_op ob = true -> In v (ob_outs ob) -> In v (ob_outs (f ob)))) ->
    (exists l, b_ins s' = b_ins s ++ l /\ forall v, In v l -> leaf_ok (T ap' (own ++ repeat k (length r)) s') KIn k v) ->
    (exists l, b_outs s' = b_outs s ++ l /\ forall v, In v l -> out_ok (T ap' (own ++ repeat k (length r)) s') k v) ->
    (exists l, b_decls s' = b_decls s ++ l /\ forall v, In v l -> leaf_ok (T ap' (own ++ repeat k (length r)) s') KDecl k v) ->
    (wext (T ap own s) (T ap' (own ++ repeat k (length r)) s') ->
     (forall ob, nth_error (b_heap s) i = Some ob -> nth_error own i = Some k -> oinv (T ap own s) i k ob -> oinv (T ap' (own ++ repeat k (length r)) s') i k (f ob)) /\
     (forall j ob, nth_error r j = Some ob -> oinv (T ap' (own ++ repeat k (length r)) s') (length (b_heap s) + j) k ob)) ->
    inv (T ap' (own ++ repeat k (length r)) s').
  Proof.
    intros IV S E Hi C ND NB AP F (li & Ei & Pi) (lo & Eo & Po) (ld & Ed & Pd) OB.
    assert (LO := i_own IV). cbn in LO.
    assert (NH : forall j ob, nth_error (b_heap s) j = Some ob -> nth_error (b_heap s') j = Some (if Nat.eqb i j then f ob else ob)).
    { intros j ob Ej. rewrite E, nth_upd, (EffectProofs.nth_app_old _ _ _ _ Ej). destruct (Nat.eqb i j); reflexivity. }
    assert (F' : forall o, nth_error (b_heap s ++ r) i = Some o -> ob_kind (f o) = ob_kind o /\ ob_num (f o) = ob_num o /\ (forall v, is_op o = true -> In v (ob_outs o) -> In v (ob_outs (f o)))).
    { intros o Eo'. destruct Hi as [[Hi _]|Hi].
      - rewrite nth_error_app1 in Eo' by exact Hi. destruct (F _ Eo') as (F1 & F2 & _ & F3). auto.
      - apply nth_lt in Eo'. rewrite app_length in Eo'. lia. }
    assert (X : wext (T ap own s) (T ap' (own ++ repeat k (length r)) s')).
    { split; cbn [mk t_heap t_own t_ins t_outs t_decls t_ap].
      - intros j ob Ej. eexists. split; [apply NH, Ej|]. destruct (Nat.eqb_spec i j) as [<-|_]; [|auto]. destruct (F _ Ej) as (F1 & _ & F2 & _). auto.
      - intros j k' H. unfold owned in *. cbn in *. apply owned_old, H.
      - intros k' j. rewrite !In_ovr, Ei, in_app_iff. tauto.
      - intros k' j. rewrite !In_ovr, Eo, in_app_iff. tauto.
      - intros k' j. rewrite !In_ovr, Ed, in_app_iff. tauto.
      - intros o v Hw. rewrite E. apply writes_upd; [|apply writes_app, Hw]. intros x Ex. destruct (F' _ Ex) as (F1 & _ & F2). auto.
      - exact AP. }
    destruct (OB X) as [OB1 OB2]. clear OB.
    assert (NU : map ob_num (b_heap s') = map ob_num (b_heap s ++ r)).
    { rewrite E. clear -F'. revert i F'. generalize (b_heap s ++ r) as h. induction h as [|x h IH]; intros [|i] F'; cbn; auto.
      - destruct (F' x eq_refl) as (_ & -> & _). reflexivity.
      - f_equal. apply IH. intros o Eo. apply F'. exact Eo. }
    eapply inv_next; [exact IV|exact X|exact S| | | | | | |].
    - cbn. rewrite E, upd_length, !app_length, repeat_length. cbn in LO. lia.
    - cbn. rewrite NU. eapply nums_app; [exact (i_few IV)|exact (i_num IV)|exact ND|]. intros o Ho. apply NB, Ho.
    - cbn. intros o Ho. apply (in_map ob_num) in Ho. rewrite NU in Ho. apply in_map_iff in Ho. destruct Ho as (o' & En & Ho). rewrite <- En.
      apply in_app_iff in Ho. destruct Ho as [Ho|Ho]; [pose proof (i_few IV o' Ho) as Q; cbn in Q; lia|apply NB, Ho].
    - cbn. intros j ob k' Ej Ow. unfold owned in Ow. cbn in Ow.
      destruct (Nat.lt_ge_cases j (length (b_heap s))) as [Hj|Hj].
      + destruct (nth_error (b_heap s) j) as [ob0|] eqn:Ej0; [|apply nth_error_None in Ej0; lia].
        rewrite (NH _ _ Ej0) in Ej. injection Ej as <-. rewrite nth_error_app1 in Ow by lia.
        destruct (Nat.eqb_spec i j) as [<-|Hne].
        * right. destruct Hi as [[_ Hi]|Hi]; [|lia]. rewrite Hi in Ow. injection Ow as <-. apply OB1; auto. apply (i_obj IV); auto.
        * left. split; [first [exact Ej0|reflexivity]|exact Ow].
      + right. apply owned_app in Ow. destruct Ow as [Ow|[_ ->]]; [apply nth_lt in Ow; lia|].
        assert (Ej' : nth_error r (j - length (b_heap s)) = Some ob).
        { rewrite E, nth_upd in Ej. destruct (Nat.eqb_spec i j) as [<-|_].
          - destruct (nth_error (b_heap s ++ r) i) eqn:Q; [|discriminate]. apply nth_lt in Q. rewrite app_length in Q. lia.
          - rewrite nth_error_app2 in Ej by exact Hj. exact Ej. }
        replace j with (length (b_heap s) + (j - length (b_heap s))) by lia. apply OB2, Ej'.
    - cbn. intros k' j. rewrite !In_ovr, Ei, in_app_iff. intros [(-> & [H|H])|[H1 H2]]; [auto| |auto]. right. apply Pi, H.
    - cbn. intros k' j. rewrite !In_ovr, Eo, in_app_iff. intros [(-> & [H|H])|[H1 H2]]; [auto| |auto]. right. apply Po, H.
    - cbn. intros k' j. rewrite !In_ovr, Ed, in_app_iff. intros [(-> & [H|H])|[H1 H2]]; [auto| |auto]. right. apply Pd, H.
  Qed.

  Lemma inv_append ap own s s' r :
    inv (T ap own s) -> sinv (b_heap s') -> b_heap s' = b_heap s ++ r ->
    (b_count s <= b_count s')%N ->
    NoDup (map ob_num r) -> (forall o, In o r -> (b_count s <= ob_num o < b_count s')%N) ->
    (exists l, b_ins s' = b_ins s ++ l /\ forall v, In v l -> leaf_ok (T ap (own ++ repeat k (length r)) s') KIn k v) ->
    (exists l, b_outs s' = b_outs s ++ l /\ forall v, In v l -> out_ok (T ap (own ++ repeat k (length r)) s') k v) ->
    (exists l, b_decls s' = b_decls s ++ l /\ forall v, In v l -> leaf_ok (T ap (own ++ repeat k (length r)) s') KDecl k v) ->
    (forall j ob, nth_error r j = Some ob -> oinv (T ap (own ++ repeat k (length r)) s') (length (b_heap s) + j) k ob) ->
    inv (T ap (own ++ repeat k (length r)) s').
  Proof.
    intros IV S E C ND NB L1 L2 L3 OB. eapply inv_gen with (i := length (b_heap s) + length r) (f := fun x => x) (ap := ap); eauto.
    - rewrite upd_beyond; [exact E|]. rewrite app_length. lia.
    - intros X. split; [|exact OB]. intros ob Ei. apply nth_lt in Ei. lia.
  Qed.

  Lemma inv_update ap own s s' i f :
    inv (T ap own s) -> sinv (b_heap s') -> b_heap s' = upd (b_heap s) i f -> nth_error own i = Some k ->
    (b_count s <= b_count s')%N ->
    (forall ob, nth_error (b_heap s) i = Some ob -> ob_kind (f ob) = ob_kind ob /\ ob_num (f ob) = ob_num ob /\
       (ob_name (f ob) = ob_name ob \/ (is_output ob = true /\ chosen_name (ob_name (f ob)) /\ has_dot (ob_name (f ob)) = false)) /\
       (forall v, is_op ob = true -> In v (ob_outs ob) -> In v (ob_outs (f ob)))) ->
    b_ins s' = b_ins s -> b_decls s' = b_decls s ->
    (exists l, b_outs s' = b_outs s ++ l /\ forall v, In v l -> out_ok (T ap own s') k v) ->
    (wext (T ap own s) (T ap own s') -> forall ob, nth_error (b_heap s) i = Some ob -> oinv (T ap own s) i k ob -> oinv (T ap own s') i k (f ob)) ->
    inv (T ap own s').
  Proof.
    intros IV S E Ow C F L1 L2 L3 OB. pose proof (app_nil_r own) as EO.
    assert (Hi : i < length (b_heap s)) by (pose proof (i_own IV) as Q; cbn in Q; rewrite <- Q; eapply nth_lt, Ow).
    assert (G : inv (T ap (own ++ repeat k (length (@nil obj))) s')); [|cbn in G; rewrite EO in G; exact G].
    eapply inv_gen with (i := i) (f := f) (ap := ap); eauto; cbn [length repeat]; rewrite ?EO.
    - rewrite app_nil_r. exact E.
    - cbn. constructor.
    - intros o [].
    - exists []. rewrite app_nil_r. split; [exact L1|intros v []].
    - exact L3.
    - exists []. rewrite app_nil_r. split; [exact L2|intros v []].
    - intros X. split; [|intros [|j] ob; discriminate]. intros ob Eo _ Oo. apply OB; assumption.
  Qed.

  Lemma inv_bump ap own s n : inv (T ap own s) -> inv (T ap own (bump s n)).
  Proof.
    intros IV. pose proof (app_nil_r own) as EO.
    assert (G : inv (T ap (own ++ repeat k (length (@nil obj))) (bump s n))); [|cbn in G; rewrite EO in G; exact G].
    apply inv_append with (s := s); cbn [length repeat]; rewrite ?EO; auto.
    - apply IV.
    - cbn. rewrite app_nil_r. reflexivity.
    - cbn. lia.
    - constructor.
    - intros o [].
    - exists []. cbn. rewrite app_nil_r. split; [reflexivity|intros v []].
    - exists []. cbn. rewrite app_nil_r. split; [reflexivity|intros v []].
    - exists []. cbn. rewrite app_nil_r. split; [reflexivity|intros v []].
    - intros [|j] ob; discriminate.
  Qed.

  (** A new object of model [k]. *)
  Definition mine (own : list nat) (s : bst) (i : nat) : Prop := nth_error own i = Some k /\ variable (b_heap s) i.

  Lemma same_list (l : list nat) (P : nat -> Prop) : exists r, l = l ++ r /\ forall v, In v r -> P v.
  Proof. exists []. rewrite app_nil_r. split; [reflexivity|intros v []]. Qed.

  Lemma inv_new_op ap own s args names : inv (T ap own s) -> (forall a, In a args -> mine own s a) ->
    (forall n, In (Some n) names -> chosen_name n) ->
    let s' := fst (new_op s args names) in let own' := own ++ repeat k (length (b_heap s') - length (b_heap s)) in
    inv (T ap own' s') /\ (forall v, In v (snd (new_op s args names)) -> mine own' s' v) /\ (forall a, mine own s a -> mine own' s' a).
  Proof.
    intros IV HA HN. cbn zeta. pose proof (i_own IV) as LO. cbn in LO.
    destruct (new_op s args names) as [s' vs] eqn:E. cbn [fst snd].
    destruct (@new_op_better s args names s' vs (i_sinv IV) (fun a H => proj2 (HA a H)) E) as (B & _ & CB).
    rewrite new_op_eq in E. injection E as E <-.
    set (op := length (b_heap s)) in *. set (vs := seq (S op) (length names)) in *.
    set (r := op_obj (b_count s) args vs :: out_objs op (b_count s + 1)%N names).
    assert (EH : b_heap s' = b_heap s ++ r) by (rewrite <- E; reflexivity).
    assert (LR : length r = S (length names)) by (cbn; rewrite out_objs_length; reflexivity).
    assert (LH : length (b_heap s') - length (b_heap s) = length r) by (rewrite EH, app_length; lia).
    fold op in LH. rewrite LH.
    assert (MV : forall v, In v vs -> nth_error (own ++ repeat k (length r)) v = Some k).
    { intros v Hv. apply in_seq in Hv. apply owned_new. rewrite LR. unfold op in Hv. lia. }
    assert (MO : nth_error (own ++ repeat k (length r)) op = Some k) by (apply owned_new; rewrite LR; unfold op; lia).
    split; [|split].
    - assert (WR : forall v, In v vs -> writes (b_heap s') op v).
      { intros v Hv. exists (op_obj (b_count s) args vs). split; [|split; [reflexivity|exact Hv]]. rewrite EH, nth_error_app2 by (unfold op; lia). unfold op. rewrite Nat.sub_diag. reflexivity. }
      destruct (out_objs_num op names (b_count s + 1)%N) as [ON OB].
      apply inv_append with (s := s); auto; try (rewrite <- E; apply same_list).
      + apply B.
      + rewrite <- E. cbn. lia.
      + cbn. constructor; [|exact ON]. intros H. apply in_map_iff in H. destruct H as (o & En & Ho). apply OB in Ho. lia.
      + rewrite <- E. cbn [b_count]. intros o [<-|Ho]; [cbn; lia|]. apply OB in Ho. lia.
      + intros [|j] ob Ej; cbn in Ej.
        * injection Ej as <-. fold op. rewrite Nat.add_0_r. split; cbn; try discriminate; auto.
          -- intros d Hd. apply owned_old, HA, Hd.
          -- apply seq_NoDup.
        * apply out_objs_nth in Ej. destruct Ej as (n & En & ->). fold op. assert (Hv : In (op + S j) vs) by (apply nth_lt in En; apply in_seq; lia).
          split; cbn [is_op ob_kind ob_name ob_deps ob_outs ob_decomp ob_defined ob_num]; try discriminate; auto.
          -- destruct n as [n|]; [right; apply HN; eapply nth_error_In, En|left; reflexivity].
          -- intros d [<-|[]]. exact MO.
          -- intros d [].
          -- intros _ o [<-|[]]. apply WR, Hv.
          -- constructor.
    - intros v Hv. split; [apply MV, Hv|]. destruct (CB v Hv) as (o & Ho). eapply computed_variable, Ho.
    - intros a (H1 & H2). split; [apply owned_old, H1|]. apply (he_var (bt_ext B)), H2.
  Qed.

  Lemma inv_dedup ap args : forall own s seen, inv (T ap own s) -> (forall a, In a args -> mine own s a) ->
    let s' := fst (dedup_args s seen args) in let own' := own ++ repeat k (length (b_heap s') - length (b_heap s)) in
    inv (T ap own' s') /\ (forall v, In v (snd (dedup_args s seen args)) -> mine own' s' v) /\ (forall a, mine own s a -> mine own' s' a) /\
    length (b_heap s) <= length (b_heap s').
  Proof.
    induction args as [|a r IH]; intros own s seen IV HA; cbn zeta; cbn [dedup_args].
    - cbn [fst snd]. rewrite Nat.sub_diag. cbn. rewrite app_nil_r. split; [exact IV|]. split; [intros v []|]. auto.
    - assert (Ma : mine own s a) by (apply HA; left; reflexivity). destruct (memn a seen).
      + pose proof (@inv_new_op ap own s [a] [None] IV) as N. cbn zeta in N. destruct N as (N1 & N2 & N3).
        { intros x [<-|[]]. exact Ma. } { intros n [Hn|[]]; discriminate. }
        destruct (new_op s [a] [None]) as [s1 vs] eqn:EN. cbn [fst snd] in *.
        assert (L1 : length (b_heap s) <= length (b_heap s1)) by (rewrite new_op_eq in EN; injection EN as <- _; cbn; rewrite app_length; lia).
        set (a' := match vs with v :: _ => v | [] => a end) in *.
        destruct (IH _ s1 (a' :: seen) N1) as (D1 & D2 & D3 & D4); [intros x Hx; apply N3, HA; right; exact Hx|].
        destruct (dedup_args s1 (a' :: seen) r) as [s2 l] eqn:ED. cbn [fst snd] in *. rewrite repeat_more in D1, D2, D3.
        replace (length (b_heap s1) - length (b_heap s) + (length (b_heap s2) - length (b_heap s1))) with (length (b_heap s2) - length (b_heap s)) in D1, D2, D3 by lia.
        split; [exact D1|]. split; [|split; [auto|lia]]. intros v [<-|Hv]; [|auto]. apply D3. unfold a'. destruct vs as [|v vs']; [apply N3, Ma|apply N2; left; reflexivity].
      + destruct (IH own s (a :: seen) IV) as (D1 & D2 & D3 & D4); [intros x Hx; apply HA; right; exact Hx|].
        destruct (dedup_args s (a :: seen) r) as [s2 l] eqn:ED. cbn [fst snd] in *. split; [exact D1|]. split; [|auto].
        intros v [<-|Hv]; auto.
  Qed.
End Call.
