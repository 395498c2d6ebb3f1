From Verif Require Import PyBase DefineModel DefineSpec.
Set Implicit Arguments.
Open Scope list_scope.

Lemma joined_eq a d c : joined a d c <-> c = append a d.
Proof.
  split; [|intros ->; repeat split]. destruct c. unfold joined, append. simpl.
  intros (-> & -> & -> & ->). reflexivity.
Qed.

Section D.
  Variable defs : nat -> res contents.

  Lemma define_rec_eq fuel h i : define_rec defs (S fuel) h i =
    if snd (h i) then (h, [], Ok tt)
    else match defs i with
         | Err e => (h, [i], Err e)
         | Ok c =>
           let h1 := upd h i (append (fst (h i)) c, false) in
           let '(h2, tr, r) := define_subs defs fuel h1 (k_subs (append (fst (h i)) c)) in
           match r with
           | Err e => (h2, i :: tr, Err e)
           | Ok _ => match checks (fst (h2 i)) with
                     | Err e => (h2, i :: tr, Err e)
                     | Ok _ => (upd h2 i (fst (h2 i), true), i :: tr, Ok tt)
                     end
           end
         end.
  Proof.
    cbn [define_rec]. destruct (snd (h i)); [reflexivity|]. destruct (defs i) as [c|e]; [|reflexivity].
    assert (E : fst (upd h i (append (fst (h i)) c, false) i) = append (fst (h i)) c).
    { unfold upd. rewrite Nat.eqb_refl. reflexivity. }
    cbv zeta. rewrite E. clear E.
    match goal with |- context [?f (upd h i (append (fst (h i)) c, false)) (k_subs (append (fst (h i)) c))] =>
      assert (G : forall l h0, f h0 l = define_subs defs fuel h0 l) end.
    { induction l as [|s l IH]; intros h0; [reflexivity|]. cbn [define_subs].
      destruct (define_rec defs fuel h0 s) as [[h' t] [|]]; [|reflexivity]. rewrite IH. reflexivity. }
    rewrite G. reflexivity.
  Qed.

  Lemma upd_same h i x : upd h i x i = x.
  Proof. unfold upd. rewrite Nat.eqb_refl. reflexivity. Qed.
  Lemma upd_other h i x j : j <> i -> upd h i x j = h j.
  Proof. intros H. unfold upd. rewrite (proj2 (Nat.eqb_neq j i) H). reflexivity. Qed.

  Lemma checks_sound c : checks c = Ok tt <-> sound c.
  Proof.
    unfold checks, sound, raise_if.
    destruct (Nat.eqb (length (k_outs c)) 0 && Nat.eqb (length (k_subs c)) 0 && Nat.eqb (length (k_inputs c)) 0) eqn:E1.
    { split; [discriminate|]. apply andb_true_iff in E1. destruct E1 as [E1 E3]. apply andb_true_iff in E1. destruct E1 as [E1 E2].
      apply Nat.eqb_eq in E1, E2, E3. apply length_zero_iff_nil in E1, E2, E3. rewrite E1, E2, E3. tauto. }
    assert (N : k_outs c <> [] \/ k_subs c <> [] \/ k_inputs c <> []).
    { destruct (k_outs c); [|left; discriminate]. destruct (k_subs c); [|right; left; discriminate].
      destruct (k_inputs c); [discriminate|right; right; discriminate]. }
    destruct (forallb (fun n => smem n (k_inputs c)) (k_dvs c)) eqn:E2; simpl.
    2:{ split; [discriminate|]. intros (_ & H & _). exfalso.
        assert (forallb (fun n => smem n (k_inputs c)) (k_dvs c) = true); [|congruence].
        apply forallb_forall. intros x Hx. apply smem_spec, H, Hx. }
    assert (I : incl (k_dvs c) (k_inputs c)).
    { intros x Hx. rewrite forallb_forall in E2. apply smem_spec, E2, Hx. }
    destruct (existsb (fun o => negb (snd o)) (k_outs c)) eqn:E3.
    - split; [discriminate|]. intros (_ & _ & H). apply existsb_exists in E3. destruct E3 as (o & Ho & E).
      rewrite Forall_forall in H. rewrite (H _ Ho) in E. discriminate.
    - split; [|reflexivity]. intros _. split; [exact N|]. split; [exact I|]. apply Forall_forall. intros o Ho.
      destruct (snd o) eqn:E; [reflexivity|]. exfalso.
      assert (existsb (fun o => negb (snd o)) (k_outs c) = true); [|congruence].
      apply existsb_exists. exists o. rewrite E. auto.
  Qed.
  Lemma checks_tt c : checks c = Ok tt \/ exists e, checks c = Err e.
  Proof. destruct (checks c) as [[]|e]; eauto. Qed.

  (** heaps that differ only by definitions *)
  Definition full (h : heap) (j : nat) (c : contents) : Prop := defined_contents defs h j c.

  (** relation between the heaps before and after a successful piece of work that
      defined exactly the models in [tr] *)
  Record did (h h' : heap) (tr : list nat) : Prop := {
    d_in : forall j, In j tr -> exists c, full h j c /\ h' j = (c, true) /\ sound c;
    d_out : forall j, ~ In j tr -> h' j = h j;
    d_nodup : NoDup tr;
    d_closed : forall a b c, In a tr -> full h a c -> In b (k_subs c) -> snd (h' b) = true
  }.

  Lemma did_refl h : did h h [].
  Proof. constructor; simpl; try tauto; constructor. Qed.

  Lemma did_defined h h' tr j : did h h' tr -> snd (h j) = true -> h' j = h j.
  Proof.
    intros D Hj. destruct (in_dec Nat.eq_dec j tr) as [H|H]; [|apply (d_out D), H].
    destruct (d_in D _ H) as (c & [F _] & _). congruence.
  Qed.

  Lemma did_trans h h1 h2 t1 t2 : did h h1 t1 -> did h1 h2 t2 -> did h h2 (t1 ++ t2).
  Proof.
    intros D1 D2.
    assert (X : forall j, In j t2 -> ~ In j t1 /\ h1 j = h j).
    { intros j Hj. destruct (in_dec Nat.eq_dec j t1) as [H|H].
      - destruct (d_in D1 _ H) as (c & _ & E & _). destruct (d_in D2 _ Hj) as (c' & [F _] & _). rewrite E in F. discriminate.
      - split; [exact H|apply (d_out D1), H]. }
    constructor.
    - intros j Hj. apply in_app_iff in Hj. destruct Hj as [Hj|Hj].
      + destruct (d_in D1 _ Hj) as (c & F & E & S). exists c. split; [exact F|]. split; [|exact S].
        rewrite (did_defined j D2); [exact E|rewrite E; reflexivity].
      + destruct (X _ Hj) as [_ E]. destruct (d_in D2 _ Hj) as (c & F & E' & S). exists c. split; [|auto].
        unfold full, defined_contents in *. rewrite E in F. exact F.
    - intros j Hj. rewrite in_app_iff in Hj. rewrite (d_out D2), (d_out D1); tauto.
    - apply NoDup_app_iff. split; [apply (d_nodup D1)|]. split; [apply (d_nodup D2)|].
      intros j H1 H2. apply (X _ H2), H1.
    - intros a b c Ha F Hb. apply in_app_iff in Ha. destruct Ha as [Ha|Ha].
      + pose proof (d_closed D1 _ Ha F Hb) as T. rewrite (did_defined _ D2 T). exact T.
      + destruct (X _ Ha) as [_ E]. eapply (d_closed D2); [exact Ha| |exact Hb].
        unfold full, defined_contents in *. rewrite E. exact F.
  Qed.

  (** every model of the trace other than the first ones has a parent before it *)
  Definition parents_first (h : heap) (roots : list nat) (tr : list nat) : Prop :=
    forall l1 b l2, tr = l1 ++ b :: l2 -> In b roots \/ exists a c, In a l1 /\ full h a c /\ In b (k_subs c).

  Variable rank : nat -> nat.

  Lemma split_app {A} (t1 t2 l1 l2 : list A) b : t1 ++ t2 = l1 ++ b :: l2 ->
    (exists m, t1 = l1 ++ b :: m /\ l2 = m ++ t2) \/ (exists m, l1 = t1 ++ m /\ t2 = m ++ b :: l2).
  Proof.
    revert l1. induction t1 as [|x t1 IH]; intros l1 H; simpl in H.
    - right. exists l1. auto.
    - destruct l1 as [|y l1]; simpl in H; injection H as <- H.
      + left. exists t1. auto.
      + destruct (IH _ H) as [(m & -> & ->)|(m & -> & ->)]; [left; exists m; auto|right; exists m; auto].
  Qed.

  Lemma parents_app h h1 t1 t2 r1 r2 : did h h1 t1 ->
    parents_first h r1 t1 -> parents_first h1 r2 t2 -> (forall j, In j t2 -> h1 j = h j) -> parents_first h (r1 ++ r2) (t1 ++ t2).
  Proof.
    intros D P1 P2 X l1 b l2 E. apply split_app in E. destruct E as [(m & E & _)|(m & -> & E)].
    - destruct (P1 _ _ _ E) as [H|H]; [left; apply in_app_iff; auto|right; exact H].
    - destruct (P2 _ _ _ E) as [H|(a & c & Ha & F & Hb)]; [left; apply in_app_iff; auto|].
      right. exists a, c. split; [apply in_app_iff; auto|]. split; [|exact Hb].
      unfold full, defined_contents in *. rewrite <- X; [exact F|]. rewrite E. apply in_app_iff. auto.
  Qed.

  Definition hier (h : heap) := hierarchy defs h rank.

  Lemma hier_did h h' tr : hier h -> did h h' tr -> hier h'.
  Proof.
    intros H D a b Hb. apply H. destruct Hb as [Hb|Hb]; [|auto].
    destruct (in_dec Nat.eq_dec a tr) as [Ha|Ha]; [|rewrite (d_out D _ Ha) in Hb; auto].
    destruct (d_in D _ Ha) as (c & (_ & d & Ed & J) & E & _). apply joined_eq in J. subst c. rewrite E in Hb. simpl in Hb.
    apply in_app_iff in Hb. destruct Hb; [auto|right; eauto].
  Qed.

  Lemma hier_upd h i c : hier h -> defs i = Ok c -> hier (upd h i (append (fst (h i)) c, false)).
  Proof.
    intros H E a b Hb. apply H. destruct Hb as [Hb|Hb]; [|auto]. unfold upd in Hb.
    destruct (Nat.eqb_spec a i) as [->|]; [|auto]. simpl in Hb. apply in_app_iff in Hb. destruct Hb; [auto|right; eauto].
  Qed.

  Definition ranks_below (r : nat) (tr : list nat) : Prop := forall j, In j tr -> rank j < r.

  (** a model in error *)
  Definition at_fault (h : heap) (j : nat) (e : exn) : Prop :=
    snd (h j) = false /\
    (defs j = Err e \/ exists d, defs j = Ok d /\ checks (append (fst (h j)) d) = Err e).

  Inductive below (h : heap) (l : list nat) : nat -> Prop :=
  | below_top i : In i l -> snd (h i) = false -> below h l i
  | below_sub a b c : below h l a -> full h a c -> In b (k_subs c) -> snd (h b) = false -> below h l b.

  Definition result_ok (h : heap) (roots : list nat) (x : heap * list nat * res unit) : Prop :=
    let '(h', tr, r) := x in
    match r with
    | Ok _ => did h h' tr /\ parents_first h roots tr /\ (forall i, In i roots -> snd (h' i) = true)
    | Err e => exists j, below h roots j /\ at_fault h j e
    end.

  Lemma below_mono h l l' j : incl l l' -> below h l j -> below h l' j.
  Proof. intros H. induction 1; [apply below_top; auto|eapply below_sub; eassumption]. Qed.

  (** a failed piece leaves the models of larger rank alone *)
  Definition untouched (h : heap) (r : nat) (x : heap * list nat * res unit) : Prop :=
    let '(h', tr, _) := x in ranks_below r tr /\ forall j, ~ In j tr -> h' j = h j.

  Lemma below_did h h1 t1 l j : did h h1 t1 -> below h1 l j -> below h l j /\ h1 j = h j.
  Proof.
    intros D. assert (X : forall k, snd (h1 k) = false -> h1 k = h k).
    { intros k Hk. apply (d_out D). intros Hin. destruct (d_in D _ Hin) as (c & _ & E & _). rewrite E in Hk. discriminate. }
    induction 1 as [i Hi Hs|a b c Ha [IH IHe] F Hb Hs].
    - split; [|auto]. apply below_top; [exact Hi|]. rewrite <- (X _ Hs). exact Hs.
    - split; [|auto]. eapply below_sub; [exact IH| |exact Hb|rewrite <- (X _ Hs); exact Hs].
      unfold full, defined_contents in *. rewrite <- IHe. exact F.
  Qed.

  Lemma below_upd h i x l j : rank i >= 0 -> (forall k, In k l -> rank k < rank i) -> hier (upd h i x) ->
    below (upd h i x) l j -> below h l j /\ rank j < rank i.
  Proof.
    intros _ HL HH. induction 1 as [k Hk Hs|a b c Ha [IH IHr] F Hb Hs].
    - assert (k <> i) by (intros ->; specialize (HL _ Hk); lia). rewrite upd_other in Hs by assumption.
      split; [apply below_top; assumption|auto].
    - assert (rank b < rank a).
      { apply HH. destruct F as (_ & d & Ed & J). apply joined_eq in J. subst c. simpl in Hb. apply in_app_iff in Hb. destruct Hb; [left; assumption|right; eauto]. }
      assert (b <> i) by (intros ->; lia). assert (a <> i) by (intros ->; lia).
      rewrite upd_other in Hs by assumption. split; [|lia].
      eapply below_sub; [exact IH| |exact Hb|exact Hs].
      unfold full, defined_contents in *. rewrite upd_other in F by assumption. exact F.
  Qed.

  Lemma define_spec fuel : 
    (forall h i, hier h -> rank i < fuel ->
       result_ok h [i] (define_rec defs fuel h i) /\ untouched h (S (rank i)) (define_rec defs fuel h i)) /\
    (forall l h r, hier h -> (forall i, In i l -> rank i < r) -> r <= fuel ->
       result_ok h l (define_subs defs fuel h l) /\ untouched h r (define_subs defs fuel h l)).
  Proof.
    induction fuel as [|fuel [IHr IHs]].
    { split; [intros; lia|]. intros l h r Hh Hl Hr. destruct l as [|i l].
      - simpl. split; [split; [apply did_refl|split; [intros [|] b l2 E; discriminate|simpl; tauto]]|].
        split; [intros j []|auto].
      - exfalso. specialize (Hl i (or_introl eq_refl)). lia. }
    assert (R : forall h i, hier h -> rank i < S fuel ->
       result_ok h [i] (define_rec defs (S fuel) h i) /\ untouched h (S (rank i)) (define_rec defs (S fuel) h i)).
    { intros h i Hh Hi. rewrite define_rec_eq. destruct (snd (h i)) eqn:Es.
      { split; [|split; [intros j []|auto]]. simpl. split; [apply did_refl|].
        split; [intros [|] b l2 E; discriminate|]. intros k [<-|[]]. exact Es. }
      destruct (defs i) as [c|e] eqn:Ed.
      2:{ split; [|split; [intros j [<-|[]]; lia|auto]]. exists i. split; [apply below_top; simpl; auto|]. split; auto. }
      cbv zeta. set (h1 := upd h i (append (fst (h i)) c, false)).
      assert (Hh1 : hier h1) by (apply hier_upd; assumption).
      assert (Hl : forall b, In b (k_subs (append (fst (h i)) c)) -> rank b < rank i).
      { intros b Hb. apply Hh. simpl in Hb. apply in_app_iff in Hb. destruct Hb; [auto|right; eauto]. }
      destruct (IHs (k_subs (append (fst (h i)) c)) h1 (rank i) Hh1 Hl ltac:(lia)) as [Q U].
      destruct (define_subs defs fuel h1 _) as [[h2 tr] r]. destruct U as [U1 U2].
      assert (Hi1 : ~ In i tr) by (intros Hin; specialize (U1 _ Hin); lia).
      assert (Ei : h2 i = (append (fst (h i)) c, false)) by (rewrite U2 by exact Hi1; apply upd_same).
      assert (Fi : full h i (append (fst (h i)) c)) by (split; [exact Es|exists c; split; [exact Ed|apply joined_eq; reflexivity]]).
      assert (FT : forall j d, In j tr -> (full h1 j d <-> full h j d)).
      { intros j d Hj. unfold full, defined_contents, h1. rewrite upd_other; [reflexivity|]. intros ->; auto. }
      destruct r as [[]|e].
      - destruct Q as (D & P & T). rewrite Ei. cbn [fst].
        destruct (checks_tt (append (fst (h i)) c)) as [Ec|(e & Ec)]; rewrite Ec.
        + apply checks_sound in Ec. split.
          * cbn [result_ok]. split; [|split].
            -- constructor.
               ++ intros j [<-|Hj].
                  ** exists (append (fst (h i)) c). rewrite upd_same. auto.
                  ** destruct (d_in D _ Hj) as (d & F & E & S). exists d. split; [apply FT; assumption|].
                     rewrite upd_other by (intros ->; auto). auto.
               ++ intros j Hj. simpl in Hj. assert (j <> i) by (intros ->; tauto).
                  rewrite upd_other by assumption. rewrite U2 by tauto. apply upd_other; assumption.
               ++ constructor; [exact Hi1|apply (d_nodup D)].
               ++ intros a b d [<-|Ha] F Hb.
                  ** assert (d = append (fst (h i)) c) by (destruct F as (_ & d' & E & J); apply joined_eq in J; subst d; rewrite Ed in E; injection E as <-; reflexivity).
                     subst d. assert (b <> i) by (intros ->; specialize (Hl _ Hb); lia).
                     rewrite upd_other by assumption. apply T, Hb.
                  ** assert (rank b < rank a).
                     { apply Hh. destruct F as (_ & d' & E & J). apply joined_eq in J. subst. simpl in Hb. apply in_app_iff in Hb. destruct Hb; [auto|right; eauto]. }
                     specialize (U1 _ Ha). assert (b <> i) by (intros ->; lia).
                     rewrite upd_other by assumption. apply FT in F; [|exact Ha]. eapply (d_closed D); eassumption.
            -- intros l1 b l2 E. destruct l1 as [|x l1]; simpl in E; injection E as <- E; [left; left; reflexivity|].
               right. destruct (P _ _ _ E) as [H|(a & d & Ha & F & Hb)].
               ++ exists i, (append (fst (h i)) c). split; [left; reflexivity|]. auto.
               ++ exists a, d. split; [right; exact Ha|]. split; [|exact Hb]. apply FT; [|exact F]. rewrite E. apply in_app_iff; auto.
            -- intros k [<-|[]]. rewrite upd_same. reflexivity.
          * split; [intros j [<-|Hj]; [lia|specialize (U1 _ Hj); lia]|].
            intros j Hj. simpl in Hj. assert (j <> i) by (intros ->; tauto).
            rewrite upd_other by assumption. rewrite U2 by tauto. apply upd_other; assumption.
        + split.
          * exists i. split; [apply below_top; simpl; auto|]. split; [exact Es|]. right. eauto.
          * split; [intros j [<-|Hj]; [lia|specialize (U1 _ Hj); lia]|].
            intros j Hj. simpl in Hj. rewrite U2 by tauto. apply upd_other. intros ->; tauto.
      - split.
        + destruct Q as (j & Hb & A). exists j.
          destruct (@below_upd h i (append (fst (h i)) c, false) _ j (Nat.le_0_l _) Hl Hh1 Hb) as [Hb' Hr]. split.
          * clear - Hb' Fi Es. induction Hb' as [k Hk Hs|a b d Ha IH F Hb Hs].
            -- eapply below_sub; [apply below_top; [left; reflexivity|exact Es]|exact Fi|exact Hk|exact Hs].
            -- eapply below_sub; eassumption.
          * unfold at_fault in *. unfold h1 in A. rewrite upd_other in A by (intros ->; lia). exact A.
        + split; [intros j [<-|Hj]; [lia|specialize (U1 _ Hj); lia]|].
          intros j Hj. simpl in Hj. rewrite U2 by tauto. apply upd_other. intros ->; tauto. }
    split; [exact R|].
    induction l as [|s l IHl]; intros h r Hh Hl Hr.
    - simpl. split; [split; [apply did_refl|split; [intros [|] b l2 E; discriminate|simpl; tauto]]|].
      split; [intros j []|auto].
    - cbn [define_subs]. pose proof (Hl s (or_introl eq_refl)) as Hs.
      destruct (R h s Hh ltac:(lia)) as [Q U]. destruct (define_rec defs (S fuel) h s) as [[h1 t1] r1].
      destruct U as [U1 U2]. destruct r1 as [[]|e].
      + destruct Q as (D & P & T).
        destruct (IHl h1 r (hier_did Hh D)) as [Q2 V]; [intros i Hi; apply Hl; right; exact Hi|exact Hr|].
        destruct (define_subs defs (S fuel) h1 l) as [[h2 t2] r2]. destruct V as [V1 V2].
        split.
        * destruct r2 as [[]|e]; cbn [result_ok] in *.
          -- destruct Q2 as (D2 & P2 & T2). split; [eapply did_trans; eassumption|]. split.
             ++ apply (@parents_app h h1 t1 t2 [s] l D P P2). intros j Hj. apply (d_out D). intros Hin.
                destruct (d_in D _ Hin) as (c & _ & E & _). destruct (d_in D2 _ Hj) as (c' & [F _] & _). rewrite E in F. discriminate.
             ++ intros i [<-|Hi]; [|apply T2, Hi]. specialize (T s (or_introl eq_refl)). rewrite (did_defined _ D2 T). exact T.
          -- destruct Q2 as (j & Hb & A). exists j. destruct (below_did D Hb) as [Hb' E].
             split; [eapply below_mono; [|exact Hb']; intros x Hx; right; exact Hx|].
             unfold at_fault in *. rewrite <- E. exact A.
        * split.
          -- intros j Hj. apply in_app_iff in Hj. destruct Hj as [Hj|Hj]; [specialize (U1 _ Hj); lia|apply V1, Hj].
          -- intros j Hj. rewrite in_app_iff in Hj. rewrite V2, U2; tauto.
      + split.
        * destruct Q as (j & Hb & A). exists j. split; [|exact A]. eapply below_mono; [|exact Hb]. intros x [<-|[]]; left; reflexivity.
        * split; [intros j Hj; specialize (U1 _ Hj); lia|exact U2].
  Qed.

  (** whatever happens, the hierarchy stays one *)
  Lemma define_hier fuel :
    (forall h i h' tr r, hier h -> define_rec defs fuel h i = (h', tr, r) -> hier h') /\
    (forall l h h' tr r, hier h -> define_subs defs fuel h l = (h', tr, r) -> hier h').
  Proof.
    assert (S : forall fuel, (forall h i h' tr r, hier h -> define_rec defs fuel h i = (h', tr, r) -> hier h') ->
      forall l h h' tr r, hier h -> define_subs defs fuel h l = (h', tr, r) -> hier h').
    { clear. intros fuel R. induction l as [|s l IH]; intros h h' tr r HH; simpl; [intros [= <- _ _]; exact HH|].
      destruct (define_rec defs fuel h s) as [[h1 t1] [[]|e]] eqn:E1.
      - destruct (define_subs defs fuel h1 l) as [[h2 t2] r2] eqn:E2. intros [= <- _ _]. eapply IH; [|exact E2]. eapply R; eassumption.
      - intros [= <- _ _]. eapply R; eassumption. }
    induction fuel as [|fuel [IHr IHs]].
    - assert (R : forall h i h' tr r, hier h -> define_rec defs 0 h i = (h', tr, r) -> hier h').
      { intros h i h' tr r HH [= <- _ _]. exact HH. }
      split; [exact R|apply S, R].
    - assert (R : forall h i h' tr r, hier h -> define_rec defs (Datatypes.S fuel) h i = (h', tr, r) -> hier h').
      { intros h i h' tr r HH. rewrite define_rec_eq. destruct (snd (h i)); [intros [= <- _ _]; exact HH|].
        destruct (defs i) as [c|e] eqn:Ed; [|intros [= <- _ _]; exact HH]. cbv zeta.
        destruct (define_subs defs fuel _ _) as [[h2 t2] r2] eqn:E2.
        assert (H2 : hier h2) by (eapply IHs; [|exact E2]; apply hier_upd; assumption).
        destruct r2 as [[]|e]; [|intros [= <- _ _]; exact H2].
        destruct (checks (fst (h2 i))) as [u|]; [|intros [= <- _ _]; exact H2]. intros [= <- _ _].
        intros a b Hb. apply H2. destruct Hb as [Hb|Hb]; [|auto]. unfold upd in Hb.
        destruct (Nat.eqb_spec a i) as [->|]; [|auto]. simpl in Hb. auto. }
      split; [exact R|apply S, R].
  Qed.
  Lemma define_subs_hier fuel l h : hier h -> forall h' tr r, define_subs defs fuel h l = (h', tr, r) -> hier h'.
  Proof. intros HH h' tr r. apply define_hier, HH. Qed.
End D.
