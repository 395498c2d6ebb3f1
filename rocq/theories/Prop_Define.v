(** C44: running the define methods of a hierarchy of models. *)
From Verif Require Import PyBase DefineModel DefineSpec DefineProofs.
Set Implicit Arguments.
Open Scope list_scope.

Lemma in_trace_needed defs h root tr : (forall j, In j tr -> snd (h j) = false) ->
  parents_first defs h [root] tr -> forall j, In j tr -> needed defs h root j.
Proof.
  intros HU HP. assert (G : forall n l1 l2, tr = l1 ++ l2 -> length l1 = n -> forall j, In j l1 -> needed defs h root j).
  { induction n as [|n IH]; intros l1 l2 E HL j Hj; [destruct l1; [contradiction|discriminate]|].
    destruct (exists_last (l := l1)) as (l & b & ->); [intros ->; discriminate|].
    rewrite app_length in HL. simpl in HL. rewrite <- app_assoc in E. simpl in E.
    assert (IHl : forall j, In j l -> needed defs h root j) by (eapply (IH l (b :: l2)); [exact E|lia]).
    apply in_app_iff in Hj. destruct Hj as [Hj|[<-|[]]]; [auto|].
    assert (Hb : snd (h b) = false) by (apply HU; rewrite E; apply in_app_iff; right; left; reflexivity).
    destruct (HP _ _ _ E) as [[<-|[]]|(a & c & Ha & F & Hs)]; [constructor; exact Hb|].
    eapply needed_sub; [apply IHl, Ha|exact F|exact Hs|exact Hb]. }
  intros j Hj. eapply (G (length tr) tr []); [rewrite app_nil_r; reflexivity|reflexivity|exact Hj].
Qed.

(** A build that succeeds calls define exactly once on every model of the hierarchy that
    was not marked as defined, and on no other; these are then marked, with what their
    define method added; all other models are unchanged. *)
Theorem C44_defined_once : forall defs h rank root fuel h' tr,
  hierarchy defs h rank -> rank root < fuel ->
  define_rec defs fuel h root = (h', tr, Ok tt) ->
  NoDup tr /\ (forall j, In j tr <-> needed defs h root j) /\
  (forall j, In j tr -> exists c, defined_contents defs h j c /\ h' j = (c, true)) /\
  (forall j, ~ In j tr -> h' j = h j).
Proof.
  intros defs h rank root fuel h' tr HH HF E.
  destruct (define_spec defs rank fuel) as [R _]. destruct (R h root HH HF) as [Q _].
  rewrite E in Q. destruct Q as (D & P & T). split; [apply (d_nodup D)|]. split; [|split].
  - intros j. split.
    + apply in_trace_needed; [|exact P]. intros k Hk. destruct (d_in D _ Hk) as (c & [F _] & _). exact F.
    + assert (X : forall k, snd (h k) = false -> snd (h' k) = true -> In k tr).
      { intros k H1 H2. destruct (in_dec Nat.eq_dec k tr) as [H|H]; [exact H|]. rewrite (d_out D _ H) in H2. congruence. }
      induction 1 as [Hr|a b c Ha IH F Hb Hs]; [apply X; [exact Hr|apply T; left; reflexivity]|].
      apply X; [exact Hs|]. eapply (d_closed D); eassumption.
  - intros j Hj. destruct (d_in D _ Hj) as (c & F & E' & _). eauto.
  - apply (d_out D).
Qed.

(** Every model other than the root is defined after one of the models that contain it. *)
Theorem C44_after_a_parent : forall defs h rank root fuel h' l1 b l2,
  hierarchy defs h rank -> rank root < fuel ->
  define_rec defs fuel h root = (h', l1 ++ b :: l2, Ok tt) ->
  b = root \/ exists a c, In a l1 /\ defined_contents defs h a c /\ In b (k_subs c).
Proof.
  intros defs h rank root fuel h' l1 b l2 HH HF E.
  destruct (define_spec defs rank fuel) as [R _]. destruct (R h root HH HF) as [Q _].
  rewrite E in Q. destruct Q as (D & P & T). destruct (P _ _ _ eq_refl) as [[<-|[]]|H]; auto.
Qed.

(** In particular a model with a single parent is defined after it. *)
Theorem C44_before_submodels : forall defs h rank root fuel h' l1 b l2 a c,
  hierarchy defs h rank -> rank root < fuel ->
  define_rec defs fuel h root = (h', l1 ++ b :: l2, Ok tt) ->
  defined_contents defs h a c -> In b (k_subs c) -> b <> root ->
  (forall a' c', defined_contents defs h a' c' -> In b (k_subs c') -> a' = a) ->
  In a l1.
Proof.
  intros defs h rank root fuel h' l1 b l2 a c HH HF E Ha Hb Hn HU.
  destruct (@C44_after_a_parent _ _ _ _ _ _ _ _ _ HH HF E) as [->|(a' & c' & H1 & H2 & H3)]; [congruence|].
  rewrite <- (HU _ _ H2 H3). exact H1.
Qed.

(** The build succeeds exactly when the define method of every model to be defined
    succeeds and leaves a model that is not empty, whose design variables are among its
    inputs and whose outputs have all been assigned. *)
Theorem C44_accepted_iff : forall defs h rank root fuel,
  hierarchy defs h rank -> rank root < fuel ->
  (snd (define_rec defs fuel h root) = Ok tt <->
   forall j, needed defs h root j -> exists c, defined_contents defs h j c /\ sound c).
Proof.
  intros defs h rank root fuel HH HF.
  destruct (define_spec defs rank fuel) as [R _]. destruct (R h root HH HF) as [Q _].
  destruct (define_rec defs fuel h root) as [[h' tr] r] eqn:E. simpl. split.
  - intros ->. destruct (@C44_defined_once _ _ _ _ _ _ _ HH HF E) as (_ & HN & _).
    destruct Q as (D & _). intros j Hj. apply HN in Hj. destruct (d_in D _ Hj) as (c & F & _ & S). eauto.
  - intros H. destruct r as [[]|e]; [reflexivity|]. exfalso. destruct Q as (j & Hb & Hs & A).
    assert (N : needed defs h root j).
    { clear - Hb. induction Hb as [i [<-|[]] Hs|a b c Ha IH F Hb Hs]; [constructor; exact Hs|eapply needed_sub; eassumption]. }
    destruct (H _ N) as (c & (_ & d & Ed & J) & S). apply joined_eq in J. subst c. apply checks_sound in S.
    destruct A as [A|(d' & Ed' & A)]; [congruence|]. rewrite Ed in Ed'. injection Ed' as <-. congruence.
Qed.

(** A model used in two places is defined once, and may be defined before one of the
    models that contain it. *)
Theorem C44_shared_model_refuted : exists defs h rank root fuel h' tr a b c,
  hierarchy defs h rank /\ rank root < fuel /\
  define_rec defs fuel h root = (h', tr, Ok tt) /\
  defined_contents defs h a c /\ In b (k_subs c) /\ exists l1 l2, tr = l1 ++ b :: l2 /\ In a l2.
Proof.
  set (K := fun subs => Contents ["x"%string] [] [] subs).
  set (defs := fun i => Ok (match i with 0 => K [2; 1] | 1 => K [2] | _ => K [] end) : res contents).
  set (h := (fun _ => (Contents [] [] [] [], false)) : heap).
  exists defs, h, (fun i => match i with 0 => 2 | 1 => 1 | _ => 0 end), 0, 3.
  destruct (define_rec defs 3 h 0) as [[h' tr] r] eqn:E.
  exists h', tr, 1, 2, (K [2]).
  assert (E2 : (tr, r) = ([0; 2; 1], Ok tt)).
  { apply (f_equal (fun x => (snd (fst x), snd x))) in E. simpl in E. rewrite <- E. vm_compute. reflexivity. }
  injection E2 as -> ->. split.
  { intros a b [[]|(c & Ec & Hb)]. unfold defs in Ec. injection Ec as <-. destruct a as [|[|a]]; simpl in Hb; intuition (subst; lia). }
  split; [lia|]. split; [reflexivity|]. split; [split; [reflexivity|exists (K [2]); split; [reflexivity|repeat split]]|].
  split; [left; reflexivity|]. exists [0], [1]. split; [reflexivity|left; reflexivity].
Qed.

(** A build that raises does not mark the root as defined although its define method has
    run: the next build calls it again, and what it added is there twice. *)
Theorem C44_failed_build_refuted : forall defs h rank root fuel h' tr e d,
  hierarchy defs h rank -> rank root < fuel -> snd (h root) = false -> defs root = Ok d ->
  define_rec defs fuel h root = (h', tr, Err e) ->
  exists c, joined (fst (h root)) d c /\ h' root = (c, false) /\
  exists h2 tr2 r2, define_rec defs fuel h' root = (h2, root :: tr2, r2) /\
    (r2 = Ok tt -> exists c2, joined c d c2 /\ h2 root = (c2, true)).
Proof.
  intros defs h rank root fuel h' tr e d HH HF Hs Hd E. destruct fuel as [|fuel]; [lia|].
  assert (G : forall h, hierarchy defs h rank -> snd (h root) = false ->
    exists h' tr r, define_rec defs (S fuel) h root = (h', root :: tr, r) /\
      h' root = (append (fst (h root)) d, match r with Ok _ => true | Err _ => false end) /\
      hierarchy defs h' rank).
  { clear - HF Hd. intros h HH Hs. rewrite define_rec_eq, Hs, Hd. cbv zeta.
    set (h1 := upd h root (append (fst (h root)) d, false)).
    assert (Hh1 : hier defs rank h1) by (apply hier_upd; assumption).
    assert (Hl : forall b, In b (k_subs (append (fst (h root)) d)) -> rank b < rank root).
    { intros b Hb. apply HH. simpl in Hb. apply in_app_iff in Hb. destruct Hb; [auto|right; eauto]. }
    destruct (define_spec defs rank fuel) as [_ S2].
    destruct (S2 _ h1 (rank root) Hh1 Hl ltac:(lia)) as [_ U].
    pose proof (@define_subs_hier defs rank fuel (k_subs (append (fst (h root)) d)) h1 Hh1) as HK.
    destruct (define_subs defs fuel h1 _) as [[h2 tr] r]. destruct U as [U1 U2]. specialize (HK _ _ _ eq_refl).
    assert (Ei : h2 root = (append (fst (h root)) d, false)).
    { rewrite U2; [apply upd_same|]. intros Hin. specialize (U1 _ Hin). lia. }
    destruct r as [[]|e]; [|exists h2, tr, (Err e); auto]. rewrite Ei. cbn [fst].
    destruct (checks_tt (append (fst (h root)) d)) as [Ec|(e & Ec)]; rewrite Ec.
    - exists (upd h2 root (append (fst (h root)) d, true)), tr, (Ok tt). split; [reflexivity|]. split; [apply upd_same|].
      intros a b Hb. apply HK. destruct Hb as [Hb|Hb]; [|auto]. unfold upd in Hb.
      destruct (Nat.eqb_spec a root) as [->|]; [|auto]. rewrite Ei. auto.
    - exists h2, tr, (Err e). auto. }
  destruct (G h HH Hs) as (h1 & t1 & r1 & E1 & R1 & HH1). rewrite E in E1. injection E1 as <- -> <-.
  exists (append (fst (h root)) d). split; [apply joined_eq; reflexivity|].
  split; [exact R1|]. destruct (G h' HH1) as (h2 & t2 & r2 & E2 & R2 & _); [rewrite R1; reflexivity|].
  exists h2, t2, r2. split; [exact E2|]. intros ->.
  exists (append (append (fst (h root)) d) d). split; [apply joined_eq; reflexivity|]. rewrite R2, R1. reflexivity.
Qed.

(** A model used in a [with] block has its define method called at the end of the block
    and again by the build. *)
Theorem C44_with_block_refuted : forall defs h i d fuel, 
  snd (h i) = false -> defs i = Ok d ->
  exists h1, exit_with defs h i = (h1, [i], Ok tt) /\
    exists h2 tr r, define_rec defs (S fuel) h1 i = (h2, i :: tr, r).
Proof.
  intros defs h i d fuel Hs Hd. unfold exit_with. rewrite Hd. eexists. split; [reflexivity|].
  rewrite define_rec_eq. rewrite upd_same. simpl snd. rewrite Hs, Hd. cbv zeta.
  destruct (define_subs _ _ _ _) as [[h2 tr] [[]|e]].
  - destruct (checks (fst (h2 i))); eexists _, _, _; reflexivity.
  - eexists _, _, _; reflexivity.
Qed.

(** *** Non-vacuity: a root with two submodels that share a third one *)
Definition ex_defs (i : nat) : res contents :=
  Ok (match i with
      | 0 => Contents [] [] [] [1; 2]
      | 1 => Contents ["x"%string] ["x"%string] [("y"%string, true)] [3]
      | 2 => Contents [] [] [("z"%string, true)] [3]
      | _ => Contents ["u"%string] [] [] []
      end).
Definition ex_heap : heap := fun i => (Contents [] [] [] [], false).
Definition ex_rank (i : nat) : nat := match i with 0 => 2 | 1 | 2 => 1 | _ => 0 end.
Example ex_hierarchy : hierarchy ex_defs ex_heap ex_rank.
Proof.
  intros a b [[]|(c & E & Hb)]. unfold ex_defs in E. injection E as <-.
  destruct a as [|[|[|a]]]; simpl in Hb; intuition (subst; simpl; lia).
Qed.
Example ex_build : let '(h, tr, r) := define_rec ex_defs 3 ex_heap 0 in
  tr = [0; 1; 3; 2] /\ r = Ok tt /\ map (fun i => snd (h i)) [0; 1; 2; 3; 4] = [true; true; true; true; false].
Proof. vm_compute. repeat split. Qed.
Example ex_empty_model : 
  define_rec (fun i => Ok (Contents [] [] [] (if Nat.eqb i 0 then [1] else []))) 3 ex_heap 0
  = (fst (fst (define_rec (fun i => Ok (Contents [] [] [] (if Nat.eqb i 0 then [1] else []))) 3 ex_heap 0)), [0; 1], Err ValueError).
Proof. reflexivity. Qed.

Print Assumptions C44_defined_once.
Print Assumptions C44_after_a_parent.
Print Assumptions C44_before_submodels.
Print Assumptions C44_accepted_iff.
Print Assumptions C44_shared_model_refuted.
Print Assumptions C44_failed_build_refuted.
Print Assumptions C44_with_block_refuted.
