(** A decision procedure for concrete programs: do they follow the rules, are they finished?  Used
    for examples only. *)
From Verif Require Import PyBase NamesModel PromotionsModel ExprModel ExprSpec ExprProofs EffectSpec EffectProofs ExprProofs2 UnflatModel WorldModel WorldSpec WorldSpec2 WorldProofs WorldProofs2 WorldProofs4 WorldProofs7 WorldProofs8 Prop_World.
From Coq Require Import Lia.
Local Open Scope list_scope.

Definition longb (n : string) : bool := negb (Nat.eqb (String.length n) 5).
Definition ruleb (before : list wevent) (e : wevent) : bool :=
  match e with
  | WOn k ev =>
    forallb longb (chosen_names ev) && (match ev with EDepend _ _ | EAdd None | ECustom _ _ _ => false | _ => true end) &&
    (match ev with EDeclare n => negb (has_dot n) | _ => true end) &&
    forallb (fun o => match nth_error (owners before) o with Some j => Nat.eqb j k | None => false end) (mentions ev)
  | WAdd _ on _ _ => match on with Some n => longb n && negb (String.eqb n EmptyString) | None => false end
  | _ => true
  end.
Lemma longb_ok used n : (used <= 62 * 63 ^ 4)%N -> longb n = true -> chosen_name used n.
Proof. intros U H. apply other_length; [exact U|]. unfold longb in H. destruct (Nat.eqb_spec (String.length n) 5); [discriminate|assumption]. Qed.
Lemma ruleb_ok used before e : (used <= 62 * 63 ^ 4)%N -> ruleb before e = true -> rule used before e.
Proof.
  intros U H. destruct e as [|k ev|k on pr c|k a b|k n|k n|k n]; try exact I; cbn [ruleb rule] in *.
  - apply andb_prop in H. destruct H as [H H4]. apply andb_prop in H. destruct H as [H H3]. apply andb_prop in H. destruct H as [H1 H2]. rewrite forallb_forall in H1, H4.
    split; [split; [intros n Hn; apply longb_ok; [exact U|apply H1, Hn]|]|split; [|split]].
    + destruct ev; try exact I; try discriminate. destruct n; [exact I|discriminate].
    + intros n ->. cbn in H3. destruct (has_dot n); [discriminate|reflexivity].
    + intros o Ho. specialize (H4 o Ho). destruct (nth_error (owners before) o) as [j|]; [|discriminate]. apply Nat.eqb_eq in H4. congruence.
    + intros op args outs ->. cbn in H2. discriminate.
  - destruct on as [n|]; [|discriminate]. apply andb_prop in H. destruct H as [H1 H2]. exists n. split; [reflexivity|]. split; [apply longb_ok; assumption|].
    intros ->. discriminate.
Qed.
Fixpoint rulesb (pre l : list wevent) : bool := match l with [] => true | e :: r => ruleb pre e && rulesb (pre ++ [e]) r end.
Lemma rules_check l : (w_count (whistory l) <=? 62 * 63 ^ 4)%N = true -> rulesb [] l = true -> follows_rules l.
Proof.
  intros U H. apply N.leb_le in U. assert (G : rules_from (w_count (whistory l)) [] l); [|intros b e a E; exact (rules_from_ok _ l [] G b e a E)].
  set (u := w_count (whistory l)) in *. clearbody u. revert H. generalize (@nil wevent) as pre. induction l as [|e r IH]; intros pre H; [exact I|].
  cbn in H. apply andb_prop in H. destruct H as [H1 H2]. split; [apply ruleb_ok; assumption|apply IH, H2].
Qed.

Definition objb (l : list wevent) (io : nat * obj) : bool :=
  match ob_kind (snd io) with
  | KConcat => ob_defined (snd io)
  | KOut => (String.eqb (ob_name (snd io)) (hex_id (ob_num (snd io))) && (ob_num (snd io) <? w_count (whistory l))%N) ||
            match nth_error (owners l) (fst io) with
            | Some k => match nth_error (w_models (whistory l)) k with Some m => memn (fst io) (wm_outs m) | None => false end
            | None => true
            end
  | _ => true
  end.
Fixpoint nodupb (l : list string) : bool := match l with [] => true | x :: r => negb (smem x r) && nodupb r end.
Lemma nodupb_ok l : nodupb l = true -> NoDup l.
Proof.
  induction l as [|x r IH]; intros H; [constructor|]. cbn in H. apply andb_prop in H. destruct H as [H1 H2]. constructor; [|apply IH, H2].
  intros Hi. assert (Q : smem x r = true) by (apply smem_spec, Hi). rewrite Q in H1. discriminate.
Qed.
Definition finishedb (l : list wevent) : bool :=
  forallb (objb l) (combine (seq 0 (length (w_heap (whistory l)))) (w_heap (whistory l))) &&
  forallb (fun m => nodupb (map (name_in (w_heap (whistory l))) (wm_ins m ++ wm_outs m ++ wm_decls m) ++ sub_names m)) (w_models (whistory l)) &&
  (w_count (whistory l) <=? 62 * 63 ^ 4)%N.
Lemma in_numbered {A} (l : list A) : forall s i x, nth_error l i = Some x -> In (s + i, x) (combine (seq s (length l)) l).
Proof.
  induction l as [|y r IH]; intros s [|i] x E; try discriminate; cbn in *; [injection E as ->; left; f_equal; lia|]. right. replace (s + S i) with (S s + i) by lia. apply IH, E.
Qed.
Lemma finished_check l : finishedb l = true -> finished l.
Proof.
  intros H. unfold finishedb in H. apply andb_prop in H. destruct H as [H H3]. apply andb_prop in H. destruct H as [H1 H2]. rewrite forallb_forall in H1, H2. apply N.leb_le in H3.
  split; [| | |exact H3].
  - intros o ob E K. pose proof (H1 _ (in_numbered _ 0 _ _ E)) as Q. unfold objb in Q. cbn [snd] in Q. rewrite K in Q. exact Q.
  - intros o ob k E K C Ow. pose proof (H1 _ (in_numbered _ 0 _ _ E)) as Q. unfold objb in Q. cbn [fst snd plus] in Q. rewrite K, Ow in Q. apply orb_prop in Q. destruct Q as [Q|Q].
    + apply andb_prop in Q. destruct Q as [Q1 Q2]. apply String.eqb_eq in Q1. apply N.ltb_lt in Q2. exfalso. apply (C _ Q2). congruence.
    + destruct (nth_error (w_models (whistory l)) k) as [m|]; [|discriminate]. exists m. split; [reflexivity|apply memn_In, Q].
  - intros k m E. apply nodupb_ok. apply (H2 m). eapply nth_error_In, E.
Qed.
