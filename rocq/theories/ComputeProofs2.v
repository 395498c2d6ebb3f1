(** The strings of the operations recorded by a program. *)
From Coq Require Import Field.
From Verif Require Import PyBase PromotionsModel ArithModel ArithSpec ComputeModel ComputeSpec ArithProofs ComputeProofs.

Section Proofs.
  Context (N : numbers).
  Add Ring nring : (rF N).
  Notation value := (value N).

  Definition plain_entry (e : entry N) : Prop :=
    match e with
    | Leaf _ => True
    | LinComb args cs k _ => exists ns c, factor_rows cs (length args) = Ok (map (@Num N) ns) /\ k = Num c /\ length ns = length args /\
        factor_list cs (length args) = map (@Num N) ns /\ Forall (not_fractional N) ns /\ starts_well N ns = true
    | PowComb args ps k _ => exists ns c, factor_rows ps (length args) = Ok (map (@Num N) ns) /\ k = Num c /\ length ns = length args /\
        factor_list ps (length args) = map (@Num N) ns /\ c <> f0
    | Elem _ _ _ _ | Expand _ _ _ => True
    | ExpA b _ _ => exists c, b = OLit (Num c) /\ flt N c f0 = false
    end.

  Lemma entry_at lv (st : store N) v e : nth_error st v = Some e -> value lv st v = entry_value N lv (values N lv (firstn v st)) e.
  Proof.
    intros H. pose proof (nth_error_split st v H) as (l1 & l2 & -> & L).
    replace (l1 ++ e :: l2) with ((l1 ++ [e]) ++ l2) by now rewrite <- app_assoc.
    rewrite value_ext by (rewrite app_length; cbn; lia). rewrite <- L, value_new.
    rewrite <- app_assoc, firstn_app, Nat.sub_diag, firstn_all. cbn. now rewrite app_nil_r.
  Qed.
  Lemma arg_at lv (st : store N) v a : a < v -> v < length st -> nth a (values N lv (firstn v st)) (fun _ => f0) = value lv st a.
  Proof.
    intros H Hv. change (value lv (firstn v st) a = value lv st a). rewrite <- (firstn_skipn v st) at 2.
    rewrite value_ext; [reflexivity|]. rewrite firstn_length. lia.
  Qed.

  Lemma entry_says lv (st : store N) v e i : ordered N st -> nth_error st v = Some e -> plain_entry e ->
    match entry_string e with
    | None => True
    | Some (Ok s) => assigned N (fun a => value lv st a i) s = Some (value lv st v i)
    | Some (Err _) => False
    end.
  Proof.
    intros O E P. assert (Lv : v < length st) by (apply nth_error_Some; congruence).
    rewrite (entry_at lv st v e E). specialize (O v e E). destruct e as [s|args cs k s|args ps k s|f a s|a s|b a s]; cbn [entry_string entry_value]; [exact I| | | |exact I|].
    - destruct P as (ns & c & Fr & -> & L & Fl & Nf & Sw).
      assert (E1 : lin_string args cs (Num c) = lin_string args (Each (map (@Num N) ns)) (Num c)) by (unfold lin_string; now rewrite Fr).
      rewrite E1. destruct (lin_string args (Each (map (@Num N) ns)) (Num c)) as [t|] eqn:T; [|discriminate].
      rewrite (lin_string_right N _ _ _ _ _ T Nf) by (right; rewrite <- L, firstn_all; exact Sw).
      rewrite lincomb_at, pairs_at, !map_map, Fl, !map_map. cbn [lit_at]. rewrite map_id. f_equal.
      rewrite (map_ext_in _ (fun a => value lv st a i)) by (intros a Ha; now rewrite arg_at by auto).
      clear -L. unfold linear. revert args c L. induction ns as [|n ns IH]; intros [|a args] c L; try discriminate; [reflexivity|].
      cbn. apply IH. now injection L.
    - destruct P as (ns & c & Fr & -> & L & Fl & Nz).
      assert (E1 : pow_string args ps (Num c) = pow_string args (Each (map (@Num N) ns)) (Num c)) by (unfold pow_string; now rewrite Fr).
      rewrite E1. destruct (pow_string args (Each (map (@Num N) ns)) (Num c)) as [t|] eqn:T; [|revert T; unfold pow_string; cbn; destruct (feqb N c f0); discriminate].
      rewrite (pow_string_right N _ _ _ _ _ T Nz).
      rewrite powcomb_at, pairs_at, !map_map, Fl, !map_map. cbn [lit_at]. rewrite map_id. f_equal.
      rewrite (map_ext_in _ (fun a => value lv st a i)) by (intros a Ha; now rewrite arg_at by auto).
      clear -L. unfold power. revert args c L. induction ns as [|n ns IH]; intros [|a args] c L; try discriminate; [reflexivity|].
      cbn. apply IH. now injection L.
    - rewrite arg_at by assumption. unfold assigned. destruct f; cbn; reflexivity.
    - destruct P as (c & -> & Hc). destruct O as [O _]. rewrite arg_at by assumption. unfold assigned, exp_string. cbn [fmt]. rewrite Hc. reflexivity.
  Qed.

  (** ** Statements record plain entries *)
  Definition plain_store (st : store N) : Prop := forall e, In e st -> plain_entry e.
  Lemma ps_snoc (st : store N) e : plain_store st -> plain_entry e -> plain_store (st ++ [e]).
  Proof. intros H He x Hx. apply in_app_iff in Hx as [Hx|[<-|[]]]; auto. Qed.
  Lemma all_rows (c : N) n : factor_rows (All (Num c)) n = Ok (map (@Num N) (repeat c n)) /\ factor_list (All (Num c)) n = map (@Num N) (repeat c n).
  Proof. cbn. now rewrite map_repeat'. Qed.
  Lemma one_entry (a : nat) s : plain_entry (PowComb [a] (All (Num f1)) (Num f1) s).
  Proof.
    exists [f1], f1. repeat split. exact (one_ne_zero N).
  Qed.
  Lemma dedup_plain args : forall (st : store N) seen st2 l, dedup st seen args = (st2, l) -> plain_store st -> plain_store st2 /\ length l = length args.
  Proof.
    induction args as [|a r IH]; cbn [dedup]; intros st seen st2 l E P; [injection E as <- <-; auto|].
    destruct (existsb (Nat.eqb a) seen).
    - destruct (dedup _ _ r) as [st3 l3] eqn:D. injection E as <- <-. apply IH in D as [D L]; [|apply ps_snoc; [exact P|apply one_entry]]. cbn. auto.
    - destruct (dedup _ _ r) as [st3 l3] eqn:D. injection E as <- <-. apply IH in D as [D L]; [|exact P]. cbn. auto.
  Qed.
  Lemma linear_plain (st : store N) args cs k st2 v : plain_store st ->
    (forall l s, length l = length args -> plain_entry (LinComb l cs k s)) ->
    linear_combination st args cs k = Ok (st2, v) -> plain_store st2.
  Proof.
    intros P H E. unfold linear_combination in E. destruct (dedup st [] args) as [st1 l] eqn:D.
    apply dedup_plain in D as [D L]; [|exact P]. destruct (check_args st1 l) as [s|]; [|discriminate]. cbn in E. injection E as <- _.
    apply ps_snoc; auto.
  Qed.
  Lemma power_plain (st : store N) args cs k st2 v : plain_store st ->
    (forall l s, length l = length args -> plain_entry (PowComb l cs k s)) ->
    power_combination st args cs k = Ok (st2, v) -> plain_store st2.
  Proof.
    intros P H E. unfold power_combination in E. destruct (dedup st [] args) as [st1 l] eqn:D.
    apply dedup_plain in D as [D L]; [|exact P]. destruct (check_args st1 l) as [s|]; [|discriminate]. cbn in E. injection E as <- _.
    apply ps_snoc; auto.
  Qed.
  Lemma nf_one : not_fractional N f1. Proof. right. now left. Qed.
  Lemma nf_m1 : not_fractional N (fopp N f1). Proof. right. right. now left. Qed.
  Lemma plain_lin (ns : list N) cs (c : N) l s : factor_rows cs (length l) = Ok (map (@Num N) ns) -> length ns = length l ->
    factor_list cs (length l) = map (@Num N) ns -> Forall (not_fractional N) ns -> starts_well N ns = true -> plain_entry (LinComb l cs (Num c) s).
  Proof. intros. exists ns, c. repeat (split; [assumption || reflexivity|]). assumption. Qed.
  Lemma plain_pow (ns : list N) cs (c : N) l s : factor_rows cs (length l) = Ok (map (@Num N) ns) -> length ns = length l ->
    factor_list cs (length l) = map (@Num N) ns -> c <> f0 -> plain_entry (PowComb l cs (Num c) s).
  Proof. intros. exists ns, c. repeat (split; [assumption || reflexivity|]). assumption. Qed.
  Lemma sw_one (r : list N) : starts_well N (f1 :: r) = true.
  Proof. cbn. now rewrite (zero_lt_one N). Qed.
  Lemma sw_m1 : starts_well N [fopp N f1] = true.
  Proof. cbn. rewrite (lt_asym N _ _ (m1_neg N)), (m1_neg N). reflexivity. Qed.
  Lemma inv_nonzero (c : N) : c <> f0 -> fdiv N f1 c <> f0.
  Proof.
    intros H E. apply (one_ne_zero N). rewrite fdiv_mul in E.
    transitivity (fmul N (finv N c) c); [symmetry; exact (Finv_l (num_field N) c H)|].
    replace (finv N c) with (fmul N f1 (finv N c)) by ring. rewrite E. ring.
  Qed.

  Ltac pl1 c0 := intros [|? [|]] ? ?; try discriminate; (apply plain_lin with (ns := [c0]) || apply plain_pow with (ns := [c0])); try reflexivity; try apply sw_one; try apply sw_m1; try (repeat apply Forall_cons; try apply Forall_nil; first [apply nf_one|apply nf_m1]); try apply one_ne_zero; auto.
  Ltac pl2 c0 c1 := intros [|? [|? [|]]] ? ?; try discriminate; (apply plain_lin with (ns := [c0; c1]) || apply plain_pow with (ns := [c0; c1])); try reflexivity; try apply sw_one; try apply sw_m1; try (repeat apply Forall_cons; try apply Forall_nil; first [apply nf_one|apply nf_m1]); try apply one_ne_zero; auto.

  Lemma exec_plain (st : store N) env s st2 v : plain_store st -> plain s -> exec st env s = Ok (st2, v) -> plain_store st2.
  Proof.
    intros P PS H. destruct s as [p|p|o p q|o p l|o l p|f p]; cbn [exec] in H.
    all: destruct (lookup env p) as [x|] eqn:Lx; [|discriminate]; cbn [bind] in H.
    - unfold neg in H. eapply linear_plain; [exact P| |exact H]. pl1 (fopp N f1).
    - injection H as <- _. exact P.
    - destruct (lookup env q) as [y|] eqn:Ly; [|discriminate]. cbn [bind] in H. destruct o; cbn in H; unfold add, sub, mul, truediv in H; try discriminate.
      + eapply linear_plain; [exact P| |exact H]. pl2 (@f1 N) (@f1 N).
      + eapply linear_plain; [exact P| |exact H]. pl2 (@f1 N) (fopp N f1).
      + eapply power_plain; [exact P| |exact H]. pl2 (@f1 N) (@f1 N).
      + eapply power_plain; [exact P| |exact H]. pl2 (@f1 N) (fopp N f1).
    - destruct PS as (c & -> & Hc). destruct o; cbn [apply_bin] in H; unfold add, sub, mul, truediv, pow in H.
      + eapply linear_plain; [exact P| |exact H]. pl1 (@f1 N).
      + eapply linear_plain; [exact P| |exact H]. pl1 (@f1 N).
      + eapply power_plain; [exact P| |exact H]. pl1 (@f1 N).
      + cbn [lit_inv] in H. destruct (feqb N c f0); [discriminate|]. cbn [bind] in H.
        eapply power_plain; [exact P| |exact H]. pl1 (@f1 N). apply inv_nonzero. auto.
      + eapply power_plain; [exact P| |exact H]. pl1 c.
    - destruct PS as (c & -> & Hc). destruct o; cbn [apply_rbin] in H; unfold radd, rsub, rmul, rtruediv, add, mul in H; try discriminate.
      + eapply linear_plain; [exact P| |exact H]. pl1 (@f1 N).
      + eapply linear_plain; [exact P| |exact H]. pl1 (fopp N f1).
      + eapply power_plain; [exact P| |exact H]. pl1 (@f1 N).
      + eapply power_plain; [exact P| |exact H]. pl1 (fopp N f1).
    - unfold elem in H. destruct (shape_of st x); [|discriminate]. injection H as <- _. apply ps_snoc; [exact P|exact I].
  Qed.
  Lemma run_plain prog : forall (st : store N) env st2 env2, plain_store st -> Forall plain prog -> run st env prog = Ok (st2, env2) -> plain_store st2.
  Proof.
    induction prog as [|s r IH]; intros st env st2 env2 P F H; cbn [run] in H; [injection H as <- _; exact P|].
    inversion F; subst. destruct (exec st env s) as [[st1 v]|] eqn:X; [|discriminate]. cbn [bind fst snd] in H.
    eapply IH; [|eassumption|exact H]. eapply exec_plain; eassumption.
  Qed.
End Proofs.
