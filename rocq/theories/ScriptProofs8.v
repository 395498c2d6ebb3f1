(** Accepted assignments to one output do not overlap. *)
From Verif Require Import PyBase NamesModel PromotionsModel ExprModel ExprProofs WorldModel
  IndexModel IndexSpec IndexSpec2 IndexProofs IndexProofs2 ArithModel ArithSpec ScriptModel ScriptSpec ScriptSpec2 ScriptProofs ScriptProofs2 ScriptProofs3 ScriptProofs4 ScriptProofs6 ScriptProofs7.
From Coq Require Import Lia.
Set Implicit Arguments.
Local Open Scope list_scope.
Local Open Scope nat_scope.

Section S.
  Context (N : numbers).
  Notation pstate := (pstate N). Notation opdata := (opdata N). Notation scall := (scall N).

  Lemma assign_cases (s : pstate) k z key x :
    p_cat (fst (pstep s (CAssign k z key x))) = p_cat s /\ snd (pstep s (CAssign k z key x)) = None \/
    exists oz ox, is_model s k = true /\ nth_error (p_heap s) z = Some oz /\ ob_kind oz = KConcat /\ nth_error (p_heap s) x = Some ox /\ is_variable ox = true /\
      p_cat (fst (pstep s (CAssign k z key x))) = set_fun (p_cat s) z (fst (setitem (p_shape s z) (p_cat s z) key (ob_name ox) (p_shape s x))) /\
      snd (pstep s (CAssign k z key x)) = match snd (setitem (p_shape s z) (p_cat s z) key (ob_name ox) (p_shape s x)) with Ok _ => Some z | Err _ => None end.
  Proof.
    cbn [pstep]. unfold assign. destruct (nth_error (p_heap s) z) as [oz|] eqn:Ez; [|left; auto]. destruct (nth_error (p_heap s) x) as [ox|] eqn:Ex; [|left; auto].
    destruct (is_model s k && _ && is_variable ox) eqn:G; [|left; auto]. apply andb_prop in G. destruct G as [G V]. apply andb_prop in G. destruct G as [G1 G2].
    right. exists oz, ox. split; [exact G1|]. split; [reflexivity|]. split; [destruct (ob_kind oz); try discriminate; reflexivity|]. split; [reflexivity|]. split; [exact V|].
    destruct (setitem_cases (p_shape s z) (p_cat s z) key (ob_name ox) (p_shape s x)) as [[er ES]|(ix & T & BD & NI & [(OV & ES)|(DJ & ES)])]; rewrite ES; cbn [fst snd]; auto.
    rewrite T. cbn. auto.
  Qed.
  Lemma checked_step (s : pstate) c y i : In i (c_checked (p_cat s y)) -> In i (c_checked (p_cat (fst (pstep s c)) y)).
  Proof.
    intros H. assert (D : (exists k z key x, c = CAssign k z key x) \/ (forall k z key x, c <> CAssign k z key x)) by (destruct c; [right; discriminate..|left; eauto]).
    destruct D as [(k & z & key & x & ->)|D]; [|rewrite cat_other by exact D; exact H].
    destruct (assign_cases s k z key x) as [[-> _]|(oz & ox & _ & _ & _ & _ & _ & -> & _)]; [exact H|]. unfold set_fun. destruct (Nat.eqb_spec y z) as [->|]; [|exact H].
    destruct (setitem_cases (p_shape s z) (p_cat s z) key (ob_name ox) (p_shape s x)) as [[er ES]|(ix & T & BD & NI & [(OV & ES)|(DJ & ES)])]; rewrite ES; cbn; [exact H|apply in_app_iff; auto..].
  Qed.
  Lemma checked_steps l : forall (s : pstate) y i, In i (c_checked (p_cat s y)) -> In i (c_checked (p_cat (steps s l) y)).
  Proof. induction l as [|c l IH]; intros s y i H; [exact H|]. cbn [steps fold_left]. apply IH, checked_step, H. Qed.
  Lemma key_step (s : pstate) c y n : In n (dkeys (c_tgt (p_cat s y))) -> In n (dkeys (c_tgt (p_cat (fst (pstep s c)) y))).
  Proof.
    intros H. assert (D : (exists k z key x, c = CAssign k z key x) \/ (forall k z key x, c <> CAssign k z key x)) by (destruct c; [right; discriminate..|left; eauto]).
    destruct D as [(k & z & key & x & ->)|D]; [|rewrite cat_other by exact D; exact H].
    destruct (assign_cases s k z key x) as [[-> _]|(oz & ox & _ & _ & _ & _ & _ & -> & _)]; [exact H|]. unfold set_fun. destruct (Nat.eqb_spec y z) as [->|]; [|exact H].
    destruct (setitem_cases (p_shape s z) (p_cat s z) key (ob_name ox) (p_shape s x)) as [[er ES]|(ix & T & BD & NI & [(OV & ES)|(DJ & ES)])]; rewrite ES; cbn; [exact H|apply In_dkeys_dset; auto..].
  Qed.
  Lemma key_steps l : forall (s : pstate) y n, In n (dkeys (c_tgt (p_cat s y))) -> In n (dkeys (c_tgt (p_cat (steps s l) y))).
  Proof. induction l as [|c l IH]; intros s y n H; [exact H|]. cbn [steps fold_left]. apply IH, key_step, H. Qed.

  (** An accepted assignment *)
  Lemma assign_only (s : pstate) k y key x r : pinv s -> snd (pstep s (CAssign k y key x)) = Some r -> r = y /\
    is_model s k = true /\ (exists oy, nth_error (p_heap s) y = Some oy /\ ob_kind oy = KConcat) /\
    exists ox ix, nth_error (p_heap s) x = Some ox /\ is_variable ox = true /\ tgt_indices_of (p_shape s y) key = Ok (p_shape s x, ix) /\
      Forall (fun i => (i < size_of (p_shape s y))%Z) ix /\ ~ In (ob_name ox) (dkeys (c_tgt (p_cat s y))) /\ (forall i, In i ix -> ~ In i (c_checked (p_cat s y))) /\
      (forall i, In i ix -> In i (c_checked (p_cat (fst (pstep s (CAssign k y key x))) y))) /\
      In (ob_name ox) (dkeys (c_tgt (p_cat (fst (pstep s (CAssign k y key x))) y))).
  Proof.
    intros P R. destruct (assign_cases s k y key x) as [[_ Q]|(oy & ox & M & Ey & K & Ex & V & CA & Q)]; [congruence|]. rewrite R in Q.
    destruct (setitem_cases (p_shape s y) (p_cat s y) key (ob_name ox) (p_shape s x)) as [[er ES]|(ix & T & BD & NI & [(OV & ES)|(DJ & ES)])]; rewrite ES in *; try discriminate. injection Q as ->.
    split; [reflexivity|]. split; [exact M|]. split; [eauto|]. exists ox, ix. split; [exact Ex|]. split; [exact V|]. split; [exact T|]. split; [exact BD|]. split; [exact NI|].
    split; [intros i Hi Hc; eapply DJ; eassumption|]. rewrite CA. unfold set_fun. rewrite Nat.eqb_refl. cbn.
    split; [intros i Hi; apply in_app_iff; auto|apply In_dkeys_dset; auto].
  Qed.

  Definition one_dim (sh : shape) (key : key) : Prop := match key with KeyTuple _ => True | _ => length sh = 1 end.
  Lemma positions_tgt sh key ts ix jx : front (CAssign (N := N) 0 0 key 0) -> one_dim sh key -> tgt_indices_of sh key = Ok (ts, ix) -> Forall (fun i => (i < size_of sh)%Z) ix ->
    positions sh key jx -> jx = ix.
  Proof.
    intros F O T B (ls & S & A). assert (W : match key with KeyTuple _ => True | KeyInt z => (0 <= z)%Z /\ length sh = 1%nat | _ => length sh = 1%nat end) by (destruct key; auto).
    destruct (write_positions _ _ _ _ T B W) as (ls' & S1 & S2 & _). rewrite (@selects_fun _ _ _ _ S1 S) in *. symmetry. eapply at_flat_list_fun; eassumption.
  Qed.

  Theorem assignments_disjoint (b mid : list scall) k1 k2 y key1 key2 x1 x2 r1 r2 :
    let c1 := CAssign k1 y key1 x1 in let c2 := CAssign k2 y key2 x2 in
    Forall (@front N) (b ++ c1 :: mid ++ [c2]) -> returned b c1 = Some r1 -> returned (b ++ c1 :: mid) c2 = Some r2 ->
    let sh := p_shape (prun b) y in one_dim sh key1 -> one_dim sh key2 ->
    forall ix1 ix2, positions sh key1 ix1 -> positions sh key2 ix2 -> forall i, In i ix1 -> ~ In i ix2.
  Proof.
    intros c1 c2 F R1 R2 sh O1 O2 ix1 ix2 H1 H2 i I1 I2. apply Forall_app in F. destruct F as [F1 F]. inversion F as [|? ? FC1 F']; subst. clear F. apply Forall_app in F'. destruct F' as [F2 FC2]. inversion FC2 as [|? ? FC2' _]; subst.
    pose proof (front_pinv F1) as P0. unfold returned in R1, R2. set (s0 := prun b) in *.
    destruct (@assign_only s0 k1 y key1 x1 r1 P0 R1) as (_ & _ & (oy & Ey & _) & ox1 & jx1 & _ & _ & T1 & B1 & _ & _ & CH & _). fold c1 in CH. set (s1 := fst (pstep s0 c1)) in *.
    destruct (@step_keeps N s0 c1 P0 FC1) as (P1 & _ & X1 & _). fold s1 in P1, X1.
    assert (E2 : prun (b ++ c1 :: mid) = steps s1 mid) by (rewrite prun_app; reflexivity). rewrite E2 in R2.
    destruct (steps_ok P1 F2) as (P2 & _ & X2). set (s2 := steps s1 mid) in *.
    destruct (@assign_only s2 k2 y key2 x2 r2 P2 R2) as (_ & _ & _ & ox2 & jx2 & _ & _ & T2 & B2 & _ & NC & _).
    assert (SH : p_shape s2 y = sh).
    { change (shape_in (p_attr s2) y = shape_in (p_attr s0) y). pose proof (e_len X1). pose proof (nth_lt _ _ Ey). rewrite (e_shape X2) by lia. apply (e_shape X1). assumption. }
    rewrite SH in T2, B2. fold sh in T1, B1.
    rewrite (@positions_tgt sh key1 _ jx1 ix1 FC1 O1 T1 B1 H1) in I1. rewrite (@positions_tgt sh key2 _ jx2 ix2 FC2' O2 T2 B2 H2) in I2.
    apply (NC i I2). apply checked_steps, CH, I1.
  Qed.
End S.
