(** Names under which assignments are recorded. *)
From Verif Require Import PyBase NamesModel PromotionsModel ExprModel ExprProofs WorldModel WorldProofs8
  IndexModel IndexSpec IndexSpec2 IndexProofs IndexProofs2 ArithModel ArithSpec ScriptModel ScriptSpec ScriptSpec2 ScriptProofs ScriptProofs2 ScriptProofs3 ScriptProofs4 ScriptProofs6 ScriptProofs7 ScriptProofs8.
From Coq Require Import Lia.
Set Implicit Arguments.
Local Open Scope list_scope.
Local Open Scope nat_scope.

Section S.
  Context (N : numbers).
  Notation pstate := (pstate N). Notation opdata := (opdata N). Notation scall := (scall N).

  Lemma wstep_name w e i ob : nth_error (w_heap w) i = Some ob ->
    exists ob', nth_error (w_heap (wstep w e)) i = Some ob' /\ (ob_name ob' = ob_name ob \/ exists j n, e = WOn j (ERegister n i)).
  Proof.
    intros E. assert (SAME : exists ob', nth_error (w_heap w) i = Some ob' /\ (ob_name ob' = ob_name ob \/ exists j n, e = WOn j (ERegister n i))) by eauto.
    destruct e as [|k ev|k on pr c|k a b|k n|k n|k n]; cbn [wstep].
    2:{ destruct (nth_error (w_models w) k) as [m|] eqn:M; [|destruct ev; exact SAME].
        destruct (@bstep_name (view w m) ev i ob E) as (ob' & A & _ & D).
        assert (R : exists ob', nth_error (w_heap (put w k (bstep (view w m) ev))) i = Some ob' /\ (ob_name ob' = ob_name ob \/ exists j n, WOn k ev = WOn j (ERegister n i))).
        { exists ob'. split; [exact A|]. destruct D as [D|(n & -> & _)]; [left; exact D|right; eauto]. }
        destruct ev; first [exact SAME|exact R]. }
    all: repeat match goal with |- context [match ?x with _ => _ end] => destruct x; try exact SAME end; exact SAME.
  Qed.
  Lemma pstep_world (s : pstate) c : p_world (fst (pstep s c)) = p_world s \/ exists e, p_world (fst (pstep s c)) = wstep (p_world s) e /\
    ((exists sh, c = CCall e sh) \/ exists k ev, e = WOn k ev /\ forall n v, ev <> ERegister n v).
  Proof.
    assert (RO : forall k args outs d, p_world (fst (record_op s k args outs d)) = p_world s \/ exists e, p_world (fst (record_op s k args outs d)) = wstep (p_world s) e /\
      ((exists sh, c = CCall e sh) \/ exists k ev, e = WOn k ev /\ forall n v, ev <> ERegister n v)).
    { intros k args outs d. unfold record_op. destruct (is_model s k && _); [|left; reflexivity]. right. eexists. split; [reflexivity|]. right. eexists; eexists. split; [reflexivity|discriminate]. }
    destruct c as [e sh|k t|k args outs f|k z key|k y key z]; cbn [pstep].
    - destruct (plain_call e); [|left; reflexivity]. right. exists e. split; [reflexivity|]. left. eauto.
    - unfold arith. destruct t as [p|p|o0 p q|o0 p l|o0 l p|f p];
        try (match goal with |- context [recorded ?t] => destruct (recorded t) as [[args dd]|]; [|left; reflexivity]; destruct (one_shape s args); [apply RO|left; reflexivity] end).
      destruct (is_var s p); left; reflexivity.
    - apply RO.
    - unfold read. destruct (nth_error (p_heap s) z); [|left; reflexivity]. destruct (is_model s k && _); [|left; reflexivity]. destruct (getitem _ _ _).
      right. eexists. split; [reflexivity|]. right. eexists; eexists. split; [reflexivity|discriminate].
    - unfold assign. destruct (nth_error (p_heap s) y) as [oy|]; [|left; reflexivity]. destruct (nth_error (p_heap s) z) as [oz|]; [|left; reflexivity].
      destruct (is_model s k && _ && _); [|left; reflexivity]. destruct (setitem _ _ _ _ _) as [c' [u|er]]; [|left; reflexivity]. destruct (tgt_indices_of _ _) as [[ts ix]|er]; [|left; reflexivity].
      right. eexists. split; [reflexivity|]. right. eexists; eexists. split; [reflexivity|discriminate].
  Qed.
  Definition renames (c : scall) (x : nat) : Prop := exists j n sh, c = CCall (WOn j (ERegister n x)) sh.
  Lemma pstep_name (s : pstate) c i ob : nth_error (p_heap s) i = Some ob -> ~ renames c i ->
    exists ob', nth_error (p_heap (fst (pstep s c))) i = Some ob' /\ ob_name ob' = ob_name ob.
  Proof.
    intros E NR. unfold p_heap at 1. destruct (pstep_world s c) as [->|(e & -> & H)]; [eauto|].
    destruct (@wstep_name (p_world s) e i ob E) as (ob' & A & [B|(j & n & ->)]); [eauto|]. exfalso. destruct H as [(sh & ->)|(k & ev & Q & H)].
    - apply NR. exists j, n, sh. reflexivity.
    - injection Q as <- <-. eapply H. reflexivity.
  Qed.
  Lemma steps_name l : forall (s : pstate) i ob, nth_error (p_heap s) i = Some ob -> (forall c, In c l -> ~ renames c i) ->
    exists ob', nth_error (p_heap (steps s l)) i = Some ob' /\ ob_name ob' = ob_name ob.
  Proof.
    induction l as [|c l IH]; intros s i ob E NR; [eauto|]. destruct (@pstep_name s c i ob E (NR c (or_introl eq_refl))) as (o1 & E1 & N1).
    destruct (IH (fst (pstep s c)) i o1 E1 (fun c' H => NR c' (or_intror H))) as (o2 & E2 & N2). exists o2. split; [exact E2|congruence].
  Qed.

  Lemma tgt_step (s : pstate) c y n t : dget (c_tgt (p_cat s y)) n = Some t -> dget (c_tgt (p_cat (fst (pstep s c)) y)) n = Some t.
  Proof.
    intros H. assert (D : (exists k z key x, c = CAssign k z key x) \/ (forall k z key x, c <> CAssign k z key x)) by (destruct c; [right; discriminate..|left; eauto]).
    destruct D as [(k & z & key & x & ->)|D]; [|rewrite cat_other by exact D; exact H].
    destruct (assign_cases s k z key x) as [[-> _]|(oz & ox & _ & _ & _ & _ & _ & -> & _)]; [exact H|]. unfold set_fun. destruct (Nat.eqb_spec y z) as [->|]; [|exact H].
    assert (G : forall v, ~ In (ob_name ox) (dkeys (c_tgt (p_cat s z))) -> dget (dset (c_tgt (p_cat s z)) (ob_name ox) v) n = Some t).
    { intros v NI. rewrite dget_dset_other; [exact H|]. intros Q. apply NI. apply dget_Some_key in H. congruence. }
    destruct (setitem_cases (p_shape s z) (p_cat s z) key (ob_name ox) (p_shape s x)) as [[er ES]|(ix & T & BD & NI & [(OV & ES)|(DJ & ES)])]; rewrite ES; cbn; [exact H|apply G, NI..].
  Qed.
  Lemma tgt_steps l : forall (s : pstate) y n t, dget (c_tgt (p_cat s y)) n = Some t -> dget (c_tgt (p_cat (steps s l) y)) n = Some t.
  Proof. induction l as [|c l IH]; intros s y n t H; [exact H|]. cbn [steps fold_left]. apply IH, tgt_step, H. Qed.

  Lemma assign_entry (s : pstate) k y key x r : snd (pstep s (CAssign k y key x)) = Some r ->
    exists ox ix, nth_error (p_heap s) x = Some ox /\ tgt_indices_of (p_shape s y) key = Ok (p_shape s x, ix) /\ Forall (fun i => (i < size_of (p_shape s y))%Z) ix /\
      dget (c_tgt (p_cat (fst (pstep s (CAssign k y key x))) y)) (ob_name ox) = Some (p_shape s x, ix).
  Proof.
    intros R. destruct (assign_cases s k y key x) as [[_ Q]|(oy & ox & M & Ey & K & Ex & V & CA & Q)]; [congruence|]. rewrite R in Q.
    destruct (setitem_cases (p_shape s y) (p_cat s y) key (ob_name ox) (p_shape s x)) as [[er ES]|(ix & T & BD & NI & [(OV & ES)|(DJ & ES)])]; rewrite ES in *; try discriminate.
    exists ox, ix. split; [exact Ex|]. split; [exact T|]. split; [exact BD|]. rewrite CA. unfold set_fun. rewrite Nat.eqb_refl. cbn. apply dget_dset_same.
  Qed.

  (** After the script, the indices are found under the name of the variable. *)
  Theorem entry_found (b after : list scall) k y key x r : let c := CAssign k y key x in
    Forall (@front N) (b ++ c :: after) -> returned b c = Some r -> (forall c', In c' after -> ~ renames c' x) ->
    let s := prun (b ++ c :: after) in
    exists ox ix, nth_error (p_heap s) x = Some ox /\ dget (c_tgt (p_cat s y)) (ob_name ox) = Some (p_shape s x, ix) /\
      (one_dim (p_shape s y) key -> positions (p_shape s y) key ix).
  Proof.
    intros c F R NR s. apply Forall_app in F. destruct F as [F1 F]. inversion F as [|? ? FC F2]; subst.
    pose proof (front_pinv F1) as P0. unfold returned in R. destruct (@assign_entry _ _ _ _ _ _ R) as (ox & ix & Ex & T & BD & G). set (s0 := prun b) in *.
    destruct (@step_keeps N s0 c P0 FC) as (P1 & _ & X1 & _). destruct (steps_ok P1 F2) as (_ & _ & X2). pose proof (hxt_trans X1 X2) as X.
    assert (E : s = steps (fst (pstep s0 c)) after) by (unfold s; rewrite prun_app; reflexivity). rewrite <- E in *. clear X1 X2.
    destruct (@pstep_name s0 c x ox Ex) as (o1 & E1 & N1); [intros (? & ? & ? & Q); discriminate|].
    destruct (@steps_name after _ x o1 E1 NR) as (o2 & E2 & N2). rewrite <- E in E2.
    assert (Lx : x < length (p_heap s0)) by (eapply nth_lt, Ex).
    assert (Ly : y < length (p_heap s0)).
    { destruct (assign_cases s0 k y key x) as [[_ Q]|(oy & _ & _ & Ey & _)]; [unfold c in *; congruence|eapply nth_lt, Ey]. }
    pose proof (e_shape X Lx) as SX. pose proof (e_shape X Ly) as SY. change (p_shape s x = p_shape s0 x) in SX. change (p_shape s y = p_shape s0 y) in SY.
    exists o2, ix. split; [exact E2|]. rewrite SX, SY. split; [rewrite E, N2, N1; apply tgt_steps, G|].
    intros O. assert (W : match key with KeyTuple _ => True | KeyInt z => (0 <= z)%Z /\ length (p_shape s0 y) = 1%nat | _ => length (p_shape s0 y) = 1%nat end) by (destruct key; auto).
    destruct (write_positions _ _ _ _ T BD W) as (ls' & S1 & S2 & _). exists ls'. auto.
  Qed.

  (** A variable is assigned to an output once, unless it is renamed in between. *)
  Theorem assigned_once (b mid : list scall) k1 k2 y key1 key2 x r1 r2 :
    let c1 := CAssign k1 y key1 x in let c2 := CAssign k2 y key2 x in
    Forall (@front N) (b ++ c1 :: mid) -> returned b c1 = Some r1 -> returned (b ++ c1 :: mid) c2 = Some r2 -> exists c, In c mid /\ renames c x.
  Proof.
    intros c1 c2 F R1 R2.
    assert (D : (exists c, In c mid /\ renames c x) \/ forall c, In c mid -> ~ renames c x).
    { clear. induction mid as [|c l IH]; [right; intros c []|]. destruct IH as [(c' & H & R)|H]; [left; exists c'; split; [right; exact H|exact R]|].
      assert (DC : renames c x \/ ~ renames c x).
      { unfold renames. destruct c as [e sh| | | |]; try (right; intros (? & ? & ? & Q); discriminate).
        destruct e as [|j ev| | | | |]; try (right; intros (? & ? & ? & Q); discriminate).
        destruct ev; try (right; intros (? & ? & ? & Q); discriminate). destruct (Nat.eq_dec v x) as [->|Nx]; [left; eauto|]. right. intros (? & ? & ? & Q). injection Q as _ _ Q _. contradiction. }
      destruct DC as [R|R]; [left; exists c; split; [left; reflexivity|exact R]|]. right. intros c' [<-|Hc]; auto. }
    destruct D as [D|D]; [exact D|]. exfalso.
    destruct (@entry_found b mid k1 y key1 x r1 F R1 D) as (ox & ix & Ex & G & _). unfold returned in R2.
    destruct (@assign_only N _ _ _ _ _ _ (front_pinv F) R2) as (_ & _ & _ & ox2 & jx & Ex2 & _ & _ & _ & NI & _).
    fold c1 in Ex, G. rewrite Ex in Ex2. injection Ex2 as <-. apply NI. eapply dget_Some_key, G.
  Qed.
End S.
