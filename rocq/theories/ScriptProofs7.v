(** Which reads and assignments are accepted, and which reads return the same variable. *)
From Verif Require Import PyBase NamesModel PromotionsModel ExprModel UnflatModel UnflatSpec ExprProofs EffectSpec EffectProofs WorldModel WorldSpec
  IndexModel IndexSpec IndexSpec2 IndexProofs IndexProofs2 ArithModel ArithSpec ScriptModel ScriptSpec ScriptSpec2 ScriptProofs ScriptProofs2 ScriptProofs3 ScriptProofs4 ScriptProofs6 WorldProofs WorldProofs4.
From Coq Require Import Lia.
Set Implicit Arguments.
Local Open Scope list_scope.
Local Open Scope nat_scope.

Section S.
  Context (N : numbers).
  Notation pstate := (pstate N). Notation opdata := (opdata N). Notation scall := (scall N).
  Notation attrs := (list (shape * option opdata)).

  (** [points s x o v]: result number [o] of reading [x] is the variable [v]. *)
  Definition points (s : pstate) (x o v : nat) : Prop :=
    exists ox d od, nth_error (p_heap s) x = Some ox /\ ob_decomp ox = Some d /\ nth_error (p_heap s) d = Some od /\ nth_error (ob_outs od) o = Some v.
  Lemma points_fun (s : pstate) x o v v' : points s x o v -> points s x o v' -> v = v'.
  Proof. intros (ox & d & od & A & B & C & D) (ox' & d' & od' & A' & B' & C' & D'). rewrite A in A'. injection A' as <-. rewrite B in B'. injection B' as <-. rewrite C in C'. injection C' as <-. congruence. Qed.

  Lemma read_eq (s : pstate) k x key ox : nth_error (p_heap s) x = Some ox -> is_model s k = true -> is_variable ox = true -> exists s2 d,
    pstep s (CRead k x key) = (s2, match snd (getitem (p_shape s x) (p_dec s x) key) with
                                   | Ok o => match nth_error (p_heap s2) d with Some od => nth_error (ob_outs od) o | None => None end
                                   | Err _ => None end) /\
    p_dec s2 = set_fun (p_dec s) x (fst (getitem (p_shape s x) (p_dec s x) key)) /\
    exists ox', nth_error (p_heap s2) x = Some ox' /\ ob_decomp ox' = Some d.
  Proof.
    intros E M V. cbn [pstep]. unfold read. rewrite E, M, V. cbn [andb]. destruct (is_model_get _ _ M) as (m & Em).
    destruct (getitem (p_shape s x) (p_dec s x) key) as [d' r] eqn:G. cbn [fst snd].
    eexists; exists (match ob_decomp ox with Some d => d | None => length (p_heap s) end). split; [reflexivity|]. split; [reflexivity|].
    unfold p_heap at 1. cbn [p_world emit].
    match goal with |- context [EGetitem x ?F] => destruct (@read_heap (p_world s) k m x ox F Em E V) as (n & nm & HH); destruct F end; rewrite HH; clear HH; change (w_heap (p_world s)) with (p_heap s).
    all: destruct (ob_decomp ox) as [dz|] eqn:Dz; rewrite ?nth_upd', ?(nth_app1 _ _ _ E); try solve [eauto].
    - destruct (Nat.eqb_spec dz x) as [->|]; cbn [option_map]; eauto.
    - match goal with |- context [(upd ?A x ?F ++ _)] => assert (Q : nth_error (upd A x F) x = Some (set_decomp (length (p_heap s)) ox)) end.
      { rewrite nth_upd', (nth_app1 _ _ _ E), Nat.eqb_refl. reflexivity. }
      rewrite (nth_app1 _ _ _ Q). destruct (Nat.eqb_spec (length (p_heap s)) x) as [->|]; cbn [option_map]; eauto.
    - rewrite Nat.eqb_refl. cbn. eauto.
  Qed.

  Lemma is_var_get (s : pstate) x : is_var s x = true -> exists ox, nth_error (p_heap s) x = Some ox /\ is_variable ox = true.
  Proof. unfold is_var. destruct (nth_error (p_heap s) x) as [ox|]; [eauto|discriminate]. Qed.

  (** What a read returns. *)
  Lemma read_returns (s : pstate) k x key : pinv s -> is_model s k = true -> is_var s x = true ->
    let s' := fst (pstep s (CRead k x key)) in
    match snd (getitem (p_shape s x) (p_dec s x) key) with
    | Ok o => exists v, snd (pstep s (CRead k x key)) = Some v /\ points s' x o v
    | Err _ => snd (pstep s (CRead k x key)) = None
    end /\ p_dec s' x = fst (getitem (p_shape s x) (p_dec s x) key).
  Proof.
    intros P M V. cbv zeta. destruct (is_var_get _ _ V) as (ox & E & Vx). pose proof (@read_ok N s k x key P) as RO. destruct RO as (P' & _ & X & _).
    pose proof (v_dinv (i_hinv P) (nth_lt _ _ E)) as DI. change (shape_in (p_attr s) x) with (p_shape s x) in DI.
    destruct (@read_eq s k x key ox E M Vx) as (s2 & d & EQ & ED & ox' & E' & D'). rewrite EQ in *. cbn [fst snd] in *.
    assert (EX : p_dec s2 x = fst (getitem (p_shape s x) (p_dec s x) key)) by (rewrite ED; unfold set_fun; rewrite Nat.eqb_refl; reflexivity).
    split; [|exact EX]. destruct (snd (getitem (p_shape s x) (p_dec s x) key)) as [o|er] eqn:G; [|reflexivity].
    pose proof (v_dec (i_hinv P') x E') as DO. unfold dec_ok in DO. rewrite D' in DO. destruct DO as (od & Ed & K & DD & B & SH & DA). rewrite Ed.
    assert (Lo : o < length (d_outs (p_dec s2 x))).
    { rewrite EX. pose proof (@dinv_step _ _ key DI) as DI'. destruct (getitem_ok_key _ _ _ _ G) as (nk & _ & KG). destruct DI' as (_ & _ & _ & I4).
      destruct (I4 _ _ (kget_In _ _ _ KG)) as (ix & _ & En). eapply nth_lt, En. }
    assert (Ll : length (ob_outs od) = length (d_outs (p_dec s2 x))) by (rewrite <- (map_length (shape_in (p_attr s2))), SH, map_length; reflexivity).
    destruct (nth_error (ob_outs od) o) as [v|] eqn:Ev; [|apply nth_error_None in Ev; lia].
    exists v. split; [reflexivity|]. exists ox', d, od. auto.
  Qed.

  (** Results of reads stay where they are. *)
  Lemma points_step (s : pstate) c x o v : pinv s -> front c -> points s x o v -> points (fst (pstep s c)) x o v.
  Proof.
    intros P F (ox & d & od & A & B & C & D). destruct (@step_keeps N _ _ P F) as (P' & _ & X & _).
    destruct (@step_decomp N s c x ox d P A B) as (ox' & A' & B').
    pose proof (v_dec (i_hinv P) x A) as DO. unfold dec_ok in DO. rewrite B in DO. destruct DO as (od' & Ed & K & _ & _ & _ & DA). rewrite C in Ed. injection Ed as <-.
    destruct (e_op X _ C K DA) as (oo' & C' & _ & _ & m & l' & O & _). exists ox', d, oo'. split; [exact A'|]. split; [exact B'|]. split; [exact C'|]. rewrite O. apply nth_app1, D.
  Qed.
  Lemma points_steps l : forall (s : pstate) x o v, pinv s -> Forall (@front N) l -> points s x o v -> points (steps s l) x o v.
  Proof.
    induction l as [|c l IH]; intros s x o v P F H; [exact H|]. inversion F as [|? ? F1 F2]; subst. cbn [steps fold_left].
    apply IH; [apply (@step_keeps N _ _ P F1)|exact F2|apply points_step; assumption].
  Qed.
  (** The table of reads of a variable grows. *)
  Lemma dec_step (s : pstate) c x nk o : pinv s -> x < length (p_heap s) -> kget (d_pairs (p_dec s x)) nk = Some o -> kget (d_pairs (p_dec (fst (pstep s c)) x)) nk = Some o.
  Proof.
    intros P L H. destruct c as [e sh|k t|k args outs f|k z key|k y key z].
    - cbn [pstep]. destruct (plain_call e); exact H.
    - cbn [pstep]. unfold arith. assert (RO : forall args outs d, p_dec (fst (record_op s k args outs d)) = p_dec s) by (intros; unfold record_op; destruct (is_model s k && _); reflexivity).
      destruct t as [p|p|o0 p q|o0 p l|o0 l p|f p];
        try (match goal with |- context [recorded ?t] => destruct (recorded t) as [[args dd]|]; [|exact H]; destruct (one_shape s args); [rewrite RO|]; exact H end).
      destruct (is_var s p); exact H.
    - cbn [pstep]. unfold record_op. destruct (is_model s k && _); exact H.
    - destruct (nth_error (p_heap s) z) as [oz|] eqn:Ez; [|cbn [pstep]; unfold read; rewrite Ez; exact H].
      destruct (is_model s k && is_variable oz) eqn:G; [|cbn [pstep]; unfold read; rewrite Ez, G; exact H]. apply andb_prop in G. destruct G as [G1 G2].
      destruct (@read_eq s k z key oz Ez G1 G2) as (s2 & d & EQ & ED & _). rewrite EQ. cbn [fst]. rewrite ED. unfold set_fun. destruct (Nat.eqb_spec x z) as [->|]; [|exact H].
      apply getitem_grows, H.
    - cbn [pstep]. unfold assign. destruct (nth_error (p_heap s) y) as [oy|]; [|exact H]. destruct (nth_error (p_heap s) z) as [oz|]; [|exact H].
      destruct (is_model s k && _ && _); [|exact H]. destruct (setitem _ _ _ _ _) as [c' [u|er]]; [|exact H]. destruct (tgt_indices_of _ _) as [[ts ix]|er]; exact H.
  Qed.
  Lemma dec_steps l : forall (s : pstate) x nk o, pinv s -> Forall (@front N) l -> x < length (p_heap s) -> kget (d_pairs (p_dec s x)) nk = Some o -> kget (d_pairs (p_dec (steps s l) x)) nk = Some o.
  Proof.
    induction l as [|c l IH]; intros s x nk o P F L H; [exact H|]. inversion F as [|? ? F1 F2]; subst. cbn [steps fold_left].
    destruct (@step_keeps N _ _ P F1) as (P' & _ & X & _). apply IH; [exact P'|exact F2|pose proof (e_len X); lia|apply dec_step; assumption].
  Qed.

  Lemma read_conditions (s : pstate) k x key r : snd (pstep s (CRead k x key)) = Some r -> is_model s k = true /\ is_var s x = true.
  Proof.
    cbn [pstep]. unfold read, is_var. destruct (nth_error (p_heap s) x) as [ox|]; [|discriminate]. destruct (is_model s k); [|discriminate]. destruct (is_variable ox); [auto|discriminate].
  Qed.

  (** The same key (up to its form) gives the same variable. *)
  Theorem reads_shared (b mid : list scall) k1 k2 x key1 key2 r1 r2 :
    Forall (@front N) b -> Forall (@front N) mid ->
    returned b (CRead k1 x key1) = Some r1 -> returned (b ++ CRead k1 x key1 :: mid) (CRead k2 x key2) = Some r2 ->
    let sh := p_shape (prun b) x in
    (normalise sh key1 = normalise sh key2 -> r1 = r2) /\
    (follows_rules (p_log (prun (b ++ CRead k1 x key1 :: mid ++ [CRead k2 x key2]))) -> r1 = r2 -> normalise sh key1 = normalise sh key2).
  Proof.
    intros F1 F2 R1 R2 sh. unfold returned in R1, R2. pose proof (front_pinv F1) as P0. set (s0 := prun b) in *.
    destruct (read_conditions _ _ _ _ R1) as [M1 V1]. destruct (is_var_get _ _ V1) as (ox & Ex & _). pose proof (nth_lt _ _ Ex) as L0.
    destruct (@read_returns s0 k1 x key1 P0 M1 V1) as [Q1 D1]. set (s1 := fst (pstep s0 (CRead k1 x key1))) in *.
    destruct (@read_ok N s0 k1 x key1 P0) as (P1 & _ & X1 & _). fold s1 in P1, X1.
    assert (E2 : prun (b ++ CRead k1 x key1 :: mid) = steps s1 mid) by (rewrite prun_app; reflexivity). rewrite E2 in R2.
    destruct (steps_ok P1 F2) as (P2 & _ & X2). set (s2 := steps s1 mid) in *.
    destruct (read_conditions _ _ _ _ R2) as [M2 V2]. destruct (@read_returns s2 k2 x key2 P2 M2 V2) as [Q2 D2]. set (s3 := fst (pstep s2 (CRead k2 x key2))) in *.
    assert (SH : p_shape s2 x = sh).
    { change (shape_in (p_attr s2) x = shape_in (p_attr s0) x). pose proof (e_len X1). rewrite (e_shape X2) by lia. apply (e_shape X1 L0). }
    rewrite SH in *. fold sh in Q1, D1.
    destruct (snd (getitem sh (p_dec s0 x) key1)) as [o1|] eqn:G1; [|congruence]. destruct Q1 as (v1 & Q1 & T1). rewrite R1 in Q1. injection Q1 as <-.
    destruct (snd (getitem sh (p_dec s2 x) key2)) as [o2|] eqn:G2; [|congruence]. destruct Q2 as (v2 & Q2 & T2). rewrite R2 in Q2. injection Q2 as <-.
    destruct (getitem_ok_key _ _ _ _ G1) as (nk1 & N1 & K1). destruct (getitem_ok_key _ _ _ _ G2) as (nk2 & N2 & K2). rewrite <- D1 in K1.
    assert (L1 : x < length (p_heap s1)) by (pose proof (e_len X1); lia).
    assert (K1' : kget (d_pairs (fst (getitem sh (p_dec s2 x) key2))) nk1 = Some o1) by (apply getitem_grows; apply (@dec_steps mid s1 x nk1 o1 P1 F2 L1 K1)).
    assert (F3 : front (CRead (N := N) k2 x key2)) by exact I.
    assert (T1' : points s3 x o1 r1) by (apply points_step; [exact P2|exact F3|apply points_steps; assumption]).
    rewrite N1, N2. split.
    - intros E. injection E as <-. rewrite K1' in K2. injection K2 as <-. eapply points_fun; eassumption.
    - intros FR <-. assert (EQ : o1 = o2).
      { destruct T1' as (ox' & d & od & A & B & C & D). destruct T2 as (ox'' & d' & od' & A' & B' & C' & D'). rewrite A in A'. injection A' as <-. rewrite B in B'. injection B' as <-. rewrite C in C'. injection C' as <-.
        assert (P3 : pinv s3) by (apply (@step_keeps N _ _ P2 F3)).
        assert (E3 : prun (b ++ CRead k1 x key1 :: mid ++ [CRead k2 x key2]) = s3).
        { change (b ++ CRead k1 x key1 :: mid ++ [CRead k2 x key2]) with (b ++ (CRead k1 x key1 :: mid) ++ [CRead k2 x key2]). rewrite app_assoc, prun_snoc, E2. reflexivity. }
        rewrite E3 in FR. pose proof (inv_history FR) as IV.
        assert (Cd : nth_error (t_heap (wst (p_log s3))) d = Some od) by (cbn [wst t_heap]; rewrite <- (ScriptProofs3.i_log P3); exact C).
        assert (OW : exists k, owned (wst (p_log s3)) d k).
        { unfold owned. destruct (nth_error (t_own (wst (p_log s3))) d) eqn:OE; [eauto|]. apply nth_error_None in OE. rewrite (i_own IV) in OE. apply nth_lt in Cd. lia. }
        destruct OW as (kk & OW). pose proof (o_nodup (i_obj IV Cd OW)) as ND. rewrite NoDup_nth_error in ND. apply ND; [eapply nth_lt, D|congruence]. }
      subst o2. f_equal.
      assert (DI : dinv sh (fst (getitem sh (p_dec s2 x) key2))).
      { apply dinv_step. rewrite <- SH. apply (v_dinv (i_hinv P2)). pose proof (e_len X2). lia. }
      destruct DI as (_ & J2 & _ & _). apply kget_In in K1', K2.
      assert (HN : NoDup (map snd (d_pairs (fst (getitem sh (p_dec s2 x) key2))))) by (rewrite J2; apply seq_NoDup).
      clear -HN K1' K2. induction (d_pairs (fst (getitem sh (p_dec s2 x) key2))) as [|[a b0] l IH]; [destruct K2|]. simpl in HN. inversion HN; subst.
      destruct K1' as [E|K1'], K2 as [E'|K2]; try congruence; [| |auto].
      + injection E as -> ->. apply (in_map snd) in K2. contradiction.
      + injection E' as -> ->. apply (in_map snd) in K1'. contradiction.
  Qed.

  Theorem read_accepted (b : list scall) k x key : Forall (@front N) b -> is_model (prun b) k = true -> is_var (prun b) x = true ->
    Forall2 readable (p_shape (prun b) x) (components key) ->
    exists r, returned b (CRead k x key) = Some r /\ is_var (prun (b ++ [CRead k x key])) r = true.
  Proof.
    intros F M V R. pose proof (front_pinv F) as P. destruct (@read_returns _ k x key P M V) as [Q _]. unfold returned.
    destruct (@IndexProofs2.read_accepted (p_shape (prun b) x) (p_dec (prun b) x) key R) as (o & G). rewrite G in Q. destruct Q as (v & Q & T). exists v. split; [exact Q|].
    rewrite prun_snoc. destruct T as (ox & d & od & A & B & C & D). destruct (@read_ok N (prun b) k x key P) as (P' & _).
    pose proof (v_dec (i_hinv P') x A) as DO. unfold dec_ok in DO. rewrite B in DO. destruct DO as (od' & Ed & K & _). rewrite C in Ed. injection Ed as <-.
    assert (KO : is_op od = true) by (unfold is_op; rewrite K; reflexivity). destruct (ok_op (ScriptProofs3.i_sinv P' _ C) KO) as [_ W].
    destruct (W _ (nth_error_In _ _ D)) as (ob & Eo & _ & KK). unfold is_var. rewrite Eo. unfold is_variable, is_op. destruct KK as [->|[-> _]]; reflexivity.
  Qed.

  (** ** Assignments *)
  Lemma attempted_snoc (l : list scall) c y key n : attempted l y key n -> attempted (l ++ [c]) y key n.
  Proof. intros (b & k & x & a & E & H). exists b, k, x, (a ++ [c]). split; [rewrite E, <- app_assoc; reflexivity|exact H]. Qed.
  Lemma attempted_last (l : list scall) k y key x ox : nth_error (p_heap (prun l)) x = Some ox -> attempted (l ++ [CAssign k y key x]) y key (ob_name ox).
  Proof. intros E. exists l, k, x, []. split; [reflexivity|]. rewrite E. reflexivity. Qed.

  Lemma cat_other (s : pstate) c : (forall k y key x, c <> CAssign k y key x) -> p_cat (fst (pstep s c)) = p_cat s.
  Proof.
    intros H. assert (RO : forall k args outs d, p_cat (fst (record_op s k args outs d)) = p_cat s) by (intros; unfold record_op; destruct (is_model s k && _); reflexivity).
    destruct c as [e sh|k t|k args outs f|k z key|k y key z]; cbn [pstep].
    - destruct (plain_call e); reflexivity.
    - unfold arith. destruct t as [p|p|o0 p q|o0 p l|o0 l p|f p];
        try (match goal with |- context [recorded ?t] => destruct (recorded t) as [[args dd]|]; [|reflexivity]; destruct (one_shape s args); [apply RO|reflexivity] end).
      destruct (is_var s p); reflexivity.
    - apply RO.
    - unfold read. destruct (nth_error (p_heap s) z); [|reflexivity]. destruct (is_model s k && _); [|reflexivity]. destruct (getitem _ _ _). reflexivity.
    - exfalso. eapply H. reflexivity.
  Qed.
  Definition shapely (l : list scall) (y : nat) : Prop :=
    (forall n, In n (dkeys (c_tgt (p_cat (prun l) y))) -> exists key, attempted l y key n) /\
    (forall i, In i (c_checked (p_cat (prun l) y)) -> exists key n ts ix, attempted l y key n /\ tgt_indices_of (p_shape (prun l) y) key = Ok (ts, ix) /\
       Forall (fun j => (j < size_of (p_shape (prun l) y))%Z) ix /\ In i ix).
  Lemma shapely_keep (l : list scall) c y : Forall (@front N) l -> front c -> shapely l y -> p_cat (prun (l ++ [c])) y = p_cat (prun l) y -> shapely (l ++ [c]) y.
  Proof.
    intros F FC [A B] E. pose proof (front_pinv F) as P. destruct (@step_keeps N _ _ P FC) as (_ & _ & X & _). split; rewrite E.
    - intros n Hn. destruct (A n Hn) as (key & H). exists key. apply attempted_snoc, H.
    - intros i Hi. destruct (B i Hi) as (key & n & ts & ix & H1 & H2). exists key, n, ts, ix. split; [apply attempted_snoc, H1|].
      assert (SH : p_shape (prun (l ++ [c])) y = p_shape (prun l) y); [|rewrite SH; exact H2].
      rewrite prun_snoc. apply (e_shape X). destruct (Nat.lt_ge_cases y (length (p_heap (prun l)))) as [L|L]; [exact L|]. exfalso.
      destruct (v_fresh (i_hinv P) L) as [_ Q]. rewrite Q in Hi. exact Hi.
  Qed.
  Lemma shapely_all (l : list scall) : Forall (@front N) l -> forall y, shapely l y.
  Proof.
    induction l as [|c l IH] using rev_ind; intros F y; [split; intros ? []|]. apply Forall_app in F. destruct F as [F FC]. inversion FC as [|? ? FC' _]; subst. clear FC. specialize (IH F).
    assert (D : (exists k z key x, c = CAssign k z key x) \/ (forall k z key x, c <> CAssign k z key x)) by (destruct c; [right; discriminate..|left; eauto]).
    destruct D as [(k & z & key & x & ->)|D]; [|apply shapely_keep; [exact F|exact FC'|apply IH|rewrite prun_snoc, cat_other by exact D; reflexivity]].
    pose proof (front_pinv F) as P. pose proof (@shapely_keep l (CAssign k z key x) y F FC' (IH y)) as KEEP. pose proof (@attempted_last l k z key x) as LAST.
    destruct (@step_keeps N _ _ P FC') as (_ & _ & X & _). rewrite <- prun_snoc in X.
    assert (OTHER : p_cat (prun (l ++ [CAssign k z key x])) y = p_cat (prun l) y \/
      (y = z /\ exists ox, nth_error (p_heap (prun l)) x = Some ox /\ z < length (p_heap (prun l)) /\
         p_cat (prun (l ++ [CAssign k z key x])) z = fst (setitem (p_shape (prun l) z) (p_cat (prun l) z) key (ob_name ox) (p_shape (prun l) x)))).
    { rewrite prun_snoc. cbn [pstep]. unfold assign. destruct (nth_error (p_heap (prun l)) z) as [oz|] eqn:Ez; [|left; reflexivity]. destruct (nth_error (p_heap (prun l)) x) as [ox|]; [|left; reflexivity].
      destruct (is_model (prun l) k && _ && _); [|left; reflexivity]. destruct (Nat.eq_dec y z) as [->|Ny].
      - right. split; [reflexivity|]. exists ox. split; [reflexivity|]. split; [eapply nth_lt, Ez|]. destruct (setitem _ _ _ _ _) as [c' [u|er]]; [destruct (tgt_indices_of _ _) as [[ts ix]|er]|]; cbn; unfold set_fun; rewrite Nat.eqb_refl; reflexivity.
      - left. destruct (setitem _ _ _ _ _) as [c' [u|er]]; [destruct (tgt_indices_of _ _) as [[ts ix]|er]|]; cbn; unfold set_fun; destruct (Nat.eqb_spec y z); congruence. }
    destruct OTHER as [E|(-> & ox & Ex & Lz & E)]; [apply KEEP, E|].
    pose proof (e_shape X Lz) as SH. change (p_shape (prun (l ++ [CAssign k z key x])) z = p_shape (prun l) z) in SH.
    specialize (LAST ox Ex).
    assert (GROW : forall ix, tgt_indices_of (p_shape (prun l) z) key = Ok (p_shape (prun l) x, ix) -> Forall (fun j => (j < size_of (p_shape (prun l) z))%Z) ix ->
      forall c', c_tgt c' = dset (c_tgt (p_cat (prun l) z)) (ob_name ox) (p_shape (prun l) x, ix) -> c_checked c' = c_checked (p_cat (prun l) z) ++ ix ->
      p_cat (prun (l ++ [CAssign k z key x])) z = c' -> shapely (l ++ [CAssign k z key x]) z).
    { intros ix T BD c' C1 C2 C3. destruct (IH z) as [A B]. split; rewrite C3.
      - intros n Hn. rewrite C1 in Hn. apply In_dkeys_dset in Hn. destruct Hn as [->|Hn]; [eauto|]. destruct (A n Hn) as (key' & H). exists key'. apply attempted_snoc, H.
      - intros i. rewrite C2, in_app_iff, SH. intros [Hi|Hi].
        + destruct (B i Hi) as (key' & n & ts & ix' & H1 & H2). exists key', n, ts, ix'. split; [apply attempted_snoc, H1|exact H2].
        + exists key, (ob_name ox), (p_shape (prun l) x), ix. auto. }
    destruct (setitem_cases (p_shape (prun l) z) (p_cat (prun l) z) key (ob_name ox) (p_shape (prun l) x)) as [[er ES]|(ix & T & BD & NI & [(OV & ES)|(DJ & ES)])]; rewrite ES in E; cbn [fst] in E.
    - apply KEEP, E.
    - eapply GROW; [exact T|exact BD| | |exact E]; reflexivity.
    - eapply GROW; [exact T|exact BD| | |exact E]; reflexivity.
  Qed.

  Theorem assign_accepted (b : list scall) k y key x oy ox ls ix : Forall (@front N) b ->
    let s := prun b in let sh := p_shape s y in
    is_model s k = true -> nth_error (p_heap s) y = Some oy -> ob_kind oy = KConcat -> nth_error (p_heap s) x = Some ox -> is_variable ox = true ->
    Forall2 writable sh (components key) -> all_selects sh (components key) ls -> Forall2 (at_flat sh) ix (cartesian ls) -> p_shape s x = map (@length Z) ls ->
    (forall key' n, attempted b y key' n -> n <> ob_name ox /\ match key' with KeyTuple _ => True | _ => length sh = 1 end /\
       forall ix', positions sh key' ix' -> forall i, In i ix -> ~ In i ix') ->
    returned b (CAssign k y key x) = Some y.
  Proof.
    intros F s sh M Ey K Ex V HW HS HA SX AT. unfold returned. fold s. cbn [pstep]. unfold assign. rewrite Ey, Ex, M, K, V. cbn [andb]. fold sh.
    destruct (shapely_all F y) as [A B]. fold s in A, B. fold sh in B.
    destruct (@IndexProofs2.tgt_ok _ _ HW) as (ts & ix' & Et & Hb).
    assert (Hb' : Forall (fun i => (i < size_of sh)%Z) ix') by (eapply Forall_impl; [|exact Hb]; cbn; lia).
    assert (W : match key with KeyTuple _ => True | KeyInt z => (0 <= z)%Z /\ length sh = 1%nat | _ => length sh = 1%nat end).
    { destruct key as [z|sl|l'|]; cbn [components] in HW; auto; pose proof (@Forall2_len _ _ _ _ _ HW) as L; cbn in L; auto.
      split; [|exact L]. inversion HW as [|n e sh' es He H' E1 E2]; subst. cbn in He. lia. }
    destruct (write_positions _ _ _ _ Et Hb' W) as (ls' & S1 & S2 & ->).
    rewrite (@selects_fun _ _ _ _ S1 HS) in *. rewrite (@at_flat_list_fun _ _ _ _ S2 HA) in *. rewrite SX.
    destruct (@setitem_accepts sh (p_cat s y) key (ob_name ox) (map (@length Z) ls) ix Et Hb') as [AC _].
    - intros Hn. destruct (A _ Hn) as (key' & H). destruct (AT _ _ H) as [Q _]. apply Q. reflexivity.
    - intros i Hi Hc. destruct (B _ Hc) as (key' & n & ts' & jx & H & T & BD & Hj). destruct (AT _ _ H) as (_ & Q2 & Q3).
      assert (FK : match key' with KeyInt z => (0 <= z)%Z | _ => True end).
      { destruct H as (b0 & k0 & x0 & a0 & E & _). rewrite E in F. apply Forall_app in F. destruct F as [_ F]. inversion F as [|? ? F1 _]; subst. destruct key'; try exact I. exact F1. }
      assert (W' : match key' with KeyTuple _ => True | KeyInt z => (0 <= z)%Z /\ length sh = 1%nat | _ => length sh = 1%nat end) by (destruct key'; auto).
      destruct (write_positions _ _ _ _ T BD W') as (ls'' & S1' & S2' & _). exact (Q3 jx (ex_intro _ ls'' (conj S1' S2')) i Hi Hj).
    - destruct (setitem sh (p_cat s y) key (ob_name ox) (map (@length Z) ls)) as [c' r]. cbn [snd] in AC. subst r. rewrite Et. reflexivity.
  Qed.
End S.
