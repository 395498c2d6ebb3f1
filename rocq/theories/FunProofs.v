(** Proofs about the elementwise functions. *)
From Coq Require Import Reals Lra Lia.
From Verif Require Import PyBase PromotionsModel ArithModel ArithSpec ArithProofs FunModel RealNumbers.

(** ** Acceptance of programs on variables of one shape *)
Section Uniform.
  Context (N : numbers).
  Definition fits (n : nat) (s : stmt N) : Prop :=
    match s with
    | SPos _ p | SNeg _ p | SFun _ _ p => p < n
    | SBin _ o p q => p < n /\ q < n /\ o <> OpPow
    | SBinL o p l => p < n /\ o <> OpDiv
    | SLBin o l p => p < n /\ o <> OpPow
    end.
  Fixpoint all_fit (n : nat) (prog : list (stmt N)) : Prop :=
    match prog with [] => True | s :: r => fits n s /\ all_fit (S n) r end.
  Lemma exec_fits (st : store N) env s sh : (forall v, In v env -> shape_of st v = Some sh) -> fits (length env) s ->
    exists st2 v, exec st env s = Ok (st2, v) /\ shape_of st2 v = Some sh /\ exists more, st2 = st ++ more.
  Proof.
    intros U F.
    assert (G : good N st env) by (intros v Hv; eapply shape_valid, U, Hv).
    assert (P : forall p, p < length env -> exists x, nth_error env p = Some x /\ shape_of st x = Some sh).
    { intros p Hp. destruct (nth_error env p) as [x|] eqn:E; [exists x; split; [reflexivity|apply U; eapply nth_error_In, E]|]. apply nth_error_None in E. lia. }
    assert (Hf : first_operand N s < length env) by (destruct s; cbn in *; tauto).
    destruct (P _ Hf) as (x & Hx & Sx). pose proof (exec_accept N _ _ _ _ _ G Hx Sx) as A.
    assert (exists r, exec st env s = Ok r) as [[st2 v] E].
    { destruct s as [p|p|o p q|o p l|o l p|f p]; cbn in F; try exact A.
      - destruct F as (Fp & Fq & Fo). destruct (P q Fq) as (y & Hy & Sy). specialize (A y sh Hy Sy).
        rewrite (proj2 (shape_eqb_spec sh sh) eq_refl) in A. destruct o; try exact A. congruence.
      - destruct F as [Fp Fo]. destruct A as [[K _]|[_ K]]; [congruence|exact K].
      - destruct F as [Fp Fo]. destruct o; try exact A. congruence. }
    exists st2, v. split; [exact E|]. pose proof (exec_sound N _ _ _ _ _ G E) as (M & _ & Sh & _). split; [|exact M].
    rewrite Sh, (nth_error_nth env _ 0 Hx). exact Sx.
  Qed.
  Lemma run_fits prog : forall (st : store N) env sh, (forall v, In v env -> shape_of st v = Some sh) -> all_fit (length env) prog ->
    exists st2 env2, run st env prog = Ok (st2, env2) /\ forall v, In v env2 -> shape_of st2 v = Some sh.
  Proof.
    induction prog as [|s r IH]; cbn; intros st env sh U F; [eauto|]. destruct F as [F Fr].
    destruct (exec_fits _ _ _ _ U F) as (st2 & v & E & Sv & more & ->). rewrite E. cbn [bind fst snd]. apply IH.
    - intros u Hu. apply in_app_iff in Hu as [Hu|[<-|[]]]; [|exact Sv]. specialize (U u Hu). rewrite shape_ext; [exact U|]. eapply shape_valid, U.
    - rewrite app_length. cbn. now rewrite Nat.add_1_r.
  Qed.
  Lemma body_fits d : all_fit 1 (body N d).
  Proof. destruct d; cbn; repeat split; try discriminate; lia. Qed.

  Lemma last_app_cons {A} (l : list A) a d : last (l ++ [a]) d = a.
  Proof. induction l as [|b l IH]; [reflexivity|]. cbn. destruct (l ++ [a]) eqn:E; [destruct l; discriminate|]. exact IH. Qed.
  Lemma last_nth {A} (l : list A) d e : l <> [] -> last l d = nth (length l - 1) l e.
  Proof.
    intros H. destruct (exists_last H) as (l' & a & ->). rewrite last_app_cons, app_length. cbn. replace (length l' + 1 - 1) with (length l') by lia.
    rewrite app_nth2, Nat.sub_diag by lia. reflexivity.
  Qed.
  (** A call of a derived function. *)
  Lemma call_spec d (st : store N) x sh : shape_of st x = Some sh -> exists st2 v,
    call d st x = Ok (st2, match d with Arcsch => None | _ => Some v end) /\ shape_of st2 v = Some sh /\ (exists more, st2 = st ++ more) /\
    forall lv i, value N lv st2 v i = nth (length (body N d)) (meaning N [value N lv st x] (body N d)) (fun _ => f0) i.
  Proof.
    intros Sx. assert (U : forall v, In v [x] -> shape_of st v = Some sh) by (intros v [<-|[]]; exact Sx).
    destruct (run_fits _ _ _ _ U (body_fits d)) as (st2 & env2 & E & S2).
    assert (G : good N st [x]) by (intros v Hv; eapply shape_valid, U, Hv).
    pose proof (run_sound N _ _ _ _ _ G E) as (M & _ & _ & _ & L & _ & V).
    assert (Ne : env2 <> []) by (intros ->; discriminate).
    exists st2, (last env2 x). unfold call. rewrite E. cbn [bind fst snd]. split; [destruct d; reflexivity|]. split; [|split; [exact M|]].
    - apply S2. rewrite (last_nth env2 x x Ne). apply nth_In. destruct env2; [congruence|cbn; lia].
    - intros lv i. specialize (V lv). rewrite <- (same_nth N _ _ _ i V). rewrite (last_nth env2 x 0 Ne), L. cbn [length].
      replace (1 + length (body N d) - 1) with (length (body N d)) by lia.
      symmetry. erewrite nth_indep; [rewrite map_nth; reflexivity|]. rewrite map_length, L. cbn. lia.
  Qed.
End Uniform.

(** ** Hyperbolic functions *)
Local Open Scope R_scope.
Lemma exp_neg_ln y : 0 < y -> exp (- ln y) = / y.
Proof. intros H. rewrite exp_Ropp, exp_ln; auto. Qed.
Lemma cosh_ln y : 0 < y -> cosh (ln y) = (y + / y) / 2.
Proof. intros H. unfold cosh. now rewrite exp_ln, exp_neg_ln. Qed.
Lemma sinh_ln y : 0 < y -> sinh (ln y) = (y - / y) / 2.
Proof. intros H. unfold sinh. now rewrite exp_ln, exp_neg_ln. Qed.
Lemma sq_sqrt y : 0 <= y -> sqrt y * sqrt y = y.
Proof. exact (sqrt_sqrt y). Qed.
Lemma arsinh_pos x : 0 < x + sqrt (x * x + 1).
Proof.
  assert (H : 0 <= x * x + 1) by nra. pose proof (sq_sqrt _ H) as E. pose proof (sqrt_pos (x * x + 1)) as P.
  assert (0 < sqrt (x * x + 1)) by (apply sqrt_lt_R0; nra). destruct (Rle_lt_dec 0 x) as [K|K]; nra.
Qed.
Lemma sinh_arsinh x : sinh (ln (x + sqrt (x * x + 1))) = x.
Proof.
  pose proof (arsinh_pos x) as P. rewrite sinh_ln by exact P. assert (H : 0 <= x * x + 1) by nra. pose proof (sq_sqrt _ H) as E.
  set (s := sqrt (x * x + 1)) in *. assert (Z : / (x + s) = s - x). { apply Rmult_eq_reg_l with (x + s); [|lra]. rewrite Rinv_r by lra. nra. } rewrite Z. lra.
Qed.
Lemma arcosh_ge x : 1 <= x -> 1 <= x + sqrt (x * x - 1).
Proof. intros H. pose proof (sqrt_pos (x * x - 1)). lra. Qed.
Lemma cosh_arcosh x : 1 <= x -> cosh (ln (x + sqrt (x * x - 1))) = x.
Proof.
  intros Hx. pose proof (arcosh_ge x Hx) as P. rewrite cosh_ln by lra. assert (H : 0 <= x * x - 1) by nra. pose proof (sq_sqrt _ H) as E.
  set (s := sqrt (x * x - 1)) in *. assert (Z : / (x + s) = x - s). { apply Rmult_eq_reg_l with (x + s); [|lra]. rewrite Rinv_r by lra. nra. } rewrite Z. lra.
Qed.
Lemma ln_ge_0 y : 1 <= y -> 0 <= ln y.
Proof. intros [H|<-]; [|rewrite ln_1; lra]. rewrite <- ln_1. left. apply ln_increasing; lra. Qed.
(** tanh (1/2 ln y) *)
Lemma tanh_half_ln y : 0 < y -> tanh (1 / (1 + 1) * ln y) = (y - 1) / (y + 1).
Proof.
  intros H. set (h := 1 / (1 + 1) * ln y). assert (E : exp h * exp h = y). { rewrite <- exp_plus. unfold h. replace (1 / (1 + 1) * ln y + 1 / (1 + 1) * ln y) with (ln y) by lra. now apply exp_ln. }
  pose proof (exp_pos h) as P. unfold tanh, sinh, cosh. rewrite exp_Ropp, <- E. field. split; [nra|]. lra.
Qed.
Lemma tanh_artanh x : -1 < x < 1 -> tanh (1 / (1 + 1) * ln ((1 + x) / (1 - x))) = x.
Proof.
  intros H. assert (P : 0 < (1 + x) / (1 - x)). { apply Rdiv_lt_0_compat; lra. } rewrite tanh_half_ln by exact P. field. split; lra.
Qed.
Lemma quotient_pos x : x < -1 \/ 1 < x -> 0 < (x + 1) / (x - 1).
Proof.
  intros [H|H].
  - replace ((x + 1) / (x - 1)) with ((- x - 1) / (1 - x)) by (field; lra). apply Rdiv_lt_0_compat; lra.
  - apply Rdiv_lt_0_compat; lra.
Qed.
Lemma coth_arcoth x : x < -1 \/ 1 < x -> 1 / tanh (1 / (1 + 1) * ln ((x + 1) / (x - 1))) = x.
Proof.
  intros H. assert (N1 : x - 1 <> 0) by (destruct H; lra). assert (N2 : x <> 0) by (destruct H; lra).
  rewrite tanh_half_ln by now apply quotient_pos. field. repeat split; lra.
Qed.
(** What arsech computes: 1 + s / x instead of (1 + s) / x, with s = sqrt (1 - x^2). *)
Lemma sech_arsech x : 0 < x < 1 -> 1 / cosh (ln (1 + sqrt (1 - x * x) / x)) <> x.
Proof.
  intros H. assert (P : 0 <= 1 - x * x) by nra. pose proof (sq_sqrt _ P) as E. pose proof (sqrt_pos (1 - x * x)) as Sp. set (s := sqrt (1 - x * x)) in *.
  assert (Sx : 0 < s) by nra.
  assert (Y : 0 < 1 + s / x). { assert (0 < s / x) by (apply Rdiv_lt_0_compat; lra). lra. }
  rewrite cosh_ln by exact Y. set (y := 1 + s / x) in *. intros K.
  assert (Yx : x * y = x + s) by (unfold y; field; lra).
  assert (K2 : 2 * y = x * (y * y + 1)). { pose proof (Rinv_0_lt_compat _ Y) as I. rewrite <- K. field. repeat split; nra. }
  (* multiply by x: 2 (x + s) = (x + s)^2 + x^2 *)
  assert (K3 : 2 * (x + s) = (x + s) * (x + s) + x * x). { rewrite <- Yx. nra. }
  assert (s = 1 - x \/ s < 1 - x \/ 1 - x < s) as [Z|[Z|Z]] by lra; nra.
Qed.
Lemma sech_true x : 0 < x < 1 -> 1 / cosh (ln ((1 + sqrt (1 - x * x)) / x)) = x.
Proof.
  intros H. assert (P : 0 <= 1 - x * x) by nra. pose proof (sq_sqrt _ P) as E. pose proof (sqrt_pos (1 - x * x)) as Sp. set (s := sqrt (1 - x * x)) in *.
  rewrite cosh_ln by (apply Rdiv_lt_0_compat; lra). assert (D : (1 + s) * (1 + s) + x * x = 2 * (1 + s)) by nra.
  replace (((1 + s) / x + / ((1 + s) / x)) / 2) with (((1 + s) * (1 + s) + x * x) / (2 * x * (1 + s))) by (field; lra). rewrite D. field. lra.
Qed.
