(** C81-C83: elementwise functions. *)
From Coq Require Import Reals Lra Lia.
From Verif Require Import PyBase PromotionsModel ArithModel ArithSpec ComputeModel ComputeSpec ArithProofs ComputeProofs ComputeProofs2 FunModel RealNumbers FunProofs.
Local Open Scope R_scope.

(** The functions on the real numbers that the names stand for. *)
Definition real_function (f : elementary) (x : R) : R :=
  match f with
  | Sin => sin x | Cos => cos x | Tan => sin x / cos x
  | Sinh => (exp x - exp (- x)) / 2 | Cosh => (exp x + exp (- x)) / 2
  | Tanh => (exp x - exp (- x)) / (exp x + exp (- x))
  | Arcsin => asin x | Arccos => acos x | Arctan => atan x
  | Exp => exp x | Log => ln x | Log10 => ln x / ln 10
  | Cotan => 1 / tan x | Cotanh => 1 / tanh x
  | Sec => 1 / cos x | Sech => 2 / (exp x + exp (- x)) | Cosec => 1 / sin x | Cosech => 2 / (exp x - exp (- x))
  end.
Lemma real_function_eq f x : function reals f x = real_function f x.
Proof.
  destruct f; try reflexivity; cbn.
  - unfold tanh, sinh, cosh. pose proof (exp_pos x). pose proof (exp_pos (- x)). field. lra.
  - unfold cosh. pose proof (exp_pos x). pose proof (exp_pos (- x)). field. lra.
  - unfold sinh. destruct (Req_dec (exp x - exp (- x)) 0) as [E|E]; [rewrite E; unfold Rdiv; rewrite Rmult_0_l, Rinv_0; ring|field; exact E].
Qed.

(** C81: csdl.f(x) is accepted for every variable of any model, only adds one variable of the same
    shape, whose value and whose generated string are the function of that name applied to each
    element of x; anything that is not a variable raises TypeError. *)
Theorem c81_elementwise_functions : forall (st : store reals) f x,
  (shape_of st x = None -> elem st f x = Err TypeError) /\
  forall s, shape_of st x = Some s -> exists e, elem st f x = Ok (st ++ [e], length st) /\
    shape_of (st ++ [e]) (length st) = Some s /\
    (forall y, (y < length st)%nat -> shape_of (st ++ [e]) y = shape_of st y /\ forall input i, value reals input (st ++ [e]) y i = value reals input st y i) /\
    (forall input i, value reals input (st ++ [e]) (length st) i = real_function f (value reals input st x i)) /\
    exists t, entry_string e = Some (Ok t) /\ forall assignment, assigned reals assignment t = Some (real_function f (assignment x)).
Proof.
  intros st f x. unfold elem. split; [intros ->; reflexivity|]. intros s ->. eexists. split; [reflexivity|]. split; [apply shape_new|].
  split; [intros y Hy; split; [now apply shape_ext|intros input i; now rewrite value_ext]|]. split.
  - intros input i. rewrite value_new. cbn. apply real_function_eq.
  - eexists. split; [reflexivity|]. intros a. rewrite <- real_function_eq. destruct f; reflexivity.
Qed.
Print Assumptions c81_elementwise_functions.
Example c81_example : exists st env,
  run (map Leaf [[2%nat]]) [0%nat] [SFun reals Sech 0%nat; SFun reals Exp 1%nat] = Ok (st, env) /\ env = [0; 1; 2]%nat /\
  forall input, value reals input st 2%nat 1%nat = exp (2 / (exp (input 0%nat 1%nat) + exp (- input 0%nat 1%nat))).
Proof. do 2 eexists. split; [reflexivity|]. split; [reflexivity|]. intros input. cbn. f_equal. exact (real_function_eq Sech _). Qed.

(** C82: on the domain of the function, the value of the variable returned is mapped to the value of
    the argument by the hyperbolic function (and is not negative for arcosh). *)
Definition inverts (d : derived) (x y : R) : Prop :=
  match d with
  | Arsinh => sinh y = x
  | Arcosh => 1 <= x -> cosh y = x /\ 0 <= y
  | Artanh => -1 < x < 1 -> tanh y = x
  | Arcoth => x < -1 \/ 1 < x -> 1 / tanh y = x
  | Arsech => 0 < x <= 1 -> 1 / cosh y = x /\ 0 <= y
  | Arcsch => x <> 0 -> 1 / sinh y = x
  end.
(** C82, the part that holds. *)
Theorem c82_inverse_functions_partial : forall (st : store reals) d x s,
  d <> Arsech -> d <> Arcsch -> shape_of st x = Some s ->
  exists st2 y, call d st x = Ok (st2, Some y) /\ shape_of st2 y = Some s /\ (exists more, st2 = st ++ more) /\
    forall input i, inverts d (value reals input st x i) (value reals input st2 y i).
Proof.
  intros st d x s N1 N2 Sx. destruct (call_spec reals d st x s Sx) as (st2 & y & C & S2 & M & V). exists st2, y.
  split; [destruct d; try exact C; congruence|]. split; [exact S2|]. split; [exact M|].
  intros input i. rewrite V. generalize (value reals input st x). intros a. destruct d; cbn; try congruence.
  - unfold bin_meaning. cbn. rewrite rpow_two, rpow_half by nra. apply sinh_arsinh.
  - intros H. unfold bin_meaning. cbn. rewrite rpow_two, rpow_half by nra. split; [now apply cosh_arcosh|]. apply ln_ge_0, arcosh_ge, H.
  - intros H. unfold bin_meaning. cbn. now apply tanh_artanh.
  - intros H. unfold bin_meaning. cbn. now apply coth_arcoth.
Qed.
Print Assumptions c82_inverse_functions_partial.
(** C82, the parts that fail: arsech is wrong for every number strictly between 0 and 1, and arcsch
    returns None for every argument. *)
Theorem c82_arsech_refuted : forall (st : store reals) x s, shape_of st x = Some s ->
  exists st2 y, call Arsech st x = Ok (st2, Some y) /\
    forall input i, 0 < value reals input st x i < 1 -> ~ inverts Arsech (value reals input st x i) (value reals input st2 y i).
Proof.
  intros st x s Sx. destruct (call_spec reals Arsech st x s Sx) as (st2 & y & C & S2 & M & V). exists st2, y. split; [exact C|].
  intros input i H K. cbn [inverts] in K. destruct K as [K _]; [lra|]. revert K. rewrite V. revert H. generalize (value reals input st x). intros a H.
  cbn. unfold bin_meaning. cbn. rewrite rpow_two, rpow_half by nra. now apply sech_arsech.
Qed.
Print Assumptions c82_arsech_refuted.
Theorem c82_arcsch_refuted : forall (N : numbers) (st : store N) x s, shape_of st x = Some s -> exists st2, call Arcsch st x = Ok (st2, None).
Proof. intros N st x s Sx. destruct (call_spec N Arcsch st x s Sx) as (st2 & y & C & _). exists st2. exact C. Qed.
Print Assumptions c82_arcsch_refuted.
Example c82_example : exists st y, call Arsinh (map (@Leaf reals) [[2%nat]; [3%nat]]) 1%nat = Ok (st, Some y) /\ length st = 7%nat /\ shape_of st y = Some [3%nat].
Proof. do 2 eexists. split; [reflexivity|]. split; reflexivity. Qed.

(** C83: the base of csdl.exp_a(a, x): a number, an array or variable of the shape of x, or one of
    shape (1,), which stands for its element in every position. *)
Definition base_shape {N} (st : store N) (a : operand N) : option shape :=
  match a with OLit (Num _) => None | OLit (Arr s _) => Some s | OVar _ v => shape_of st v end.
Definition base_at {N} input (st : store N) (a : operand N) (i : nat) : N :=
  let j := match base_shape st a with Some [1%nat] => 0%nat | _ => i end in
  match a with OLit (Num c) => c | OLit (Arr _ e) => e j | OVar _ v => value N input st v j end.
Theorem c83_exp_a : forall (N : numbers) (st : store N) a x s, shape_of st x = Some s ->
  (forall v, a = OVar N v -> shape_of st v <> None) ->
  (base_shape st a <> None /\ base_shape st a <> Some [1%nat] /\ base_shape st a <> Some s /\ exp_a st a x = Err ValueError) \/
  ((base_shape st a = None \/ base_shape st a = Some [1%nat] \/ base_shape st a = Some s) /\
   exists st2 y, exp_a st a x = Ok (st2, y) /\ shape_of st2 y = Some s /\ (exists more, st2 = st ++ more) /\
     forall input i, value N input st2 y i = fpow N (base_at input st a i) (value N input st x i)).
Proof.
  intros N st a x s Sx Ha. pose proof (shape_valid N _ _ _ Sx) as Lx. unfold exp_a. rewrite Sx. destruct a as [v|[c|sa e]].
  - destruct (shape_of st v) as [sa|] eqn:Sv; [|exfalso; now apply (Ha v)]. pose proof (shape_valid N _ _ _ Sv) as Lv. unfold base_at. cbn [base_shape]. rewrite Sv.
    destruct (shape_eqb sa [1%nat]) eqn:E1; [apply shape_eqb_spec in E1; subst sa|].
    + right. split; [auto|]. do 2 eexists. split; [reflexivity|].
      assert (LE : S (length st) = length (st ++ [Expand N v s])) by (rewrite app_length; cbn; lia).
      rewrite LE. split; [apply shape_new|]. split; [rewrite <- app_assoc; eexists; reflexivity|]. intros input i. rewrite value_new. cbn [entry_value].
      change (fpow N (value N input (st ++ [Expand N v s]) (length st) i) (value N input (st ++ [Expand N v s]) x i) = fpow N (value N input st v 0%nat) (value N input st x i)).
      rewrite value_new, value_ext by exact Lx. reflexivity.
    + destruct (shape_eqb sa s) eqn:E2.
      * apply shape_eqb_spec in E2. subst sa. right. split; [auto|]. destruct (dedup st [] [x; v]) as [st1 args] eqn:D.
        apply dedup_spec in D; [|intros u [<-|[<-|[]]]; assumption|intros ? []]. destruct D as [[more ->] Dl Dv Dn _ Dvals Dsh _ _ Do].
        do 2 eexists. split; [reflexivity|]. split; [apply shape_new|]. split; [rewrite <- app_assoc; eexists; reflexivity|].
        intros input i. rewrite value_new. cbn [entry_value].
        change (fpow N (value N input (st ++ more) (nth 1 args 0%nat) i) (value N input (st ++ more) x i) = fpow N (value N input st v match s with [1%nat] => 0%nat | _ => i end) (value N input st x i)).
        rewrite Dvals. cbn [nth]. rewrite !value_ext by assumption. assert (Hs : (match s with [1%nat] => 0%nat | _ => i end) = i); [|now rewrite Hs].
        destruct s as [|[|[|n]] [|n2 s2]]; try reflexivity. discriminate.
      * left. repeat split; [discriminate| |].
        { intros K. injection K as ->. rewrite (proj2 (shape_eqb_spec [1%nat] [1%nat]) eq_refl) in E1. discriminate. }
        { intros K. injection K as ->. rewrite (proj2 (shape_eqb_spec s s) eq_refl) in E2. discriminate. }
  - right. split; [auto|]. do 2 eexists. split; [reflexivity|]. split; [apply shape_new|]. split; [eexists; reflexivity|]. intros input i. rewrite value_new. reflexivity.
  - unfold base_at. cbn [base_shape]. destruct (shape_eqb sa [1%nat]) eqn:E1; [apply shape_eqb_spec in E1; subst sa|destruct (shape_eqb sa s) eqn:E2]; cbn [negb andb].
    + right. split; [auto|]. do 2 eexists. split; [reflexivity|]. split; [apply shape_new|]. split; [eexists; reflexivity|]. intros input i. rewrite value_new. reflexivity.
    + apply shape_eqb_spec in E2. subst sa. right. split; [auto|]. do 2 eexists. split; [reflexivity|]. split; [apply shape_new|]. split; [eexists; reflexivity|].
      intros input i. rewrite value_new. cbn. rewrite E1. assert (Hs : (match s with [1%nat] => 0%nat | _ => i end) = i); [|now rewrite Hs].
      destruct s as [|[|[|n]] [|n2 s2]]; try reflexivity. discriminate.
    + left. repeat split; [discriminate| |].
      { intros K. injection K as ->. rewrite (proj2 (shape_eqb_spec [1%nat] [1%nat]) eq_refl) in E1. discriminate. }
      { intros K. injection K as ->. rewrite (proj2 (shape_eqb_spec s s) eq_refl) in E2. discriminate. }
Qed.
Print Assumptions c83_exp_a.
Theorem c83_not_a_variable : forall (N : numbers) (st : store N) a x,
  shape_of st x = None \/ (exists v, a = OVar N v /\ shape_of st v = None) -> exp_a st a x = Err TypeError.
Proof.
  intros N st a x [H|(v & -> & H)]; unfold exp_a; [now rewrite H|]. destruct (shape_of st x); [|reflexivity]. now rewrite H.
Qed.
Print Assumptions c83_not_a_variable.
(** C83: the generated string, for a number that is not negative. *)
Theorem c83_string_partial : forall (N : numbers) (st : store N) c x s, shape_of st x = Some s -> flt N c f0 = false ->
  exists e t, exp_a st (OLit (Num c)) x = Ok (st ++ [e], length st) /\ entry_string e = Some (Ok t) /\
    forall assignment, assigned N assignment t = Some (fpow N c (assignment x)).
Proof.
  intros N st c x s Sx Hc. unfold exp_a. rewrite Sx. do 2 eexists. split; [reflexivity|]. split; [reflexivity|]. intros a. unfold assigned, exp_string.
  cbn [fmt]. rewrite Hc. reflexivity.
Qed.
Print Assumptions c83_string_partial.
(** C83, the part that fails: exp_a(-2, x) is written (-2**x), which is -4 for x = 2; with an array
    or a variable as base the string is no expression. *)
Theorem c83_string_refuted : forall (st : store reals) x s, shape_of st x = Some s ->
  (exists e t, exp_a st (OLit (Num (-2 : reals))) x = Ok (st ++ [e], length st) /\ entry_string e = Some (Ok t) /\
     forall assignment, assignment x = 2 -> assigned reals assignment t = Some (-4) /\ rpow (-2) (assignment x) = 4) /\
  (forall v, shape_of st v = Some s -> s <> [1%nat] -> exists st2 e t, exp_a st (OVar reals v) x = Ok (st2 ++ [e], length st2) /\ entry_string e = Some (Ok t) /\
     forall assignment, assigned reals assignment t = None).
Proof.
  intros st x s Sx. split.
  - unfold exp_a. rewrite Sx. do 2 eexists. split; [reflexivity|]. split; [reflexivity|]. intros a Ha. unfold assigned, exp_string. cbn [fmt].
    replace (flt reals (-2) f0) with true by (symmetry; apply rltb_spec; cbn; lra). cbn. rewrite Ha.
    replace 2 with (1 + 1) at 2 4 by lra. rewrite !rpow_two. split; [f_equal; lra|lra].
  - intros v Sv Hs. unfold exp_a. rewrite Sx, Sv. destruct (shape_eqb s [1%nat]) eqn:E; [apply shape_eqb_spec in E; contradiction|].
    rewrite (proj2 (shape_eqb_spec s s) eq_refl). destruct (dedup st [] [x; v]) as [st1 args]. do 3 eexists. split; [reflexivity|]. split; [reflexivity|]. reflexivity.
Qed.
Print Assumptions c83_string_refuted.
Example c83_example : exists st y, exp_a (map (@Leaf reals) [[2%nat]; [1%nat]]) (OVar reals 1%nat) 0%nat = Ok (st, y) /\ length st = 4%nat /\ shape_of st y = Some [2%nat].
Proof. do 2 eexists. split; [reflexivity|]. split; reflexivity. Qed.
