(** Property theorems C28, C29, C30: arithmetic on variables. *)
From Coq Require Import QArith Qcanon.
From Verif Require Import PyBase PromotionsModel ArithModel ArithSpec ComputeModel ComputeSpec ArithProofs ComputeProofs ComputeProofs2 Rationals.
Local Open Scope list_scope.
Local Open Scope nat_scope.

Lemma leaf_values N lv ss : values N lv (map Leaf ss) = map lv (seq 0 (length ss)).
Proof.
  induction ss as [|s ss IH] using rev_ind; [reflexivity|].
  rewrite map_app. cbn [map]. rewrite values_snoc, IH, app_length, seq_app, map_app. cbn. now rewrite map_length, seq_length.
Qed.
Lemma leaf_value N lv ss v : v < length ss -> value N lv (map Leaf ss) v = lv v.
Proof.
  intros H. unfold value. rewrite leaf_values. rewrite nth_indep with (d' := lv 0) by now rewrite map_length, seq_length.
  rewrite map_nth, seq_nth; [reflexivity|exact H].
Qed.
Lemma leaf_good N ss : good N (map Leaf ss) (seq 0 (length ss)).
Proof. intros v Hv. apply in_seq in Hv. rewrite map_length. lia. Qed.
Lemma leaf_ordered N ss : ordered N (map Leaf ss).
Proof. intros v e H. apply nth_error_In in H. apply in_map_iff in H as (s & <- & _). exact I. Qed.

(** C28: after any program, the operations recorded for its results compute what the program
    computes on the values of the initial variables, element by element; for any field of
    numbers. *)
Theorem c28_recorded_operations_compute_the_program : forall (N : numbers) (shapes : list shape) prog st env,
  run (map Leaf shapes) (seq 0 (length shapes)) prog = Ok (st, env) ->
  length env = length shapes + length prog /\
  forall (input : nat -> arr N) p i,
    nth p (map (value N input st) env) (fun _ => f0) i = nth p (meaning N (map input (seq 0 (length shapes))) prog) (fun _ => f0) i.
Proof.
  intros N ss prog st env H. pose proof (run_sound N prog _ _ _ _ (leaf_good N ss) H) as (_ & _ & _ & _ & L & _ & V).
  rewrite seq_length in L. split; [exact L|]. intros input p i. rewrite (same_nth N _ _ p i (V input)).
  replace (map (value N input (map Leaf ss)) (seq 0 (length ss))) with (map input (seq 0 (length ss))); [reflexivity|].
  apply map_ext_in. intros v Hv. apply in_seq in Hv. symmetry. apply leaf_value. lia.
Qed.
Print Assumptions c28_recorded_operations_compute_the_program.

(** C28: every result has the shape of the first variable of its expression. *)
Theorem c28_shape_of_results : forall (N : numbers) (shapes : list shape) prog st env,
  run (map Leaf shapes) (seq 0 (length shapes)) prog = Ok (st, env) ->
  (forall v s, nth_error shapes v = Some s -> shape_of (N := N) st (nth v env 0) = Some s) /\
  forall k s, nth_error prog k = Some s -> shape_of st (nth (length shapes + k) env 0) = shape_of st (nth (first_operand N s) env 0).
Proof.
  intros N ss prog st env H. pose proof (run_sound N prog _ _ _ _ (leaf_good N ss) H) as ((more & ->) & (res & ->) & _ & _ & L & Sh & V).
  rewrite !seq_length in *. split; [|exact Sh]. intros v s Hv. assert (Lv : v < length ss) by (apply nth_error_Some; congruence).
  rewrite app_nth1 by now rewrite seq_length. rewrite seq_nth by exact Lv. cbn. rewrite shape_ext by now rewrite map_length.
  unfold shape_of. now rewrite (map_nth_error _ _ _ Hv).
Qed.
Print Assumptions c28_shape_of_results.

(** C28: which expressions raise. *)
Theorem c28_when_expressions_raise : forall (N : numbers) st env s x sx,
  good N st env -> nth_error env (first_operand N s) = Some x -> shape_of st x = Some sx ->
  match s with
  | SPos _ _ | SNeg _ _ | SFun _ _ _ => exists r, exec st env s = Ok r
  | SBin _ o p q => forall y sy, nth_error env q = Some y -> shape_of st y = Some sy ->
      if match o with OpPow => true | _ => false end then exec st env s = Err NotImplementedError
      else if shape_eqb sx sy then exists r, exec st env s = Ok r else exec st env s = Err ValueError
  | SBinL o p l => (o = OpDiv /\ l = Num f0 /\ exec st env s = Err ZeroDivisionError) \/ (~ (o = OpDiv /\ l = Num f0) /\ exists r, exec st env s = Ok r)
  | SLBin o l p => if match o with OpPow => true | _ => false end then exec st env s = Err TypeError else exists r, exec st env s = Ok r
  end.
Proof. exact exec_accept. Qed.
Print Assumptions c28_when_expressions_raise.

(** C28, the part that fails: the shape of an array operand is not compared with the shape
    of the variable. *)
Theorem c28_array_operand_shape_refuted : forall N : numbers,
  exists prog st env, run (map Leaf [[2]]) [0] prog = Ok (st, env) /\
    prog = [SBinL OpAdd 0 (Arr (N := N) [3] (fun _ => f1))] /\ shape_of st (nth 1 env 0) = Some [2].
Proof. intros N. do 3 eexists. split; [|split; [reflexivity|]]; reflexivity. Qed.
Print Assumptions c28_array_operand_shape_refuted.

(** (-(x*x) + 2) / (x - y), with x * x recorded on a copy of x *)
Definition prog1 : list (stmt rationals) :=
  [SBin rationals OpMul 0 0; SNeg rationals 2; SBinL OpAdd 3 (Num (q 2)); SBin rationals OpSub 0 1; SBin rationals OpDiv 4 5].
Example c28_nonvacuous : exists st env, run (map Leaf [[2]; [2]]) (seq 0 2) prog1 = Ok (st, env) /\ length st = 8 /\
  nth 6 (map (value rationals (fun v i => q (Z.of_nat (v + i))) st) env) (fun _ => f0) 1 = nth 6 (meaning rationals (map (fun v i => q (Z.of_nat (v + i))) (seq 0 2)) prog1) (fun _ => f0) 1 /\
  nth 6 (meaning rationals (map (fun v i => q (Z.of_nat (v + i))) (seq 0 2)) prog1) (fun _ => f0) 1 = q (-1).
Proof.
  do 2 eexists. split; [reflexivity|]. split; [reflexivity|]. split.
  - eapply (proj2 (c28_recorded_operations_compute_the_program rationals [[2]; [2]] prog1 _ _ eq_refl)).
  - apply Qc_is_canon. vm_compute. reflexivity.
Qed.

(** C29: what the string of a linear combination with number coefficients assigns, for every
    assignment of the arguments: coefficients strictly between -1 and 1 are read as -1, 0 or
    1; without a constant the string is malformed when all coefficients are zero or a
    negative coefficient precedes the first positive one. *)
Theorem c29_linear_string_says : forall (N : numbers) (assignment : nat -> N) args cs k s,
  lin_string args (Each (map Num cs)) (Num k) = Ok s ->
  assigned N assignment s =
    if feqb N k f0 && negb (starts_well N (firstn (length args) cs)) then None
    else Some (linear N assignment (combine (map (written N) cs) args) k).
Proof. exact lin_string_says. Qed.
Print Assumptions c29_linear_string_says.
(** C29, the part that holds. *)
Theorem c29_linear_string_partial : forall (N : numbers) (assignment : nat -> N) args cs k s,
  lin_string args (Each (map Num cs)) (Num k) = Ok s ->
  Forall (not_fractional N) cs -> k <> f0 \/ starts_well N (firstn (length args) cs) = true ->
  assigned N assignment s = Some (linear N assignment (combine cs args) k).
Proof. exact lin_string_right. Qed.
Print Assumptions c29_linear_string_partial.
Theorem c29_power_string_partial : forall (N : numbers) (assignment : nat -> N) args ps k s,
  pow_string args (Each (map Num ps)) (Num k) = Ok s -> k <> f0 ->
  assigned N assignment s = Some (power N assignment (combine args ps) k).
Proof. exact pow_string_right. Qed.
Print Assumptions c29_power_string_partial.
(** C29: the operations recorded by a program without array literals and without
    multiplication by zero all have strings that assign their value. *)
Theorem c29_operator_strings_partial : forall (N : numbers) (shapes : list shape) prog st env,
  run (map Leaf shapes) (seq 0 (length shapes)) prog = Ok (st, env) -> Forall plain prog ->
  forall (input : nat -> arr N) i v e, nth_error st v = Some e ->
  match entry_string e with
  | None => True
  | Some (Ok s) => assigned N (fun a => value N input st a i) s = Some (value N input st v i)
  | Some (Err _) => False
  end.
Proof.
  intros N ss prog st env H F input i v e E. pose proof (run_sound N prog _ _ _ _ (leaf_good N ss) H) as (_ & _ & _ & O & _).
  apply entry_says; [apply O, leaf_ordered|exact E|]. eapply run_plain; [|exact F|exact H|eapply nth_error_In; exact E].
  intros x Hx. apply in_map_iff in Hx as (s & <- & _). exact I.
Qed.
Print Assumptions c29_operator_strings_partial.

Definition half : rationals := Q2Qc (1 # 2).
(** C29, the parts that fail.  0.5*x is written 'x'. *)
Theorem c29_fraction_refuted : exists s, lin_string [0] (Each [Num half]) (Num (q 0)) = Ok s /\
  assigned rationals (fun _ => q 1) s = Some (q 1) /\ linear rationals (fun _ => q 1) [(half, 0)] (q 0) = half /\ half <> q 1.
Proof.
  eexists. split; [reflexivity|]. split; [vm_compute; f_equal; apply Qc_is_canon; reflexivity|]. split; [apply Qc_is_canon; reflexivity|].
  intros E. apply (f_equal this) in E. discriminate E.
Qed.
Print Assumptions c29_fraction_refuted.
(** -x+y is written '-xy'; a sum of zero terms is written ''. *)
Theorem c29_sign_refuted : exists s t, lin_string [0; 1] (Each [Num (q (-1)); Num (q 1)]) (Num (q 0)) = Ok s /\
  expression s = [TMinus; TVar 0; TVar 1] /\ lin_string [0] (Each [Num (q 0)]) (Num (q 0)) = Ok t /\ expression t = [] /\
  forall a, assigned rationals a s = None /\ assigned rationals a t = None.
Proof. do 2 eexists. repeat split; reflexivity. Qed.
Print Assumptions c29_sign_refuted.
(** x*0 is written '0', which assigns nothing; x**[2, 3] is written '1*x**2'. *)
Theorem c29_power_string_refuted : exists s t, pow_string [0] (All (Num (q 1))) (Num (q 0)) = Ok s /\ (forall a, assigned rationals a s = None) /\
  pow_string [0] (All (Arr [2] (fun i => q (2 + Z.of_nat i)))) (Num (q 1)) = Ok t /\
  expression t = [TNum (q 1); TTimes; TVar 0; TPow; TNum (q 2)].
Proof. do 2 eexists. repeat split; reflexivity. Qed.
Print Assumptions c29_power_string_refuted.

(** 3 + 2*x - 5*y - z *)
Example c29_nonvacuous : exists s, lin_string [0; 1; 2] (Each (map Num [q 2; q (-5); q (-1)])) (Num (q 3)) = Ok s /\
  length (expression s) = 11 /\ Forall (not_fractional rationals) [q 2; q (-5); q (-1)] /\ q 3 <> f0.
Proof.
  eexists. split; [reflexivity|]. split; [reflexivity|]. split.
  - repeat (apply Forall_cons || apply Forall_nil).
    + do 3 right. left. reflexivity.
    + do 4 right. reflexivity.
    + do 2 right. left. apply Qc_is_canon. reflexivity.
  - intros E. apply (f_equal this) in E. discriminate E.
Qed.
Example c29_nonvacuous_operators : exists st env, run (map Leaf [[2]; [2]]) (seq 0 2) prog1 = Ok (st, env) /\ Forall plain prog1.
Proof.
  do 2 eexists. split; [reflexivity|]. repeat (apply Forall_cons || apply Forall_nil); try exact I.
  exists (q 2). split; [reflexivity|]. intros [E|E]; discriminate.
Qed.

(** C30: the arguments of an operation are made pairwise distinct; values, shapes and order
    are kept, the first occurrence of every argument is the argument itself, and arguments
    without repetition are left alone. *)
Theorem c30_arguments_distinct : forall (N : numbers) (st : store N) args st2 l,
  (forall a, In a args -> a < length st) -> dedup st [] args = (st2, l) ->
  NoDup l /\ length l = length args /\ (exists more, st2 = st ++ more) /\
  (forall input k i, value N input st2 (nth k l 0) i = value N input st2 (nth k args 0) i) /\
  (forall k, shape_of st2 (nth k l 0) = shape_of st2 (nth k args 0)) /\
  (forall k a, nth_error args k = Some a -> ~ In a (firstn k args) -> nth_error l k = Some a) /\
  (NoDup args -> st2 = st /\ l = args).
Proof.
  intros N st args st2 l Ha D. apply dedup_spec in D; [|exact Ha|intros ? []]. destruct D as [E Dl Dv Dn _ Dvals Dsh Df Dk _].
  do 5 (split; [assumption|]). split.
  - intros k a Hk Hf. apply Df; [exact Hk|intros []|exact Hf].
  - intros ND. apply Dk; [exact ND|intros ? ? []].
Qed.
Print Assumptions c30_arguments_distinct.
(** C30: this holds of every operation recorded by a program. *)
Theorem c30_recorded_arguments_distinct : forall (N : numbers) (shapes : list shape) prog st env,
  run (map Leaf shapes) (seq 0 (length shapes)) prog = Ok (st, env) ->
  forall v e, nth_error (A := entry N) st v = Some e -> distinct_arguments N e.
Proof.
  intros N ss prog st env H v e E. apply nth_error_In in E. revert e E.
  assert (G : good N (map Leaf ss) (seq 0 (length ss))) by apply leaf_good. revert G.
  assert (D0 : forall e, In e (map (@Leaf N) ss) -> distinct_arguments N e) by (intros e He; apply in_map_iff in He as (s & <- & _); exact I).
  revert D0 H. generalize (map (@Leaf N) ss), (seq 0 (length ss)). induction prog as [|s r IH]; intros st0 env0 D0 H G; cbn [run] in H.
  - injection H as <- _. exact D0.
  - destruct (exec st0 env0 s) as [[st1 w]|] eqn:X; [|discriminate]. cbn [bind fst snd] in H.
    pose proof (exec_sound N _ _ _ _ _ G X) as ((m & E1) & Hw & _).
    eapply IH; [|exact H|].
    + exact (exec_distinct N _ _ _ _ _ G D0 X).
    + intros u Hu. apply in_app_iff in Hu as [Hu|[<-|[]]]; [|exact Hw]. rewrite E1, app_length. specialize (G u Hu). lia.
Qed.
Print Assumptions c30_recorded_arguments_distinct.
Example c30_nonvacuous : exists st2 l, dedup (map (@Leaf rationals) [[2]; [2]]) [] [0; 1; 0; 0] = (st2, l) /\ l = [0; 1; 2; 3] /\ length st2 = 4.
Proof. do 2 eexists. repeat split; reflexivity. Qed.
