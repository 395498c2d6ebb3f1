(** C92: which lines of a script are accepted, and which variable they return. *)
From Verif Require Import PyBase NamesModel PromotionsModel ExprModel WorldModel WorldSpec IndexModel IndexSpec IndexSpec2 ArithModel ArithSpec Rationals
  ScriptModel ScriptSpec ScriptSpec2 ScriptProofs3 ScriptProofs4 ScriptProofs6 ScriptProofs7 ScriptProofs8 Prop_Script.
Local Open Scope list_scope.
Local Open Scope nat_scope.

(** C92: an operator or function applied to variables is accepted exactly when the model
    exists, the operands are variables of one shape, exponents are numbers, and there is no
    division by the number 0; it returns a variable that did not exist before. *)
Theorem c92_arithmetic : forall (N : numbers) (before : list (scall N)) k t, counts_from_front N before -> (forall x, t <> SPos _ x) ->
  let s := prun before in
  (returned before (CArith k t) <> None <->
   is_model s k = true /\ (forall x, In x (operands t) -> is_var s x = true /\ p_shape s x = p_shape s (first_operand N t)) /\ supported t) /\
  forall r, returned before (CArith k t) = Some r -> length (p_heap s) <= r /\ is_var (prun (before ++ [CArith k t])) r = true.
Proof.
  intros N before k t CF NP s. split; [apply arith_accepted, NP|]. intros r R. rewrite prun_snoc. apply arith_fresh; [apply front_pinv, front_all, CF|exact NP|exact R].
Qed.
Print Assumptions c92_arithmetic.
(** +x is x. *)
Theorem c92_plus : forall (N : numbers) (before : list (scall N)) k x, is_var (prun before) x = true ->
  returned before (CArith k (SPos _ x)) = Some x /\ prun (before ++ [CArith k (SPos _ x)]) = prun before.
Proof. intros N before k x V. rewrite prun_snoc. unfold returned. cbn [pstep arith]. rewrite V. auto. Qed.
Print Assumptions c92_plus.

(** C92: other standard operations are accepted exactly when they are applied to variables,
    and return that many new variables. *)
Theorem c92_other : forall (N : numbers) (before : list (scall N)) k args outs f, counts_from_front N before ->
  let s := prun before in
  (returned before (COther k args outs f) <> None <-> is_model s k = true /\ forall a, In a args -> is_var s a = true) /\
  forall r, returned before (COther k args outs f) = Some r ->
    length (p_heap s) <= r /\ forall i, i < length outs -> is_var (prun (before ++ [COther k args outs f])) (r + i) = true.
Proof.
  intros N before k args outs f CF s. split; [apply record_op_accepted|]. intros r R. rewrite prun_snoc. unfold returned in R. cbn [pstep] in *.
  destruct (@record_op_fresh N s k args outs (DOther f) r) as (A & _ & C); [apply front_pinv, front_all, CF|exact I|exact R|]. split; [exact A|exact C].
Qed.
Print Assumptions c92_other.

(** C92: reading a variable with a key whose components are integers in range or ordinary
    slices, one per dimension, is accepted. *)
Theorem c92_read_accepted : forall (N : numbers) (before : list (scall N)) k x key, counts_from_front N before ->
  is_model (prun before) k = true -> is_var (prun before) x = true -> Forall2 readable (p_shape (prun before) x) (components key) ->
  exists r, returned before (CRead k x key) = Some r /\ is_var (prun (before ++ [CRead k x key])) r = true.
Proof. intros N before k x key CF. apply read_accepted, front_all, CF. Qed.
Print Assumptions c92_read_accepted.

(** C92: two reads of a variable return the same variable exactly when the keys are the same
    after resolving what counts from the end and what is left out (C06); whatever the script
    does in between. *)
Theorem c92_reads_shared : forall (N : numbers) (before mid : list (scall N)) k1 k2 x key1 key2 r1 r2,
  counts_from_front N (before ++ CRead k1 x key1 :: mid) ->
  follows_rules (p_log (prun (before ++ CRead k1 x key1 :: mid ++ [CRead k2 x key2]))) ->
  returned before (CRead k1 x key1) = Some r1 -> returned (before ++ CRead k1 x key1 :: mid) (CRead k2 x key2) = Some r2 ->
  (r1 = r2 <-> normalise (p_shape (prun before) x) key1 = normalise (p_shape (prun before) x) key2).
Proof.
  intros N before mid k1 k2 x key1 key2 r1 r2 CF FR R1 R2. apply front_all in CF. apply Forall_app in CF. destruct CF as [F1 F2]. inversion F2 as [|? ? _ F3]; subst.
  destruct (@reads_shared N before mid k1 k2 x key1 key2 r1 r2 F1 F3 R1 R2) as [A B]. split; [apply B, FR|exact A].
Qed.
Print Assumptions c92_reads_shared.

(** C92: an assignment to an output made by create_output is accepted when the key has one
    ordinary component per dimension, the assigned variable has the shape the key selects, and
    no earlier assignment to that output, accepted or not, was of a variable of that name or
    overlapped. *)
Theorem c92_assignment_accepted : forall (N : numbers) (before : list (scall N)) k y key x oy ox ls ix, counts_from_front N before ->
  let s := prun before in let sh := p_shape s y in
  is_model s k = true -> nth_error (p_heap s) y = Some oy -> ob_kind oy = KConcat -> nth_error (p_heap s) x = Some ox -> is_variable ox = true ->
  Forall2 writable sh (components key) -> all_selects sh (components key) ls -> Forall2 (at_flat sh) ix (cartesian ls) -> p_shape s x = map (@length Z) ls ->
  (forall key' n, attempted before y key' n -> n <> ob_name ox /\ match key' with KeyTuple _ => True | _ => length sh = 1 end /\
     forall ix', positions sh key' ix' -> forall i, In i ix -> ~ In i ix') ->
  returned before (CAssign k y key x) = Some y.
Proof. intros N before k y key x oy ox ls ix CF. cbv zeta. apply assign_accepted, front_all, CF. Qed.
Print Assumptions c92_assignment_accepted.

(** C92: two accepted assignments to one output never overlap; an accepted assignment is to an
    output made by create_output. *)
Theorem c92_assignments_disjoint : forall (N : numbers) (before mid : list (scall N)) k1 k2 y key1 key2 x1 x2 r1 r2,
  let c1 := CAssign k1 y key1 x1 in let c2 := CAssign k2 y key2 x2 in
  counts_from_front N (before ++ c1 :: mid ++ [c2]) -> returned before c1 = Some r1 -> returned (before ++ c1 :: mid) c2 = Some r2 ->
  let sh := p_shape (prun before) y in
  match key1 with KeyTuple _ => True | _ => length sh = 1 end -> match key2 with KeyTuple _ => True | _ => length sh = 1 end ->
  r1 = y /\ r2 = y /\ (exists oy, nth_error (p_heap (prun before)) y = Some oy /\ ob_kind oy = KConcat) /\
  forall ix1 ix2, positions sh key1 ix1 -> positions sh key2 ix2 -> forall i, In i ix1 -> ~ In i ix2.
Proof.
  intros N before mid k1 k2 y key1 key2 x1 x2 r1 r2 c1 c2 CF R1 R2 sh O1 O2. apply front_all in CF.
  assert (F1 : Forall (@front N) before) by (apply Forall_app in CF; apply CF).
  assert (F2 : Forall (@front N) (before ++ c1 :: mid)).
  { change (before ++ c1 :: mid ++ [c2]) with (before ++ (c1 :: mid) ++ [c2]) in CF. rewrite app_assoc in CF. apply Forall_app in CF. apply CF. }
  destruct (@assign_only N _ _ _ _ _ _ (front_pinv F1) R1) as (A1 & _ & A2 & _). destruct (@assign_only N _ _ _ _ _ _ (front_pinv F2) R2) as (B1 & _).
  split; [exact A1|]. split; [exact B1|]. split; [exact A2|]. eapply assignments_disjoint; eassumption.
Qed.
Print Assumptions c92_assignments_disjoint.

(** ** The script of C91 *)
Lemma sx_front7 n : counts_from_front rationals (firstn n sx).
Proof. intros k y z x H. eapply sx_front. rewrite <- (firstn_skipn n sx). apply in_app_iff. left. exact H. Qed.
Example c92_arithmetic_nonvacuous : returned (firstn 2 sx) (CArith 0 (SBin _ OpAdd 0 0)) = Some 4 /\
  returned (firstn 2 sx) (CArith 0 (SBin _ OpPow 0 0)) = None /\ returned (firstn 2 sx) (CArith 0 (SBinL OpDiv 0 (Num (q 0)))) = None.
Proof. vm_compute. auto. Qed.
Example c92_read_nonvacuous : Forall2 readable (p_shape (prun (firstn 4 sx)) 0) (components (KeyInt (-1))) /\ is_model (prun (firstn 4 sx)) 0 = true /\ is_var (prun (firstn 4 sx)) 0 = true.
Proof. split; [|split; reflexivity]. change (p_shape (prun (firstn 4 sx)) 0) with [3]. constructor; [cbn; lia|constructor]. Qed.
(** Reading (x + x)[1] again, as (x + x)[-2], gives the variable read before. *)
Example c92_shared_nonvacuous : returned (firstn 3 sx) (CRead 0 4 (KeyInt 1)) = Some 6 /\ returned sx (CRead 0 4 (KeyInt (-2))) = Some 6 /\
  returned sx (CRead 0 4 (KeyInt 2)) = Some 11.
Proof. vm_compute. auto. Qed.
(** y[1] = ..., after y[0] = ... *)
Example c92_assignment_nonvacuous :
  let before := firstn 7 sx in let s := prun before in
  returned before (CAssign 0 9 (KeyInt 1) 8) = Some 9 /\ returned before (CAssign 0 9 (KeyInt 0) 8) = None /\
  Forall2 writable (p_shape s 9) (components (KeyInt 1)) /\ all_selects (p_shape s 9) (components (KeyInt 1)) [[1%Z]] /\ Forall2 (at_flat (p_shape s 9)) [1%Z] (cartesian [[1%Z]]) /\
  (forall key n, attempted before 9 key n -> key = KeyInt 0 /\ n <> match nth_error (p_heap s) 8 with Some o => ob_name o | None => EmptyString end).
Proof.
  cbv zeta. split; [vm_compute; reflexivity|]. split; [vm_compute; reflexivity|]. change (p_shape (prun (firstn 7 sx)) 9) with [2].
  split; [constructor; [cbn; lia|constructor]|]. split; [split; [left; split; [lia|reflexivity]|exact I]|]. split; [constructor; [|constructor]; split; [lia|reflexivity]|].
  intros key n (b & k & x & a & E & H).
  do 6 (destruct b as [|? b]; [discriminate|]; injection E as <- E). destruct b as [|? b].
  - injection E as <- <- <- _. split; [reflexivity|]. vm_compute in H. injection H as <-. vm_compute. discriminate.
  - injection E as _ E. destruct b; discriminate.
Qed.
