(** C91: the compiled program computes what the script says.  [says] (ScriptSpec) gives the
    meaning of a line for the values of the variables; reads and assignments in the vocabulary
    of IndexSpec, operators in that of ArithSpec. *)
From Coq Require Import QArith.Qcanon.
From Verif Require Import PyBase NamesModel PromotionsModel PromotionsSpec PromotionsProofs HierSpec ExprModel UnflatModel UnflatSpec ExprProofs FlattenSpec
  CompileModel CompileSpec AcceptSpec WorldModel WorldSpec IndexModel IndexSpec ArithModel ArithSpec Rationals
  ScriptModel ScriptSpec ScriptProofs ScriptProofs2 ScriptProofs3 ScriptProofs4 ScriptProofs5 Prop_Compile Prop_Unflat Prop_Accept Prop_World.
Local Open Scope list_scope.
Local Open Scope nat_scope.
Local Open Scope string_scope.

(** C91: whenever a model built by a script compiles, the values its program computes agree
    with every line of the script, in every instance of the model the line belongs to:
    operators and functions compute the arithmetic they stand for, element by element; a
    variable read from another has the elements the key selects; a variable that is assigned
    to has, at the positions the key selects, the elements assigned.  [other] is what custom
    and implicit operations compute, [left] the elements of outputs that are never assigned. *)
Theorem c91_program_agrees_with_script : forall (N : numbers) (l : list (scall N)) dflt f k um m c,
  let s := prun l in
  counts_from_front N l -> follows_rules (p_log s) -> finished (p_log s) ->
  tree f (p_world s) (p_shape s) k = Some (um, m) -> inputs_not_targets (p_heap s) um m ->
  compile (p_heap s) (p_shape s) dflt um m = Ok c ->
  forall other left init before cl after r v p,
    l = (before ++ cl :: after)%list -> returned before cl = Some r -> defines N cl r v -> occurs (p_heap s) um p v ->
    says N (p_shape s) (result (p_heap s) (p_shape s) dflt (backend N s other left) init c p) cl r v.
Proof.
  intros N l dflt f k um m c s CF FR FI T NT C other left init before cl after r v p E R D O.
  destruct (@script_keeps N l CF) as [P KP]. pose proof (i_log P) as LG. fold s in P, KP, LG.
  rewrite LG in T. pose proof (c89_well_formed _ _ _ _ _ _ FR FI T) as WF. rewrite <- LG in WF.
  eapply line_says; [exact P|exact WF| |eapply KP; eassumption|exact D|exact O].
  apply c87_program_solves_model; assumption.
Qed.
Print Assumptions c91_program_agrees_with_script.

(** C91: a script that follows the rules, and whose models satisfy the documented conditions,
    compiles, and then the above holds. *)
Theorem c91_end_to_end : forall (N : numbers) (l : list (scall N)) dflt f k um m,
  let s := prun l in
  counts_from_front N l -> follows_rules (p_log s) -> finished (p_log s) ->
  tree f (p_world s) (p_shape s) k = Some (um, m) -> acceptable (p_heap s) (p_shape s) um m ->
  exists c, compile (p_heap s) (p_shape s) dflt um m = Ok c /\
    forall other left init before cl after r v p,
      l = (before ++ cl :: after)%list -> returned before cl = Some r -> defines N cl r v -> occurs (p_heap s) um p v ->
      says N (p_shape s) (result (p_heap s) (p_shape s) dflt (backend N s other left) init c p) cl r v.
Proof.
  intros N l dflt f k um m s CF FR FI T A.
  destruct (@script_keeps N l CF) as [P KP]. pose proof (i_log P) as LG. fold s in P, KP, LG.
  assert (T' := T). rewrite LG in T'. assert (A' := A). unfold p_heap in A'. rewrite LG in A'.
  pose proof (c89_well_formed _ _ _ _ _ _ FR FI T') as WF. rewrite <- LG in WF.
  destruct (c89_end_to_end _ _ dflt _ _ _ _ FR FI T' A') as (c & C & S). rewrite <- LG in C, S.
  exists c. split; [exact C|]. intros other left init before cl after r v p E R D O.
  eapply line_says; [exact P|exact WF|apply S|eapply KP; eassumption|exact D|exact O].
Qed.
Print Assumptions c91_end_to_end.

(** ** A script: y[0] = (x + x)[1]; y[1] = (x + x)[1] * 3 *)
Definition sx : list (scall rationals) :=
  [CCall WNew []; CCall (WOn 0 (EInput "x")) [3]; CArith 0 (SBin _ OpAdd 0 0); CRead 0 4 (KeyInt 1); CArith 0 (SBinL OpMul 6 (Num (q 3)));
   CCall (WOn 0 (ECreateOut "y")) [2]; CAssign 0 9 (KeyInt 0) 6; CAssign 0 9 (KeyInt 1) 8].
Definition sxlog : list wevent :=
  [WNew; WOn 0 (EInput "x"); WOn 0 (EApply [0; 0] 1); WOn 0 (EGetitem 4 true); WOn 0 (EApply [6] 1); WOn 0 (ECreateOut "y");
   WOn 0 (ESetitem 9 6); WOn 0 (ESetitem 9 8)].
Definition sxum : umodel := UM [0] [9] [] [].
Definition sxm : model := Mdl [("x", [3])] [("y", [2])] [] [] [] [] None [].
Example sx_log : p_log (prun sx) = sxlog.
Proof. vm_compute. reflexivity. Qed.
Example sx_tree : tree 1 (p_world (prun sx)) (p_shape (prun sx)) 0 = Some (sxum, sxm).
Proof. vm_compute. reflexivity. Qed.
Example sx_compiles : exists c, compile (p_heap (prun sx)) (p_shape (prun sx)) (fun _ => true) sxum sxm = Ok c.
Proof. eexists. vm_compute. reflexivity. Qed.
(** With x = (1, 2, 3), y is (4, 12). *)
Example sx_result :
  match compile (p_heap (prun sx)) (p_shape (prun sx)) (fun _ => true) sxum sxm with
  | Ok c => map (result (p_heap (prun sx)) (p_shape (prun sx)) (fun _ => true) (backend rationals (prun sx) (fun _ _ _ _ => q 0) (fun _ _ => q 0))
                  (fun _ i => q (Z.of_nat i + 1)) c [] 9) [0; 1]
  | Err _ => []
  end = [q 4; q 12].
Proof. vm_compute. reflexivity. Qed.

Lemma sx_front : counts_from_front rationals sx.
Proof. intros k y z x H. cbn in H. cases_in; try discriminate; injection H as <- <- <- <-; lia. Qed.
Lemma sx_rules : follows_rules (p_log (prun sx)).
Proof.
  rewrite sx_log. assert (H : rules_from (w_count (whistory sxlog)) [] sxlog); [|intros b e a E; exact (rules_from_ok _ sxlog [] H b e a E)].
  let v := eval vm_compute in (w_count (whistory sxlog)) in change (w_count (whistory sxlog)) with v. unfold sxlog. cbn [rules_from]. repeat (split; [first [exact I|on_rule]|]). exact I.
Qed.
Definition sxh : list obj := Eval vm_compute in w_heap (whistory sxlog).
Lemma sxh_eq : w_heap (whistory sxlog) = sxh.
Proof. vm_compute. reflexivity. Qed.
Lemma sxh_get o ob : nth_error sxh o = Some ob -> In (o, ob) (combine (seq 0 11) sxh).
Proof.
  intros E. assert (L : o < 11) by (change 11 with (length sxh); apply nth_error_Some; congruence).
  do 11 (destruct o as [|o]; [cbn in E; injection E as <-; cbn; tauto|]). lia.
Qed.
Lemma sx_finished : finished (p_log (prun sx)).
Proof.
  rewrite sx_log. split.
  - rewrite sxh_eq. intros o ob E K. apply sxh_get in E. cbn in E. cases_in; injection E as <- <-; try discriminate; reflexivity.
  - intros o ob k. rewrite sxh_eq. intros E K C Ow. exfalso. apply sxh_get in E. apply (C (ob_num ob)); clear C Ow; cbn in E; cases_in; injection E as <- <-; try discriminate; vm_compute; reflexivity.
  - intros k m E. rewrite sxh_eq. destruct k as [|k]; vm_compute in E; [injection E as <-|destruct k; discriminate]. vm_compute. repeat constructor; cbn; intuition discriminate.
  - vm_compute. discriminate.
Qed.
Lemma sx_no_conn p a b : ~ declared_conn sxm p a b.
Proof. intros (m' & A & Hc). inversion A as [|? ? ? ? ? ? Hs]; subst; [destruct Hc|destruct Hs]. Qed.
Lemma sx_acceptable : acceptable (p_heap (prun sx)) (p_shape (prun sx)) sxum sxm.
Proof.
  pose proof sx_tree as T. pose proof (i_log (proj1 (@script_keeps rationals sx sx_front))) as LG.
  assert (WF : well_formed (p_heap (prun sx)) sxum sxm (p_shape (prun sx))).
  { rewrite LG in T. unfold p_heap. rewrite LG. exact (c89_well_formed _ _ _ _ _ _ sx_rules sx_finished T). }
  apply (c88_exactly _ _ (fun _ => true) _ _ WF); [| | |exact sx_compiles].
  - intros p o pn (p' & a & b & D & _). exfalso. eapply sx_no_conn, D.
  - intros p1 p2 k1 k2 x s1 s2 n (m1 & A1 & H1) (m2 & A2 & H2) Q1 Q2.
    inversion A1 as [|? ? ? ? ? ? Hs]; subst; [|destruct Hs]. inversion A2 as [|? ? ? ? ? ? Hs]; subst; [|destruct Hs].
    destruct k1, k2; cbn in H1, H2; cases_in; congruence.
  - intros p m' nm l sm x A Hs. inversion A as [|? ? ? ? ? ? Hs']; subst; [destruct Hs|destruct Hs'].
Qed.
(** The hypotheses of C91 hold for this script, and its last line returns y. *)
Example c91_nonvacuous :
  counts_from_front rationals sx /\ follows_rules (p_log (prun sx)) /\ finished (p_log (prun sx)) /\
  tree 1 (p_world (prun sx)) (p_shape (prun sx)) 0 = Some (sxum, sxm) /\ acceptable (p_heap (prun sx)) (p_shape (prun sx)) sxum sxm /\
  returned (firstn 7 sx) (CAssign 0 9 (KeyInt 1) 8) = Some 9 /\ occurs (p_heap (prun sx)) sxum [] 9.
Proof.
  split; [exact sx_front|]. split; [exact sx_rules|]. split; [exact sx_finished|]. split; [exact sx_tree|]. split; [exact sx_acceptable|].
  split; [vm_compute; reflexivity|]. exists [0], [9], [], []. split; [constructor|]. right. apply needed_leaf. left. reflexivity.
Qed.

(** Without [counts_from_front] this fails: y[1] = x[0]; y[-1] = x[1] on an output with two
    elements are both accepted (C07), and the program gives y[1] the value of x[1]. *)
Definition sy : list (scall rationals) :=
  [CCall WNew []; CCall (WOn 0 (EInput "x")) [2]; CRead 0 0 (KeyInt 0); CRead 0 0 (KeyInt 1);
   CCall (WOn 0 (ECreateOut "y")) [2]; CAssign 0 4 (KeyInt 1) 2; CAssign 0 4 (KeyInt (-1)) 3].
Definition sym : model := Mdl [("x", [2])] [("y", [2])] [] [] [] [] None [].
Theorem c91_from_the_end_refuted : exists c before cl after,
  tree 1 (p_world (prun sy)) (p_shape (prun sy)) 0 = Some (UM [0] [4] [] [], sym) /\
  compile (p_heap (prun sy)) (p_shape (prun sy)) (fun _ => true) (UM [0] [4] [] []) sym = Ok c /\
  sy = (before ++ cl :: after)%list /\ returned before cl = Some 4 /\ defines rationals cl 4 4 /\
  exists init, ~ says rationals (p_shape (prun sy))
    (result (p_heap (prun sy)) (p_shape (prun sy)) (fun _ => true) (backend rationals (prun sy) (fun _ _ _ _ => q 0) (fun _ _ => q 0)) init c []) cl 4 4.
Proof.
  eexists. exists (firstn 5 sy), (CAssign 0 4 (KeyInt 1) 2), [CAssign 0 4 (KeyInt (-1)) 3].
  split; [vm_compute; reflexivity|]. split; [vm_compute; reflexivity|]. split; [reflexivity|]. split; [vm_compute; reflexivity|]. split; [reflexivity|].
  exists (fun _ i => q (Z.of_nat i)). cbn [says]. intros H. specialize (H eq_refl).
  change (p_shape (prun sy) 4) with [2] in H. change (components (KeyInt 1)) with [KI 1] in H.
  destruct H as (ls & ix & S & F & _ & V). destruct ls as [|a [|b ls]]; try contradiction; [|destruct S as [_ []]].
  destruct S as [[[_ ->]|(? & _)] _]; [|discriminate]. change (cartesian [[1%Z]]) with [[1%Z]] in F.
  inversion F as [|fx ? ? ? Q1 Q2]; subst. inversion Q2; subst. destruct Q1 as [Q0 Q1].
  assert (E : fx = 1%Z).
  { remember (Z.to_nat fx) as n eqn:En. destruct n as [|[|n]]; [discriminate|lia|]. cbn in Q1. destruct n; discriminate. }
  specialize (V 0 1%Z). rewrite E in V. specialize (V eq_refl). vm_compute in V. discriminate.
Qed.
Print Assumptions c91_from_the_end_refuted.
