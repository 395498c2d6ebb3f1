(** C93: the indices of assignments are found under the names of the assigned variables. *)
From Verif Require Import PyBase NamesModel PromotionsModel ExprModel WorldModel WorldSpec IndexModel IndexSpec IndexSpec2 ArithModel ArithSpec Rationals
  ScriptModel ScriptSpec ScriptSpec2 ScriptProofs3 ScriptProofs4 ScriptProofs6 ScriptProofs7 ScriptProofs8 ScriptProofs9 Prop_Compile Prop_Script.
Local Open Scope list_scope.
Local Open Scope nat_scope.
Local Open Scope string_scope.

(** C93: when the script is over, the table of an output made by create_output has, for each
    accepted assignment y[key] = x, under the name x has, the shape of x and the positions the
    key selects; provided x is not registered as an output after it was assigned. *)
Theorem c93_indices_by_name_partial : forall (N : numbers) (before after : list (scall N)) k y key x r,
  let c := CAssign k y key x in
  counts_from_front N (before ++ c :: after)%list -> returned before c = Some r ->
  (forall j n sh, ~ In (CCall (WOn j (ERegister n x)) sh) after) ->
  let s := prun (before ++ c :: after)%list in
  match key with KeyTuple _ => True | _ => length (p_shape s y) = 1 end ->
  exists ox ix, nth_error (p_heap s) x = Some ox /\ dget (c_tgt (p_cat s y)) (ob_name ox) = Some (p_shape s x, ix) /\ positions (p_shape s y) key ix.
Proof.
  intros N before after k y key x r c CF R NR s O. destruct (@entry_found N before after k y key x r (front_all CF) R) as (ox & ix & A & B & C).
  - intros c' Hc (j & n & sh & ->). eapply NR, Hc.
  - exists ox, ix. split; [exact A|]. split; [exact B|apply C, O].
Qed.
Print Assumptions c93_indices_by_name_partial.

(** C93: the same variable is assigned twice to an output only if it is registered as an output
    in between. *)
Theorem c93_assigned_once_partial : forall (N : numbers) (before mid : list (scall N)) k1 k2 y key1 key2 x r1 r2,
  counts_from_front N (before ++ CAssign k1 y key1 x :: mid)%list ->
  returned before (CAssign k1 y key1 x) = Some r1 -> returned (before ++ CAssign k1 y key1 x :: mid)%list (CAssign k2 y key2 x) = Some r2 ->
  exists j n sh, In (CCall (WOn j (ERegister n x)) sh) mid.
Proof.
  intros N before mid k1 k2 y key1 key2 x r1 r2 CF R1 R2. destruct (@assigned_once N before mid k1 k2 y key1 key2 x r1 r2 (front_all CF) R1 R2) as (c & Hc & j & n & sh & ->). eauto.
Qed.
Print Assumptions c93_assigned_once_partial.

(** In the script of C91: y is assigned twice, and both entries are found. *)
Example c93_nonvacuous : returned (firstn 6 sx) (CAssign 0 9 (KeyInt 0) 6) = Some 9 /\
  (forall j n sh, ~ In (CCall (WOn j (ERegister n 6)) sh) (skipn 7 sx)) /\ length (p_shape (prun sx) 9) = 1.
Proof. split; [vm_compute; reflexivity|]. split; [|reflexivity]. intros j n sh [H|[]]. discriminate. Qed.

(** Without the condition this fails: y[0] = r; register_output('r', r); y[1] = r are all
    accepted, r is then an argument twice, and the indices y[0] were given are under a name
    that is no longer the name of r. *)
Definition sz : list (scall rationals) :=
  [CCall WNew []; CCall (WOn 0 (EInput "x")) [2]; CRead 0 0 (KeyInt 0); CCall (WOn 0 (ECreateOut "y")) [2];
   CAssign 0 3 (KeyInt 0) 2; CCall (WOn 0 (ERegister "r" 2)) []; CAssign 0 3 (KeyInt 1) 2].
Theorem c93_indices_by_name_refuted : exists op,
  counts_from_front rationals sz /\
  returned (firstn 4 sz) (CAssign 0 3 (KeyInt 0) 2) = Some 3 /\ returned (firstn 6 sz) (CAssign 0 3 (KeyInt 1) 2) = Some 3 /\
  option_map ob_name (nth_error (p_heap (prun sz)) 2) = Some "r" /\
  option_map ob_deps (nth_error (p_heap (prun sz)) op) = Some [2; 2] /\ option_map ob_outs (nth_error (p_heap (prun sz)) op) = Some [3] /\
  dget (c_tgt (p_cat (prun sz) 3)) "r" = Some ([1], [1%Z]) /\
  dget (c_tgt (p_cat (prun (firstn 6 sz)) 3)) "r" = None.
Proof.
  exists 4. split; [|vm_compute; auto 10]. intros k y z x H. cbn in H. cases_in; try discriminate; injection H as <- <- <- <-; lia.
Qed.
Print Assumptions c93_indices_by_name_refuted.
