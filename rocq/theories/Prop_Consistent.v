(** Property theorems C116: consistent renaming. *)
From Verif Require Import PyBase NamesModel PromotionsModel PromotionsSpec HierModel HierSpec Digraph TopoModel FlatModel ExprModel UnflatModel UnflatSpec
  FlattenModel FlattenSpec CompileModel CompileSpec AcceptSpec WorldModel WorldSpec WorldSpec2 Prop_World IterModel IterSpec Prop_Iter Prop_Iter2 DependSpec Prop_Extend WorldCheck
  ViewProofs LinkSpec LinkProofs LinkCheck RenameSpec RenameProofs Prop_Rename ConsistentSpec ConsistentProofs ConsistentProofs2 ConsistentProofs3.
Local Open Scope string_scope.
Local Open Scope list_scope.

(** C116: when all names of a hierarchy are replaced consistently, and the values are supplied under
    the new names, every variable has the same value as before. *)
Theorem c116_values : forall V r s it it' h h' shp shp' dflt dflt' um m c c' (apply : nat -> list V -> nat -> V) init init',
  renaming r s -> lawful it -> lawful it' -> same_objects h h' ->
  well_formed h um m shp -> well_formed h' (rename_um r um) (rename_model r m) shp' -> inputs_not_targets h um m ->
  compile_in it h shp dflt um m = Ok c -> compile_in it' h' shp' dflt' (rename_um r um) (rename_model r m) = Ok c' ->
  (forall n, init n = init' (r n)) ->
  forall p o, occurs h um p o -> variable h o -> result h' shp' dflt' apply init' c' (map r p) o = result h shp dflt apply init c p o.
Proof.
  intros V r s it it' h h' shp shp' dflt dflt' um m c c' apply init init' RN L L' SO WF WF' TI H H' IN p o Ho Vo.
  pose proof (members_renamed r h h' shp shp' um m SO WF WF') as RO.
  assert (CF : forall q q' k u n n', same_place um (rename_um r um) q q' -> called h um m q k u n -> called h' (rename_um r um) (rename_model r m) q' k u n' -> n' = r n).
  { intros q q' k u n n' SP C C'. rewrite (rename_place r um q q' SP) in C'. pose proof (ren_called r s RN h h' um RO m q k u n C) as C1.
    destruct (called_fun h' shp' _ _ WF' _ _ _ _ _ _ C' C1) as [_ E]. exact E. }
  apply (c114_hierarchy V it it' h h' shp shp' dflt dflt' um (rename_um r um) m (rename_model r m) c c' apply init init' L L' WF WF' TI); try assumption.
  - eapply ren_targets; eassumption.
  - apply rename_same_models.
  - intros q q1 q' q1' u u1 SP SP1. rewrite (rename_place r um q q' SP), (rename_place r um q1 q1' SP1). split; [apply (ren_linked r s RN h h' um RO)|eapply b_linked; eassumption].
  - intros q q' u n n' SP C C'. rewrite (CF _ _ _ _ _ _ SP C C'). apply IN.
  - intros q q' u n n' SP _ C C' _ _. rewrite (CF _ _ _ _ _ _ SP C C'). apply IN.
  - destruct Ho as (ins & outs & decls & subs & A & _). eapply rename_place_at, A.
Qed.
Print Assumptions c116_values.

(** C116: consistent renaming neither makes a model compile nor prevents it (for models that keep
    the two rules the code does not enforce, C16 and C36, and connect no input). *)
Theorem c116_compiles : forall r s it it' h h' shp dflt dflt' um m,
  renaming r s -> lawful it -> lawful it' -> same_objects h h' ->
  well_formed h um m shp -> well_formed h' (rename_um r um) (rename_model r m) shp -> inputs_not_targets h um m -> sizes_agree m -> valid_promotes m ->
  ((exists c, compile_in it h shp dflt um m = Ok c) <-> (exists c', compile_in it' h' shp dflt' (rename_um r um) (rename_model r m) = Ok c')).
Proof.
  intros r s it it' h h' shp dflt dflt' um m RN L L' SO WF WF' TI SA VP. pose proof (members_renamed r h h' shp shp um m SO WF WF') as RO.
  destruct (c88_any_order it h shp dflt um m L WF) as [A B]. destruct (c88_any_order it' h' shp dflt' _ _ L' WF') as [A' B'].
  split; intros C.
  - apply A', (ren_acceptable r s RN h h' shp um m WF RO), B; assumption.
  - apply A. assert (X : acceptable h' shp (rename_um r um) (rename_model r m)).
    { apply B'; [eapply ren_targets; eassumption|eapply ren_sizes; eassumption|eapply ren_valid; eassumption|exact C]. }
    apply (ren_acceptable s r (renaming_sym r s RN) h' h shp _ _ WF' (renamed_back r s h h' um m shp RN WF RO)) in X.
    now rewrite (rename_um_back r s RN), (rename_back r s RN) in X.
Qed.
Print Assumptions c116_compiles.

(** The letters u and w, and A and B, are exchanged in all names. *)
Definition swapped (c : Ascii.ascii) : Ascii.ascii :=
  if Ascii.eqb c "u" then "w"%char else if Ascii.eqb c "w" then "u"%char else if Ascii.eqb c "A" then "B"%char else if Ascii.eqb c "B" then "A"%char else c.
Lemma swapped_twice c : swapped (swapped c) = c.
Proof.
  unfold swapped. destruct (Ascii.eqb_spec c "u") as [->|N1]; [reflexivity|]. destruct (Ascii.eqb_spec c "w") as [->|N2]; [reflexivity|]. destruct (Ascii.eqb_spec c "A") as [->|N3]; [reflexivity|]. destruct (Ascii.eqb_spec c "B") as [->|N4]; [reflexivity|].
  apply Ascii.eqb_neq in N1, N2, N3, N4. now rewrite N1, N2, N3, N4.
Qed.
Definition swap : string -> string := replace_chars swapped.
Definition cs1 : list wevent := rn "A" "u" "u" "y" "wy" "z" (Some ["u"]) ++ [WConnect 0 "A.y" "wy"; WDesign 0 "u"; WConstraint 0 "z"].
Definition cs2 : list wevent := rn "B" "w" "w" "y" "uy" "z" (Some ["w"]) ++ [WConnect 0 "B.y" "uy"; WDesign 0 "w"; WConstraint 0 "z"].
Example c116_nonvacuous : exists um m c c', let h := w_heap (whistory cs1) in let h' := w_heap (whistory cs2) in
  renaming swap swap /\ same_objects h h' /\ well_formed h um m gsh /\ well_formed h' (rename_um swap um) (rename_model swap m) gsh /\ inputs_not_targets h um m /\ sizes_agree m /\ valid_promotes m /\
  tree 3 (whistory cs1) gsh 0 = Some (um, m) /\ tree 3 (whistory cs2) gsh 0 = Some (rename_um swap um, rename_model swap m) /\
  compile_in insertion_order h gsh (fun _ => true) um m = Ok c /\ compile_in backwards h' gsh (fun _ => true) (rename_um swap um) (rename_model swap m) = Ok c' /\
  result h gsh (fun _ => true) gf (fun n => if String.eqb n "u" then 100%N else 0%N) c [] 6 = 107%N /\
  result h' gsh (fun _ => true) gf (fun n => if String.eqb n "w" then 100%N else 0%N) c' [] 6 = 107%N.
Proof.
  let t := eval vm_compute in (tree 3 (whistory cs1) gsh 0) in match t with Some (?um, ?m) =>
  let s := eval vm_compute in (compile_in insertion_order (w_heap (whistory cs1)) gsh (fun _ => true) um m) in match s with Ok ?c =>
  let s' := eval vm_compute in (compile_in backwards (w_heap (whistory cs2)) gsh (fun _ => true) (rename_um swap um) (rename_model swap m)) in match s' with Ok ?c' => exists um, m, c, c' end end end.
  intros h h'.
  assert (F1 : follows_rules cs1) by (apply rules_check; vm_compute; reflexivity). assert (F2 : finished cs1) by (apply finished_check; vm_compute; reflexivity).
  assert (F3 : follows_rules cs2) by (apply rules_check; vm_compute; reflexivity). assert (F4 : finished cs2) by (apply finished_check; vm_compute; reflexivity).
  match goal with |- _ /\ _ /\ _ /\ _ /\ _ /\ _ /\ _ /\ ?T /\ ?T' /\ _ => assert (T1 : T) by (vm_compute; reflexivity); assert (T2 : T') by (vm_compute; reflexivity) end.
  pose proof (c89_well_formed _ _ _ _ _ _ F1 F2 T1) as W1. pose proof (c89_well_formed _ _ _ _ _ _ F3 F4 T2) as W2. fold h in W1. fold h' in W2.
  pose proof (targets_check _ _ _ _ W1 eq_refl) as N1.
  split; [apply replace_renaming; [exact swapped_twice|exact swapped_twice|reflexivity]|]. split; [vm_compute; repeat constructor|].
  do 3 (split; [assumption|]).
  match goal with |- sizes_agree ?m /\ _ => match eval cbn in (m_subs m) with [(_, _, ?a)] =>
    assert (SB : forall p y, sub_at m p y -> (p = [] /\ y = m) \/ (p = ["A"] /\ y = a)) end end.
  { intros p y A. inversion A as [|? nm pr sm q ? Hs A']; subst; [auto|right]. destruct Hs as [E|[]]. injection E as <- <- <-. inversion A' as [|? ? ? ? ? ? Hs' ?]; subst; [auto|destruct Hs']. }
  split. { match goal with |- sizes_agree ?m => assert (SH : forall p k x s, has_var m p k x s -> s = [2]) end.
    { intros p k x s (y & A & Hv). destruct (SB _ _ A) as [[-> ->]|[-> ->]]; destruct k; cbn in Hv; repeat (destruct Hv as [Hv|Hv]; [injection Hv as _ <-; reflexivity|]); destruct Hv. }
    intros p1 p2 k1 k2 x s1 s2 q V1 V2 _ _. rewrite (SH _ _ _ _ V1), (SH _ _ _ _ V2). reflexivity. }
  split. { intros p y nm l sm x A Hs Hx. destruct (SB _ _ A) as [[-> ->]|[-> ->]]; cbn in Hs; [|destruct Hs]. destruct Hs as [Hs|[]]. injection Hs as <- <- <-. destruct Hx as [<-|[]].
    exists [], KDeclared, [2]. split; [eexists; split; [constructor|cbn; auto]|constructor]. }
  do 2 (split; [assumption|]). repeat split; vm_compute; reflexivity.
Qed.
