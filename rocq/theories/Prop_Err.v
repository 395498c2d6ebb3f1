(** Property theorem C103: how the compilation of a model made through the API can fail. *)
From Verif Require Import PyBase NamesModel PromotionsModel PromotionsSpec HierModel HierSpec ExprModel ExprSpec ExprProofs2 UnflatModel UnflatSpec FlattenModel FlattenSpec CompileModel CompileSpec
  Prop_Compile AcceptSpec Prop_Accept WorldModel WorldSpec Prop_World IterModel IterSpec IterProofs Prop_Iter Prop_Iter2 ErrProofs.
Local Open Scope string_scope.
Local Open Scope list_scope.

(** C103: if the compilation of a hierarchy fails, in whatever order Python visits the sets,
    then it raises KeyError or ValueError, and the hierarchy breaks one of the documented
    rules ([acceptable]).  In particular the compiler never trips over its own data
    structures (AttributeError, IndexError, TypeError, RuntimeError). *)
Theorem c103_errors : forall it h shp dflt um m e,
  lawful it -> well_formed h um m shp -> compile_in it h shp dflt um m = Err e ->
  (e = KeyError \/ e = ValueError) /\ ~ acceptable h shp um m.
Proof.
  intros it h shp dflt um m e L WF E. split; [exact (compile_tame it h shp dflt um m L WF e E)|]. intros A.
  destruct (proj1 (c88_any_order it h shp dflt um m L WF) A) as (c & C). congruence.
Qed.
Print Assumptions c103_errors.

(** C103: the same from the calls of the API that build the hierarchy. *)
Theorem c103_programs : forall it l shp dflt f k um m e,
  lawful it -> follows_rules l -> finished l -> tree f (whistory l) shp k = Some (um, m) ->
  compile_in it (w_heap (whistory l)) shp dflt um m = Err e ->
  (e = KeyError \/ e = ValueError) /\ ~ acceptable (w_heap (whistory l)) shp um m.
Proof.
  intros it l shp dflt f k um m e L FR FI T E. eapply c103_errors; [exact L| |exact E].
  eapply c89_well_formed; eassumption.
Qed.
Print Assumptions c103_programs.

(** C103: a hierarchy that fails in one order fails in every order. *)
Theorem c103_every_order : forall it it' h shp dflt um m e,
  lawful it -> lawful it' -> well_formed h um m shp -> inputs_not_targets h um m ->
  compile_in it h shp dflt um m = Err e -> exists e', compile_in it' h shp dflt um m = Err e' /\ (e' = KeyError \/ e' = ValueError).
Proof.
  intros it it' h shp dflt um m e L L' WF TI E. destruct (compile_in it' h shp dflt um m) as [c|e'] eqn:E'.
  - destruct (@compile_in_accept it' it h shp dflt um m c WF TI L' L E') as (c' & C). congruence.
  - exists e'. split; [reflexivity|]. exact (compile_tame it' h shp dflt um m L' WF e' E').
Qed.
Print Assumptions c103_every_order.

(** The hypotheses are met by programs that fail: data in a circle (v is computed from w and
    connected to it) and two sizes under one promoted name. *)
Definition ex : list wevent :=
  [WNew; WNew; WOn 0 (EInput "x"); WOn 1 (EDeclare "x"); WOn 1 (EApply [1] 1); WOn 1 (ERegister "y" 3); WOn 0 (EDeclare "y");
   WOn 0 (EApply [4; 0] 1); WOn 0 (ERegister "z" 6); WOn 0 (EDeclare "w"); WOn 0 (EApply [7] 1); WOn 0 (ERegister "v" 9);
   WConnect 0 "v" "w"; WAdd 0 (Some "A") None 1].
Definition exm : model := Mdl (m_inputs cxm) (m_outputs cxm) (m_declared cxm) [("v", "w")] [] [] None (m_subs cxm).
Lemma ex_heap : w_heap (whistory ex) = cxh.
Proof. vm_compute. reflexivity. Qed.
Lemma ex_tree : tree 2 (whistory ex) cxshp 0 = Some (cxum, exm).
Proof. vm_compute. reflexivity. Qed.
Lemma ex_rules : follows_rules ex.
Proof.
  assert (H : rules_from (w_count (whistory ex)) [] ex); [|intros b e a E; exact (rules_from_ok _ ex [] H b e a E)].
  let v := eval vm_compute in (w_count (whistory ex)) in change (w_count (whistory ex)) with v. unfold ex. cbn [rules_from]. repeat (split; [first [exact I|on_rule|idtac]|]); [|exact I].
  exists "A". split; [reflexivity|]. split; [apply other_length; [vm_compute; discriminate|cbn; lia]|discriminate].
Qed.
Lemma ex_finished : finished ex.
Proof.
  split.
  - rewrite ex_heap. intros o ob E K. apply cxh_get in E. cbn in E. cases_in; injection E as <- <-; discriminate.
  - intros o ob k. rewrite ex_heap. intros E K C Ow. apply cxh_get in E. cbn in E. cases_in; injection E as <- <-; try discriminate; vm_compute in Ow; injection Ow as <-;
      (eexists; split; [vm_compute; reflexivity|cbn; auto]).
  - intros k m E. rewrite ex_heap. destruct k as [|[|k]]; vm_compute in E; [injection E as <-|injection E as <-|destruct k; discriminate];
      vm_compute; repeat constructor; cbn; intuition discriminate.
  - vm_compute. discriminate.
Qed.
Example c103_feedback_nonvacuous : lawful backwards /\ follows_rules ex /\ finished ex /\ tree 2 (whistory ex) cxshp 0 = Some (cxum, exm) /\
  compile_in backwards (w_heap (whistory ex)) cxshp (fun _ => false) cxum exm = Err KeyError.
Proof. split; [exact backwards_lawful|]. split; [exact ex_rules|]. split; [exact ex_finished|]. split; [exact ex_tree|]. vm_compute. reflexivity. Qed.

Definition yxshp' (o : nat) : shape := if Nat.eqb o 3 then [3] else [2].
Definition yxm' : model := Mdl [] [] [] [] [] [] None
  [("A", None, Mdl [] [("a", [2])] [("x", [2])] [] [] [] None []); ("B", None, Mdl [] [("b", [2])] [("x", [3])] [] [] [] None [])].
Example c103_sizes_nonvacuous : lawful backwards /\ follows_rules yx /\ finished yx /\ tree 2 (whistory yx) yxshp' 0 = Some (yxum, yxm') /\
  inputs_not_targets yxh yxum yxm' /\
  compile_in backwards (w_heap (whistory yx)) yxshp' (fun _ => false) yxum yxm' = Err ValueError.
Proof.
  split; [exact backwards_lawful|]. split; [exact yx_rules|]. split; [exact yx_finished|]. split; [vm_compute; reflexivity|]. split; [|vm_compute; reflexivity].
  intros p o pn (p0 & a & b & (m0 & A0 & Hc) & _) _.
  inversion A0 as [|? nm pr sm p' ? Hs A']; subst; [destruct Hc|]. cbn in Hs. destruct Hs as [E|[E|[]]]; injection E as <- <- <-;
    (inversion A' as [|? ? ? ? ? ? Hs' ?]; subst; [destruct Hc|destruct Hs']).
Qed.
