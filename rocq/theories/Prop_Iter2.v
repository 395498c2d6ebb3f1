(** C88, C89 and C91 for every order in which Python visits sets (IterModel). *)
From Coq Require Import Permutation.
From Verif Require Import PyBase NamesModel PromotionsModel PromotionsSpec PromotionsProofs2 PromotionsProofs3 HierModel HierSpec ExprModel ExprSpec UnflatModel UnflatSpec FlattenModel FlattenSpec CompileModel CompileSpec
  Prop_Compile AcceptSpec AcceptProofs3 Prop_Accept WorldModel WorldSpec Prop_World IterModel IterSpec IterProofs Prop_Iter
  IndexModel ArithModel ScriptModel ScriptSpec ScriptProofs ScriptProofs2 ScriptProofs3 ScriptProofs4 ScriptProofs5 Rationals Prop_Script.
Local Open Scope string_scope.
Local Open Scope list_scope.

Lemma acceptable_no_input_targets h shp um m : well_formed h um m shp -> acceptable h shp um m -> inputs_not_targets h um m.
Proof.
  intros WF A. destruct A as [US SA VP AC AT AD ACs AO RK]. pose proof (f_named WF) as W. destruct (resolve_complete m None W US SA VP) as (r & R).
  assert (MO : exists mp, maps_of m = Ok mp) by (unfold maps_of; rewrite R; cbn [bind]; eauto). destruct MO as (mp & MO).
  eapply acceptable_targets; eassumption.
Qed.

(** C88: a hierarchy that satisfies the documented rules compiles in every order; with the two
    rules that are not enforced given, one order in which it compiles is enough for the
    remaining ones to hold. *)
Theorem c88_any_order : forall it h shp dflt um m, lawful it -> well_formed h um m shp ->
  (acceptable h shp um m -> exists c, compile_in it h shp dflt um m = Ok c) /\
  (inputs_not_targets h um m -> sizes_agree m -> valid_promotes m ->
   (exists c, compile_in it h shp dflt um m = Ok c) -> acceptable h shp um m).
Proof.
  intros it h shp dflt um m L WF. split.
  - intros A. destruct (c88_accepted h shp dflt um m WF A) as (c & C). rewrite <- compile_in_default in C.
    eapply (@compile_in_accept insertion_order it); try eassumption; [now apply acceptable_no_input_targets with shp|exact insertion_lawful].
  - intros TI SA VP (c & C). apply (c88_exactly h shp dflt um m WF TI SA VP).
    destruct (@compile_in_accept it insertion_order h shp dflt um m c WF TI L insertion_lawful C) as (c' & C'). rewrite compile_in_default in C'. eauto.
Qed.
Print Assumptions c88_any_order.

(** C89: from API calls to values, in every order. *)
Theorem c89_any_order : forall it l shp dflt f k um m,
  lawful it -> follows_rules l -> finished l -> tree f (whistory l) shp k = Some (um, m) ->
  acceptable (w_heap (whistory l)) shp um m ->
  exists c, compile_in it (w_heap (whistory l)) shp dflt um m = Ok c /\
    forall V (apply : nat -> list V -> nat -> V) init,
      solves (w_heap (whistory l)) um m apply init (result (w_heap (whistory l)) shp dflt apply init c) /\
      forall val, solves (w_heap (whistory l)) um m apply init val ->
        forall p o, occurs (w_heap (whistory l)) um p o -> variable (w_heap (whistory l)) o ->
          val p o = result (w_heap (whistory l)) shp dflt apply init c p o.
Proof.
  intros it l shp dflt f k um m L FR FI T A. pose proof (c89_well_formed l shp f k um m FR FI T) as WF.
  pose proof (acceptable_no_input_targets _ _ _ _ WF A) as TI.
  destruct (proj1 (c88_any_order it _ _ dflt _ _ L WF) A) as (c & C). exists c. split; [exact C|]. intros V apply init.
  split; [eapply c99_meaning; eassumption|]. intros val SV p o Ho Vo.
  destruct (c88_accepted _ _ dflt _ _ WF A) as (c0 & C0).
  rewrite (c87_model_has_one_solution V _ _ dflt _ _ c0 apply init val WF TI C0 SV p o Ho Vo). rewrite <- compile_in_default in C0.
  eapply (c99_same_values V insertion_order it); try eassumption. exact insertion_lawful.
Qed.
Print Assumptions c89_any_order.

(** C91: the compiled program computes what the script says, in every order. *)
Theorem c91_any_order : forall it (N : numbers) (l : list (scall N)) dflt f k um m,
  let s := prun l in
  lawful it -> counts_from_front N l -> follows_rules (p_log s) -> finished (p_log s) ->
  tree f (p_world s) (p_shape s) k = Some (um, m) -> acceptable (p_heap s) (p_shape s) um m ->
  exists c, compile_in it (p_heap s) (p_shape s) dflt um m = Ok c /\
    forall other left init before cl after r v p,
      l = (before ++ cl :: after)%list -> returned before cl = Some r -> defines N cl r v -> occurs (p_heap s) um p v ->
      says N (p_shape s) (result (p_heap s) (p_shape s) dflt (backend N s other left) init c p) cl r v.
Proof.
  intros it N l dflt f k um m s L CF FR FI T A.
  destruct (@script_keeps N l CF) as [P KP]. pose proof (i_log P) as LG. fold s in P, KP, LG.
  assert (T' := T). rewrite LG in T'. assert (A' := A). unfold p_heap in A'. rewrite LG in A'.
  pose proof (c89_well_formed _ _ _ _ _ _ FR FI T') as WF. rewrite <- LG in WF.
  destruct (c89_any_order it _ _ dflt _ _ _ _ L FR FI T' A') as (c & C & S). rewrite <- LG in C, S.
  exists c. split; [exact C|]. intros other left init before cl after r v p E R D O.
  eapply line_says; [exact P|exact WF|apply S|eapply KP; eassumption|exact D|exact O].
Qed.
Print Assumptions c91_any_order.

(** The hypotheses are met by the program of Prop_World and the script of Prop_Script with the
    sets visited backwards. *)
Example c89_any_order_nonvacuous : lawful backwards /\ follows_rules wx /\ finished wx /\ tree 2 (whistory wx) cxshp 0 = Some (cxum, cxm) /\
  acceptable (w_heap (whistory wx)) cxshp cxum cxm.
Proof. split; [exact backwards_lawful|exact c89_nonvacuous]. Qed.
Example c91_any_order_nonvacuous : lawful backwards /\ counts_from_front rationals sx /\ follows_rules (p_log (prun sx)) /\ finished (p_log (prun sx)) /\
  tree 1 (p_world (prun sx)) (p_shape (prun sx)) 0 = Some (sxum, sxm) /\ acceptable (p_heap (prun sx)) (p_shape (prun sx)) sxum sxm.
Proof. split; [exact backwards_lawful|]. split; [exact sx_front|]. split; [exact sx_rules|]. split; [exact sx_finished|]. split; [exact sx_tree|exact sx_acceptable]. Qed.
