(** Property theorem C89: from API calls to values. *)
From Verif Require Import PyBase ExprProofs2 NamesModel NamesProofs PromotionsModel PromotionsSpec PromotionsProofs2 PromotionsProofs3 HierModel HierSpec HierProofs ExprModel ExprSpec UnflatModel
  UnflatSpec Prop_Unflat FlattenModel FlattenSpec CompileModel CompileSpec Prop_Compile AcceptSpec AcceptProofs3 Prop_Accept
  WorldModel WorldSpec WorldProofs WorldProofs2 WorldProofs3 WorldProofs4 WorldProofs5 WorldProofs6.
From Coq Require Import Relations.
Local Open Scope string_scope.
Local Open Scope list_scope.

(** C89: every model built by a sequence of API calls that follows the rules satisfies the
    conditions under which C87 and C88 describe its compilation. *)
Theorem c89_well_formed : forall l shp f k um m,
  follows_rules l -> finished l -> tree f (whistory l) shp k = Some (um, m) ->
  well_formed (w_heap (whistory l)) um m shp.
Proof. intros l shp f k um m FR FI T. eapply program_well_formed; eassumption. Qed.
Print Assumptions c89_well_formed.

(** C89: if in addition the hierarchy satisfies the documented rules ([acceptable]), it
    compiles, and the compiled program computes the one solution of the model's equations,
    whatever the operations compute and whatever values the inputs have. *)
Theorem c89_end_to_end : forall l shp dflt f k um m,
  follows_rules l -> finished l -> tree f (whistory l) shp k = Some (um, m) ->
  acceptable (w_heap (whistory l)) shp um m ->
  exists c, compile (w_heap (whistory l)) shp dflt um m = Ok c /\
    forall V (apply : nat -> list V -> nat -> V) init,
      solves (w_heap (whistory l)) um m apply init (result (w_heap (whistory l)) shp dflt apply init c) /\
      forall val, solves (w_heap (whistory l)) um m apply init val ->
        forall p o, occurs (w_heap (whistory l)) um p o -> variable (w_heap (whistory l)) o ->
          val p o = result (w_heap (whistory l)) shp dflt apply init c p o.
Proof.
  intros l shp dflt f k um m FR FI T A. pose proof (c89_well_formed l shp f k um m FR FI T) as WF.
  destruct (c88_accepted _ _ dflt _ _ WF A) as (c & C). exists c. split; [exact C|].
  assert (TI : inputs_not_targets (w_heap (whistory l)) um m).
  { destruct A as [US SA VP AC AT AD ACs AO RK]. pose proof (f_named WF) as W. destruct (resolve_complete m None W US SA VP) as (r & R).
    assert (MO : exists mp, maps_of m = Ok mp) by (unfold maps_of; rewrite R; cbn [bind]; eauto). destruct MO as (mp & MO).
    eapply acceptable_targets; eassumption. }
  intros V apply init. split; [apply c87_program_solves_model; assumption|].
  intros val SV p o Ho Vo. eapply c87_model_has_one_solution; eassumption.
Qed.
Print Assumptions c89_end_to_end.

(** C89: a model is such a hierarchy exactly when no model in it contains itself. *)
Theorem c89_tree : forall l shp k, k < length (w_models (whistory l)) ->
  ((exists f um m, tree f (whistory l) shp k = Some (um, m)) <->
   ~ exists j, clos_refl_trans nat (contains (whistory l)) k j /\ clos_trans nat (contains (whistory l)) j j).
Proof. intros l shp k L. apply tree_exists; [|exact L]. intros k' m E t Ht. eapply subs_known; eassumption. Qed.
Print Assumptions c89_tree.

(** ** A program: the hierarchy of Prop_Compile *)
Definition wx : list wevent :=
  [WNew; WNew; WOn 0 (EInput "x"); WOn 1 (EDeclare "x"); WOn 1 (EApply [1] 1); WOn 1 (ERegister "y" 3); WOn 0 (EDeclare "y");
   WOn 0 (EApply [4; 0] 1); WOn 0 (ERegister "z" 6); WOn 0 (EDeclare "w"); WOn 0 (EApply [7] 1); WOn 0 (ERegister "v" 9);
   WConnect 0 "z" "w"; WAdd 0 (Some "A") None 1].
Example wx_heap : w_heap (whistory wx) = cxh.
Proof. vm_compute. reflexivity. Qed.
Example wx_tree : tree 2 (whistory wx) cxshp 0 = Some (cxum, cxm).
Proof. vm_compute. reflexivity. Qed.
Fixpoint rules_from (used : N) (pre l : list wevent) : Prop := match l with [] => True | e :: r => rule used pre e /\ rules_from used (pre ++ [e]) r end.
Lemma rules_from_ok used l : forall pre, rules_from used pre l -> forall b e a, l = b ++ e :: a -> rule used (pre ++ b) e.
Proof.
  induction l as [|x l IH]; intros pre H b e a E; [destruct b; discriminate|]. destruct H as [H1 H2]. destruct b as [|y b]; cbn in E; injection E as -> E.
  - rewrite app_nil_r. exact H1.
  - subst l. specialize (IH _ H2 b e a eq_refl). rewrite <- app_assoc in IH. exact IH.
Qed.
Ltac clean_ev := split; [intros n Hn; cbn in Hn; repeat (destruct Hn as [<-|Hn]); try destruct Hn; (apply other_length; [vm_compute; discriminate|cbn; lia])|exact I].
Ltac on_rule := split; [clean_ev|split; [intros n En; try discriminate; injection En as <-; reflexivity|split;
  [intros o Ho; cbn in Ho; repeat (destruct Ho as [<-|Ho]); try destruct Ho; vm_compute; reflexivity|intros; discriminate]]].
Lemma wx_rules : follows_rules wx.
Proof.
  assert (H : rules_from (w_count (whistory wx)) [] wx); [|intros b e a E; exact (rules_from_ok _ wx [] H b e a E)].
  let v := eval vm_compute in (w_count (whistory wx)) in change (w_count (whistory wx)) with v. unfold wx. cbn [rules_from]. repeat (split; [first [exact I|on_rule|idtac]|]); [|exact I].
  exists "A". split; [reflexivity|]. split; [apply other_length; [vm_compute; discriminate|cbn; lia]|discriminate].
Qed.
Lemma wx_finished : finished wx.
Proof.
  split.
  - rewrite wx_heap. intros o ob E K. apply cxh_get in E. cbn in E. cases_in; injection E as <- <-; discriminate.
  - intros o ob k. rewrite wx_heap. intros E K C Ow. apply cxh_get in E. cbn in E. cases_in; injection E as <- <-; try discriminate; vm_compute in Ow; injection Ow as <-;
      (eexists; split; [vm_compute; reflexivity|cbn; auto]).
  - intros k m E. rewrite wx_heap. destruct k as [|[|k]]; vm_compute in E; [injection E as <-|injection E as <-|destruct k; discriminate];
      vm_compute; repeat constructor; cbn; intuition discriminate.
  - vm_compute. discriminate.
Qed.
Example c89_nonvacuous : follows_rules wx /\ finished wx /\ tree 2 (whistory wx) cxshp 0 = Some (cxum, cxm) /\ acceptable (w_heap (whistory wx)) cxshp cxum cxm.
Proof. split; [exact wx_rules|]. split; [exact wx_finished|]. split; [exact wx_tree|]. rewrite wx_heap. exact cx_acceptable. Qed.

(** A model that contains itself: no tree, whatever the fuel. *)
Example c89_self : forall f, tree f (whistory [WNew; WAdd 0 (Some "A") None 0]) cxshp 0 = None.
Proof. induction f as [|f IH]; [reflexivity|]. vm_compute whistory in *. cbn [tree nth_error w_models wm_subs map snd all_some]. rewrite IH. reflexivity. Qed.
