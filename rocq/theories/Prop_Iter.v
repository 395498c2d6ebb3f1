(** Property theorems C99 and C100: compiling does not depend on the order in which Python visits sets. *)
From Coq Require Import Permutation.
From Verif Require Import PyBase ExprProofs2 NamesModel NamesProofs PromotionsModel PromotionsSpec PromotionsProofs3 HierModel HierSpec HierProofs Digraph TopoModel TopoSpec
  FlatModel FlatSpec FlatProofs ConnProofs ExprModel ExprSpec UnflatModel UnflatSpec UnflatProofs FlattenModel FlattenSpec FlattenProofs CompileModel CompileSpec CompileProofs CompileProofs2 CompileProofs3
  Prop_Unflat Prop_Compile WorldModel WorldSpec WorldProofs5 Prop_World IterModel IterSpec IterProofs.
Local Open Scope string_scope.
Local Open Scope list_scope.

(** C99: whether a model compiles does not depend on the order. *)
Theorem c99_same_acceptance : forall it it' h shp dflt um m,
  well_formed h um m shp -> inputs_not_targets h um m -> lawful it -> lawful it' ->
  ((exists c, compile_in it h shp dflt um m = Ok c) <-> (exists c, compile_in it' h shp dflt um m = Ok c)).
Proof. intros it it' h shp dflt um m WF TI L L'. split; intros (c & H); [eapply (@compile_in_accept it it')|eapply (@compile_in_accept it' it)]; eassumption. Qed.
Print Assumptions c99_same_acceptance.

(** C99: in every order, the program computes the solution of the model's equations. *)
Theorem c99_meaning : forall V it h shp dflt um m c (apply : nat -> list V -> nat -> V) init,
  well_formed h um m shp -> inputs_not_targets h um m -> lawful it -> compile_in it h shp dflt um m = Ok c ->
  solves h um m apply init (result h shp dflt apply init c).
Proof.
  intros V it h shp dflt um m c apply init WF TI L H. destruct (@compile_in_solves it V h shp dflt um m c apply init WF TI L H) as (c0 & _ & S & [S1 S2 S3 S4 S5]).
  assert (E : forall p o, result h shp dflt apply init c p o = result h shp dflt apply init c0 p o) by (intros p o; symmetry; apply result_same, S).
  split.
  - intros p o ob k v Ho En O Hv. rewrite E, (S1 p o ob k v Ho En O Hv). f_equal. apply map_ext. intros d. symmetry. apply E.
  - intros p k o p' k' o' pn A1 A2 A3 A4. rewrite !E. eapply S2; eassumption.
  - intros p0 a b pa pb p k o p' k' o' A1 A2 A3 A4 A5 A6 A7. rewrite !E. eapply S3; eassumption.
  - intros p o pn A. rewrite E. apply S4, A.
  - intros p o pn A1 A2 A3 A4. rewrite E. apply S5; assumption.
Qed.
Print Assumptions c99_meaning.

(** C99: the values computed do not depend on the order. *)
Theorem c99_same_values : forall V it it' h shp dflt um m c c' (apply : nat -> list V -> nat -> V) init,
  well_formed h um m shp -> inputs_not_targets h um m -> lawful it -> lawful it' ->
  compile_in it h shp dflt um m = Ok c -> compile_in it' h shp dflt um m = Ok c' ->
  forall p o, occurs h um p o -> variable h o -> result h shp dflt apply init c p o = result h shp dflt apply init c' p o.
Proof.
  intros V it it' h shp dflt um m c c' apply init WF TI L L' H H' p o Ho Vo. destruct (@compile_in_compiles _ _ _ _ _ _ _ L' H') as (c0 & K & S).
  rewrite <- (@result_same V h shp dflt apply init c0 c' p o S).
  apply (@compiles_unique V h shp dflt um m c0 apply init _ WF TI K (c99_meaning V it h shp dflt um m c apply init WF TI L H) p o Ho Vo).
Qed.
Print Assumptions c99_same_values.

(** C99: nor do the names: the sets of unpromoted names, the promoted name of an unpromoted
    one, the connections, design variables, constraints and the objective. *)
Theorem c99_same_names : forall it it' h shp dflt um m c c', lawful it -> lawful it' ->
  compile_in it h shp dflt um m = Ok c -> compile_in it' h shp dflt um m = Ok c' ->
  same_sets (c_p2u c) (c_p2u c') /\ (forall x, dget (c_u2p c) x = dget (c_u2p c') x) /\
  c_connections c = c_connections c' /\ c_dvs c = c_dvs c' /\ c_cons c = c_cons c' /\ c_objective c = c_objective c'.
Proof.
  intros it it' h shp dflt um m c c' L L' H H'.
  destruct (@compile_in_compiles _ _ _ _ _ _ _ L H) as (c0 & (r & u & g & g1 & R & _ & P & Q & _ & _ & _ & _ & CS & DV & CT & ob & OB) & S).
  destruct (@compile_in_compiles _ _ _ _ _ _ _ L' H') as (c1 & (r' & u' & g' & g1' & R' & _ & P' & Q' & _ & _ & _ & _ & CS' & DV' & CT' & ob' & OB') & S').
  rewrite R in R'. injection R' as <-. destruct S as [A1 A2 A3 A4 A5 A6 _ _ _ _ _ _], S' as [B1 B2 B3 B4 B5 B6 _ _ _ _ _ _].
  split.
  { rewrite P in A1. rewrite P' in B1. clear -A1 B1. unfold same_sets in *. revert B1. generalize (c_p2u c'). induction A1 as [|a b l l' [E Pm] _ IH]; intros l2 B1; inversion B1 as [|? y ? l3 [E' Pm'] B2]; subst; constructor.
    - split; [congruence|]. eapply Permutation_trans; [apply Permutation_sym, Pm|exact Pm'].
    - apply IH, B2. }
  split. { intros x. rewrite <- A2, <- B2, Q, Q'. reflexivity. }
  repeat split; congruence.
Qed.
Print Assumptions c99_same_names.

(** C99: the executed operations do not depend on the order, nor which variables share
    storage with an input or a computed variable: those that have its promoted name or are
    connected to it.  In every order, an operation comes after those whose results it uses. *)
Theorem c99_same_operations : forall it it' h shp dflt um m c c',
  well_formed h um m shp -> inputs_not_targets h um m -> lawful it -> lawful it' ->
  compile_in it h shp dflt um m = Ok c -> compile_in it' h shp dflt um m = Ok c' ->
  (forall p o, operation h o -> (In (NObj p o) (c_order c) <-> In (NObj p o) (c_order c'))) /\
  (forall p v p' d, occurs h um p v -> variable h v -> ~ declared_object h v -> occurs h um p' d -> variable h d ->
     (node_of h c p v = node_of h c p' d <-> feeds h um m p v p' d) /\
     (node_of h c' p v = node_of h c' p' d <-> feeds h um m p v p' d)) /\
  (forall p o v p' o' d, operation h o -> operation h o' -> writes h o v -> reads h o' d -> occurs h um p o -> occurs h um p' o' ->
     occurs h um p v -> occurs h um p' d -> feeds h um m p v p' d -> precedes (c_order c) (NObj p o) (NObj p' o')).
Proof.
  intros it it' h shp dflt um m c c' WF TI L L' H H'.
  destruct (@compile_in_compiles _ _ _ _ _ _ _ L H) as (c0 & K & S). destruct (@compile_in_compiles _ _ _ _ _ _ _ L' H') as (c1 & K' & S').
  destruct (@compiles_order h shp dflt um m c0 WF TI K) as (ND & _ & O1 & O2 & _ & O3 & O4 & O5). destruct (@compiles_order h shp dflt um m c1 WF TI K') as (_ & _ & O1' & O2' & _).
  rewrite <- (sp_order S), <- (sp_order S'). split; [|split].
  - intros p o O. split; intros Hi; [apply O1 in Hi|apply O1' in Hi]; destruct Hi as (p' & o' & E & Ho); injection E as <- <-; [apply O2'|apply O2]; assumption.
  - intros p v p' d Ho Vv Nv Ho' Vd. rewrite <- !(node_of_same h _ _ S), <- !(node_of_same h _ _ S'). split; eapply compiles_feeds; eassumption.
  - intros p o v p' o' d O O' W Rd Ho Ho' Hv Hd E. pose proof (f_outputs WF _ _ W) as K0.
    assert (Vd : variable h d).
    { destruct (f_alternates WF d o' (or_introl Rd)) as [[V _]|[_ V]]; [exact V|]. exfalso. exact (op_not_var h o' O' V). }
    eapply ExecProofs.precedes_trans; [exact ND|apply O5|apply O5].
    + apply O4; [exact Ho|exact O|exists v; split; [exact W|reflexivity]].
    + apply O3; [exact Ho'|exact O'|exists d]. split; [exact Rd|]. apply (compiles_feeds h shp dflt um m c0 p v p' d WF TI K Hv); try assumption.
      * apply (kind_var h v KOutput), K0.
      * intros D. exact (not_both h v D K0).
Qed.
Print Assumptions c99_same_operations.

(** C100: which value a declared variable without source gets.  Partial: for such a variable, the variable whose value is used
    has the same value in every order, if those at equal levels that have a value of their
    own agree, and so do those that have none. *)
Theorem c100_initial_value_partial : forall V it it' h shp dflt um m c c' (value : nat -> V) p o pn,
  well_formed h um m shp -> inputs_not_targets h um m -> lawful it -> lawful it' ->
  compile_in it h shp dflt um m = Ok c -> compile_in it' h shp dflt um m = Ok c' ->
  occurs h um p o -> called h um m p KDeclared o pn -> sourceless h um m pn -> values_agree h um m dflt value pn ->
  value (provider h c p o) = value (provider h c' p o).
Proof.
  intros V it it' h shp dflt um m c c' value p o pn WF TI L L' H H' Ho Hc [NS NT] VA.
  destruct (@compile_in_compiles _ _ _ _ _ _ _ L H) as (c0 & K & S). destruct (@compile_in_compiles _ _ _ _ _ _ _ L' H') as (c1 & K' & S').
  destruct (compiles_kept h shp dflt um m c0 p o pn WF TI K Ho Hc NS NT) as (p1 & o1 & E1 & Ho1 & Hc1 & D1 & F1).
  destruct (compiles_kept h shp dflt um m c1 p o pn WF TI K' Ho Hc NS NT) as (p2 & o2 & E2 & Ho2 & Hc2 & D2 & F2).
  unfold provider. rewrite <- (node_of_same h p o S), <- (node_of_same h p o S'), E1, E2.
  assert (E : level p1 = level p2) by (unfold level; apply Nat.le_antisymm; [apply D1 with (o2 := o2)|apply D2 with (o2 := o1)]; assumption).
  apply (VA p1 o1 p2 o2 Ho1 Ho2 Hc1 Hc2 E).
  destruct (dflt o1) eqn:X1, (dflt o2) eqn:X2; try reflexivity.
  - rewrite (F1 eq_refl p2 o2 Ho2 Hc2 (eq_sym E)) in X2. discriminate.
  - rewrite (F2 eq_refl p1 o1 Ho1 Hc1 E) in X1. discriminate.
Qed.
Print Assumptions c100_initial_value_partial.

(** ** A model with two submodels that declare the same variable, with different values *)
Definition yx : list wevent :=
  [WNew; WNew; WNew; WOn 1 (EDeclare "x"); WOn 1 (EApply [0] 1); WOn 1 (ERegister "a" 2);
   WOn 2 (EDeclare "x"); WOn 2 (EApply [3] 1); WOn 2 (ERegister "b" 5); WAdd 0 (Some "A") None 1; WAdd 0 (Some "B") None 2].
Definition yxh : list obj := Eval vm_compute in w_heap (whistory yx).
Definition yxshp (o : nat) : shape := [2].
Definition yxum : umodel := UM [] [] [] [("A", UM [] [2] [0] []); ("B", UM [] [5] [3] [])].
Definition yxm : model := Mdl [] [] [] [] [] [] None
  [("A", None, Mdl [] [("a", [2])] [("x", [2])] [] [] [] None []); ("B", None, Mdl [] [("b", [2])] [("x", [2])] [] [] [] None [])].
Lemma yx_tree : tree 2 (whistory yx) yxshp 0 = Some (yxum, yxm).
Proof. vm_compute. reflexivity. Qed.
Lemma yx_rules : follows_rules yx.
Proof.
  assert (H : rules_from (w_count (whistory yx)) [] yx); [|intros b e a E; exact (rules_from_ok _ yx [] H b e a E)].
  let v := eval vm_compute in (w_count (whistory yx)) in change (w_count (whistory yx)) with v. unfold yx. cbn [rules_from].
  repeat (split; [first [exact I|on_rule|idtac]|]); [| |exact I].
  - exists "A". split; [reflexivity|]. split; [apply other_length; [vm_compute; discriminate|cbn; lia]|discriminate].
  - exists "B". split; [reflexivity|]. split; [apply other_length; [vm_compute; discriminate|cbn; lia]|discriminate].
Qed.
Lemma yxh_get o ob : nth_error yxh o = Some ob -> In (o, ob) (combine (seq 0 6) yxh).
Proof.
  intros E. assert (L : o < 6) by (change 6 with (length yxh); apply nth_error_Some; congruence).
  do 6 (destruct o as [|o]; [cbn in E; injection E as <-; cbn; tauto|]). lia.
Qed.
Lemma yx_finished : finished yx.
Proof.
  split; change (w_heap (whistory yx)) with yxh.
  - intros o ob E K. apply yxh_get in E. cbn in E. cases_in; injection E as <- <-; discriminate.
  - intros o ob k E K C Ow. apply yxh_get in E. cbn in E. cases_in; injection E as <- <-; try discriminate; vm_compute in Ow; injection Ow as <-;
      (eexists; split; [vm_compute; reflexivity|cbn; auto]).
  - intros k m E. destruct k as [|[|[|k]]]; vm_compute in E; [injection E as <-|injection E as <-|injection E as <-|destruct k; discriminate];
      vm_compute; repeat constructor; cbn; intuition discriminate.
  - vm_compute. discriminate.
Qed.
Lemma yx_well_formed : well_formed yxh yxum yxm yxshp.
Proof. exact (c89_well_formed yx yxshp 2 0 yxum yxm yx_rules yx_finished yx_tree). Qed.
Lemma yx_not_target : inputs_not_targets yxh yxum yxm.
Proof.
  intros p o pn (p0 & a & b & (m0 & A0 & Hc) & _) _.
  inversion A0 as [|? nm pr sm p' ? Hs A']; subst; [destruct Hc|]. cbn in Hs. destruct Hs as [E|[E|[]]]; injection E as <- <- <-;
    (inversion A' as [|? ? ? ? ? ? Hs' ?]; subst; [destruct Hc|destruct Hs']).
Qed.

(** Every set in reverse. *)
Definition backwards : iteration := Iteration (fun _ l => rev l) (fun _ l => rev l) (fun _ l => rev l).
Lemma backwards_lawful : lawful backwards.
Proof. repeat split; intros; apply Permutation_rev. Qed.
Lemma insertion_lawful : lawful insertion_order.
Proof. repeat split; intros; apply Permutation_refl. Qed.

(** C100: without that condition the value used depends on the order: both submodels give x a
    value; which of the two is used depends on the order of the set of submodels. *)
Theorem c100_initial_value_refuted : exists it it' h shp dflt um m c c' p o pn,
  well_formed h um m shp /\ inputs_not_targets h um m /\ lawful it /\ lawful it' /\
  compile_in it h shp dflt um m = Ok c /\ compile_in it' h shp dflt um m = Ok c' /\
  occurs h um p o /\ called h um m p KDeclared o pn /\ sourceless h um m pn /\
  provider h c p o <> provider h c' p o.
Proof.
  let t := eval vm_compute in (compile_in insertion_order yxh yxshp (fun _ => false) yxum yxm) in match t with Ok ?c =>
  let t' := eval vm_compute in (compile_in backwards yxh yxshp (fun _ => false) yxum yxm) in match t' with Ok ?c' =>
    exists insertion_order, backwards, yxh, yxshp, (fun _ => false), yxum, yxm, c, c', ["A"], 0, "x" end end.
  split; [exact yx_well_formed|]. split; [exact yx_not_target|]. split; [exact insertion_lawful|]. split; [exact backwards_lawful|].
  split; [vm_compute; reflexivity|]. split; [vm_compute; reflexivity|].
  split. { exists [], [2], [0], []. split; [eapply um_step; [left; reflexivity|constructor]|]. right. apply (needed_dep _ _ 1).
    - apply (needed_dep _ _ 2); [apply needed_leaf; cbn; auto|]. eexists. split; [reflexivity|cbn; auto].
    - eexists. split; [reflexivity|cbn; auto]. }
  split. { exists "x", []. split; [|split; [|reflexivity]].
    - split; [eexists; split; reflexivity|]. exists [], [2], [0], []. split; [eapply um_step; [left; reflexivity|constructor]|cbn; auto].
    - eapply pn_lifted; [left; reflexivity|constructor|exact I]. }
  split.
  - split.
    + intros p k o _ (x & q & ((ob & E & Nm) & ins & outs & decls & subs & A & Hi) & Hq & Ep).
      assert (Ex : x = "x" \/ k = KDeclared).
      { inversion A as [|? ? ? ? s sm p' m' Hs A']; subst; [destruct k; destruct Hi|]. cbn in Hs. destruct Hs as [Es|[Es|[]]]; injection Es as <- <-;
          (inversion A' as [|? ? ? ? ? ? ? ? Hs' ?]; subst; [|destruct Hs']).
        all: destruct k; cbn in Hi; [destruct Hi| |auto]; destruct Hi as [<-|[]]; vm_compute in E; injection E as <-.
        all: exfalso; inversion Hq as [|? ? ? ? ? ? Hs Hq' Lf|? ? ? ? ? ? q' Hs Hq' Lf]; subst; cbn in Hs; destruct Hs as [Es|[Es|[]]]; try discriminate; injection Es as <- <-.
        all: inversion Hq'; subst; cbn in Ep; discriminate. }
      destruct Ex as [->|Ex]; [|exact Ex].
      inversion A as [|? ? ? ? s sm p' m' Hs A']; subst; [destruct k; destruct Hi|]. cbn in Hs. destruct Hs as [Es|[Es|[]]]; injection Es as <- <-;
          (inversion A' as [|? ? ? ? ? ? ? ? Hs' ?]; subst; [|destruct Hs']).
      all: destruct k; cbn in Hi; [destruct Hi| |auto]; destruct Hi as [<-|[]]; vm_compute in E; injection E as <-; discriminate.
    + intros (p0 & a & b & (m0 & A0 & Hc) & _).
      inversion A0 as [|? nm pr sm p' ? Hs A']; subst; [destruct Hc|]. cbn in Hs. destruct Hs as [E|[E|[]]]; injection E as <- <- <-;
        (inversion A' as [|? ? ? ? ? ? Hs' ?]; subst; [destruct Hc|destruct Hs']).
  - vm_compute. discriminate.
Qed.
Print Assumptions c100_initial_value_refuted.

(** ** The hypotheses are met *)
(** With the value of A's x left to the default, both orders use B's. *)
Lemma yx_declared p o pn : called yxh yxum yxm p KDeclared o pn -> o = 0 \/ o = 3.
Proof.
  intros (x & q & (_ & ins & outs & decls & subs & A & Hi) & _).
  inversion A as [|? ? ? ? s sm p' m' Hs A']; subst; [destruct Hi|]. cbn in Hs. destruct Hs as [Es|[Es|[]]]; injection Es as <- <-;
    (inversion A' as [|? ? ? ? ? ? ? ? Hs' ?]; subst; [|destruct Hs']); cbn in Hi; destruct Hi as [<-|[]]; auto.
Qed.
Example c99_nonvacuous : exists c c', well_formed yxh yxum yxm yxshp /\ inputs_not_targets yxh yxum yxm /\ lawful insertion_order /\ lawful backwards /\
  compile_in insertion_order yxh yxshp (Nat.eqb 0) yxum yxm = Ok c /\ compile_in backwards yxh yxshp (Nat.eqb 0) yxum yxm = Ok c' /\
  values_agree yxh yxum yxm (Nat.eqb 0) (fun o => o) "x" /\ c_u2n c <> c_u2n c' /\
  provider yxh c ["A"] 0 = 3 /\ provider yxh c' ["A"] 0 = 3 /\ provider yxh c' ["B"] 3 = 3.
Proof.
  let t := eval vm_compute in (compile_in insertion_order yxh yxshp (Nat.eqb 0) yxum yxm) in match t with Ok ?c =>
  let t' := eval vm_compute in (compile_in backwards yxh yxshp (Nat.eqb 0) yxum yxm) in match t' with Ok ?c' => exists c, c' end end.
  split; [exact yx_well_formed|]. split; [exact yx_not_target|]. split; [exact insertion_lawful|]. split; [exact backwards_lawful|].
  split; [vm_compute; reflexivity|]. split; [vm_compute; reflexivity|].
  split. { intros p o p' o' _ _ Hc Hc' _ E. apply yx_declared in Hc, Hc'. destruct Hc as [->| ->], Hc' as [->| ->]; try reflexivity; discriminate. }
  split; [vm_compute; discriminate|]. repeat split; vm_compute; reflexivity.
Qed.
(** The hierarchy of Prop_Compile in both orders: the same values. *)
Example c99_values : exists c c', compile_in insertion_order cxh cxshp (fun _ => true) cxum cxm = Ok c /\ compile_in backwards cxh cxshp (fun _ => true) cxum cxm = Ok c' /\
  c_p2u c <> c_p2u c' /\
  let vals c := map (fun po => result cxh cxshp (fun _ => true) (fun o args _ => N.of_nat o + fold_left N.add args 0)%N (fun _ => 100%N) c (fst po) (snd po))
      [(["A"], 1); (["A"], 3); ([], 4); ([], 6); ([], 7); ([], 9)] in vals c = vals c'.
Proof.
  let t := eval vm_compute in (compile_in insertion_order cxh cxshp (fun _ => true) cxum cxm) in match t with Ok ?c =>
  let t' := eval vm_compute in (compile_in backwards cxh cxshp (fun _ => true) cxum cxm) in match t' with Ok ?c' => exists c, c' end end.
  split; [vm_compute; reflexivity|]. split; [vm_compute; reflexivity|]. split; [vm_compute; discriminate|vm_compute; reflexivity].
Qed.
