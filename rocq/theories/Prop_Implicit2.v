(** Property theorem C98: the dependencies recorded for residuals and exposed variables are what
    their values depend on. *)
From Verif Require Import PyBase NamesModel NamesProofs PromotionsModel PromotionsSpec HierModel HierSpec ExprModel ExprSpec UnflatModel UnflatSpec FlattenSpec
  CompileModel CompileSpec CompileProofs Prop_Compile WorldModel WorldSpec WorldProofs Prop_World ApiModel
  ExprProofs2 ImplicitModel ImplicitSpec ImplicitSpec2 ImplicitProofs ImplicitProofs2 ImplicitValues Prop_Implicit.
Local Open Scope string_scope.
Local Open Scope list_scope.

(** The model with number [k] of a program, as create_implicit_operation receives it. *)
Definition internal_model (l : list wevent) (shp : nat -> shape) (w : wmodel) : imodel :=
  IModel (w_heap (whistory l)) shp (wm_ins w) (wm_decls w) (wm_outs w).

Lemma tree_root f w shp k wm um m : nth_error (w_models w) k = Some wm -> tree f w shp k = Some (um, m) ->
  exists subs, um = UM (wm_ins wm) (wm_outs wm) (wm_decls wm) subs.
Proof.
  destruct f as [|f]; [discriminate|]. cbn [tree]. intros ->. destruct (all_some _) as [cs|]; [|discriminate].
  intros E. injection E as <- _. eauto.
Qed.

(** C98: changing arguments and states that are not recorded for a residual (or an exposed
    variable) does not change its value: partial, because every variable the expression of the
    residual uses has to be given from outside, none computed by a submodel of the internal model
    or connected. *)
Theorem c98_recorded_dependencies_partial : forall V l shp dflt f k w um m c (apply : nat -> list V -> nat -> V) init init' args states residuals expose mp,
  let h := w_heap (whistory l) in
  follows_rules l -> finished l -> nth_error (w_models (whistory l)) k = Some w ->
  tree f (whistory l) shp k = Some (um, m) -> inputs_not_targets h um m -> compile h shp dflt um m = Ok c ->
  generate_maps (internal_model l shp w) args states residuals expose = Ok mp ->
  (forall n, ~ In n (map fst args) -> ~ In n states -> init n = init' n) ->
  (forall s r deps, dget (out_res mp) s = Some r -> dget (out_in mp) s = Some deps ->
     (forall v, inputs_of h r v -> supplied h um m v) ->
     (forall v, In v deps -> init (name_of h v) = init' (name_of h v)) ->
     result h shp dflt apply init c [] r = result h shp dflt apply init' c [] r) /\
  (forall e r deps, In e expose -> registered (internal_model l shp w) e r -> dget (exp_in mp) e = Some deps ->
     (forall v, inputs_of h r v -> supplied h um m v) ->
     (forall v, In v deps -> init (name_of h v) = init' (name_of h v)) ->
     result h shp dflt apply init c [] r = result h shp dflt apply init' c [] r).
Proof.
  intros V l shp dflt f k w um m c apply init init' args states residuals expose mp h FR FI W T TI CO G Same.
  destruct (generate_maps_Ok _ _ _ _ _ _ G) as [A R].
  pose proof (c89_well_formed _ _ _ _ _ _ FR FI T) as WF. fold h in WF.
  destruct (tree_root _ _ _ _ _ _ _ W T) as [subs ->].
  assert (Reg : forall e r, registered (internal_model l shp w) e r -> In r (wm_outs w)).
  { intros e r (a & b & E & _). cbn in E. rewrite E. apply in_app_iff. right. now left. }
  assert (Core : forall r deps, In r (wm_outs w) ->
    (forall v, In v deps <-> inputs_of h r v /\ (In (name_of h v) (map fst args) \/ In (name_of h v) states)) ->
    (forall v, inputs_of h r v -> supplied h (UM (wm_ins w) (wm_outs w) (wm_decls w) subs) m v) ->
    (forall v, In v deps -> init (name_of h v) = init' (name_of h v)) ->
    result h shp dflt apply init c [] r = result h shp dflt apply init' c [] r).
  { intros r deps Ir Hd Hs He. eapply determined; try eassumption. intros v Hv. split; [now apply Hs|].
    destruct (in_dec string_dec (name_of h v) (map fst args)) as [I1|N1]; [apply He, Hd; auto|].
    destruct (in_dec string_dec (name_of h v) states) as [I2|N2]; [apply He, Hd; auto|]. now apply Same. }
  split.
  - intros s r deps Er Ed.
    assert (Is : In s states).
    { rewrite <- (rec_states _ _ _ _ _ _ R). eapply dget_Some_key; exact Er. }
    apply In_nth_error in Is as Ns. destruct Ns as [j Ej].
    assert (Lj : j < length residuals). { rewrite <- (as_many _ _ _ _ _ A). apply nth_error_Some. congruence. }
    apply nth_error_Some in Lj. destruct (nth_error residuals j) as [rn|] eqn:Erj; [|congruence].
    destruct (states_declared _ _ _ _ _ A s Is) as [sv Hsv].
    destruct (residuals_registered _ _ _ _ _ A rn (nth_error_In _ _ Erj)) as [rv Hrv].
    assert (SP : state_pair (internal_model l shp w) states residuals s rn sv rv) by (exists j; auto).
    destruct (rec_pairs _ _ _ _ _ _ R _ _ _ _ SP) as [P1 _]. rewrite Er in P1. injection P1 as <-.
    destruct (rec_inputs _ _ _ _ _ _ R _ _ _ _ SP) as (l0 & E0 & H0). rewrite Ed in E0. injection E0 as <-.
    apply Core; [exact (Reg _ _ Hrv)|exact H0].
  - intros e r deps Ie Hr Ed. destruct (rec_exposed _ _ _ _ _ _ R _ _ Ie Hr) as (l0 & E0 & H0). rewrite Ed in E0. injection E0 as <-.
    apply Core; [exact (Reg _ _ Hr)|exact H0].
Qed.
Print Assumptions c98_recorded_dependencies_partial.

(** ** An internal model with a submodel *)
(** Submodel S: declared a, registered b computed from a.  Internal model: declared x, a, b; the
    residual r is computed from x and b; S is added with all its variables promoted. *)
Definition with_sub : list wevent :=
  [WNew; WNew; WOn 1 (EDeclare "a"); WOn 1 (EApply [0] 1); WOn 1 (ERegister "b" 2); WOn 0 (EDeclare "x"); WOn 0 (EDeclare "a"); WOn 0 (EDeclare "b");
   WOn 0 (EApply [3; 5] 1); WOn 0 (ERegister "r" 7); WAdd 0 (Some "S") None 1].
(** Internal model without submodels: declared x, a, b; r is computed from x and b. *)
Definition alone : list wevent :=
  [WNew; WOn 0 (EDeclare "x"); WOn 0 (EDeclare "a"); WOn 0 (EDeclare "b"); WOn 0 (EApply [0; 2] 1); WOn 0 (ERegister "r" 4)].
Definition ones (_ : nat) : shape := [1].
Definition not_given (_ : nat) : bool := false.
(** Every operation computes the sum of its arguments. *)
Definition sums (_ : nat) (args : list nat) (_ : nat) : nat := fold_right Nat.add 0 args.
Definition zeros (_ : string) : nat := 0.
Definition a_is_one (n : string) : nat := if String.eqb n "a" then 1 else 0.

Ltac concrete_rules wl :=
  let H := fresh in
  assert (H : rules_from (w_count (whistory wl)) [] wl); [|let b := fresh in let e := fresh in let a := fresh in let E := fresh in intros b e a E; exact (rules_from_ok _ wl [] H b e a E)];
  let v := eval vm_compute in (w_count (whistory wl)) in change (w_count (whistory wl)) with v; unfold wl; cbn [rules_from]; repeat (split; [first [exact I|on_rule|idtac]|]); [..|exact I].
Lemma with_sub_rules : follows_rules with_sub.
Proof.
  concrete_rules with_sub.
  exists "S". split; [reflexivity|]. split; [apply other_length; [vm_compute; discriminate|cbn; lia]|discriminate].
Qed.
Lemma alone_rules : follows_rules alone.
Proof.
  assert (H : rules_from (w_count (whistory alone)) [] alone); [|intros b e a E; exact (rules_from_ok _ alone [] H b e a E)].
  let v := eval vm_compute in (w_count (whistory alone)) in change (w_count (whistory alone)) with v. unfold alone. cbn [rules_from].
  repeat (split; [first [exact I|on_rule]|]). exact I.
Qed.
Ltac concrete_finished :=
  split;
  [ intros o ob E K; vm_compute in E; repeat (destruct o as [|o]; [injection E as <-; discriminate|]); destruct o; discriminate
  | intros o ob k E K C Ow; vm_compute in E;
    repeat (destruct o as [|o]; [injection E as <-; try discriminate; vm_compute in Ow; injection Ow as <-; (eexists; split; [vm_compute; reflexivity|cbn; auto])|]); destruct o; discriminate
  | intros k m E; vm_compute in E; repeat (destruct k as [|k]; [injection E as <-; vm_compute; repeat constructor; cbn; intuition discriminate|]); destruct k; discriminate
  | vm_compute; discriminate ].
Lemma with_sub_finished : finished with_sub.
Proof. concrete_finished. Qed.
Lemma alone_finished : finished alone.
Proof. concrete_finished. Qed.

Lemma no_inputs_no_targets h um m : (forall p o pn, ~ called h um m p KInput o pn) -> inputs_not_targets h um m.
Proof. intros H p o pn _. apply H. Qed.
Lemma um_at_two a b c s x y z p um : um_at (UM a b c [(s, UM x y z [])]) p um -> (p = [] /\ um = UM a b c [(s, UM x y z [])]) \/ (p = [s] /\ um = UM x y z []).
Proof.
  intros H. inversion H as [|? ? ? ? s' sm p' m' I H']; subst; [now left|right]. destruct I as [I|[]]. injection I as <- <-.
  inversion H' as [|? ? ? ? ? ? ? ? I2 _]; subst; [auto|destruct I2].
Qed.

Definition sub_root : umodel * model := match tree 2 (whistory with_sub) ones 0 with Some t => t | None => (UM [] [] [] [], Mdl [] [] [] [] [] [] None []) end.
Lemma with_sub_no_targets : inputs_not_targets (w_heap (whistory with_sub)) (fst sub_root) (snd sub_root).
Proof.
  apply no_inputs_no_targets. intros p o pn (x & q & (_ & a & b & c & d & U & I) & _).
  assert (E : fst sub_root = UM [] [7] [3; 4; 5] [("S", UM [] [2] [0] [])]) by (vm_compute; reflexivity). rewrite E in U.
  apply um_at_two in U as [[_ U]|[_ U]]; injection U as -> -> -> ->; destruct I.
Qed.

(** C98 fails when a submodel of the internal model computes what the residual uses: the operation
    is accepted with argument a and state x, only x is recorded for the residual r, but changing
    a alone changes r. *)
Theorem c98_recorded_dependencies_refuted : exists w um m c mp r,
  let h := w_heap (whistory with_sub) in
  follows_rules with_sub /\ finished with_sub /\ nth_error (w_models (whistory with_sub)) 0 = Some w /\
  tree 2 (whistory with_sub) ones 0 = Some (um, m) /\ inputs_not_targets h um m /\ compile h ones not_given um m = Ok c /\
  generate_maps (internal_model with_sub ones w) [("a", [1])] ["x"] ["r"] [] = Ok mp /\
  dget (out_res mp) "x" = Some r /\ (exists deps, dget (out_in mp) "x" = Some deps /\ map (name_of h) deps = ["x"]) /\
  (forall n, n <> "a" -> zeros n = a_is_one n) /\
  result h ones not_given sums zeros c [] r <> result h ones not_given sums a_is_one c [] r.
Proof.
  eexists _, (fst sub_root), (snd sub_root), _, _, _. cbn zeta.
  split; [exact with_sub_rules|]. split; [exact with_sub_finished|]. split; [vm_compute; reflexivity|].
  split; [vm_compute; reflexivity|]. split; [exact with_sub_no_targets|]. split; [vm_compute; reflexivity|].
  split; [vm_compute; reflexivity|]. split; [vm_compute; reflexivity|]. split; [eexists; split; vm_compute; reflexivity|].
  split. { intros n Hn. unfold zeros, a_is_one. destruct (String.eqb_spec n "a"); [contradiction|reflexivity]. }
  vm_compute. discriminate.
Qed.
Print Assumptions c98_recorded_dependencies_refuted.

(** C98 fails in the other direction too: with a as the state, the operation is rejected because
    "the residual does not depend on the state", although the value of r changes with a. *)
Theorem c98_depends_on_state_refuted : exists w um m c r,
  let h := w_heap (whistory with_sub) in
  follows_rules with_sub /\ finished with_sub /\ nth_error (w_models (whistory with_sub)) 0 = Some w /\
  tree 2 (whistory with_sub) ones 0 = Some (um, m) /\ inputs_not_targets h um m /\ compile h ones not_given um m = Ok c /\
  registered (internal_model with_sub ones w) "r" r /\
  generate_maps (internal_model with_sub ones w) [("x", [1])] ["a"] ["r"] [] = Err ValueError /\
  generate_maps (internal_model with_sub ones w) [] ["x"] ["r"] [] <> Err ValueError /\
  (forall n, n <> "a" -> zeros n = a_is_one n) /\
  result h ones not_given sums zeros c [] r <> result h ones not_given sums a_is_one c [] r.
Proof.
  eexists _, (fst sub_root), (snd sub_root), _, 7. cbn zeta.
  split; [exact with_sub_rules|]. split; [exact with_sub_finished|]. split; [vm_compute; reflexivity|].
  split; [vm_compute; reflexivity|]. split; [exact with_sub_no_targets|]. split; [vm_compute; reflexivity|].
  split. { exists [], []. split; [reflexivity|]. split; [vm_compute; reflexivity|]. intros v []. }
  split; [vm_compute; reflexivity|]. split; [vm_compute; discriminate|].
  split. { intros n Hn. unfold zeros, a_is_one. destruct (String.eqb_spec n "a"); [contradiction|reflexivity]. }
  vm_compute. discriminate.
Qed.
Print Assumptions c98_depends_on_state_refuted.

(** A case of the positive theorem: r depends on x and b, not on the argument a. *)
Example c98_nonvacuous : exists w um m c mp r deps,
  let h := w_heap (whistory alone) in
  follows_rules alone /\ finished alone /\ nth_error (w_models (whistory alone)) 0 = Some w /\
  tree 1 (whistory alone) ones 0 = Some (um, m) /\ inputs_not_targets h um m /\ compile h ones not_given um m = Ok c /\
  generate_maps (internal_model alone ones w) [("a", [1]); ("b", [1])] ["x"] ["r"] [] = Ok mp /\
  dget (out_res mp) "x" = Some r /\ dget (out_in mp) "x" = Some deps /\ map (name_of h) deps = ["x"; "b"] /\
  (forall v, inputs_of h r v -> supplied h um m v) /\ (forall v, In v deps -> zeros (name_of h v) = a_is_one (name_of h v)) /\
  result h ones not_given sums (fun n => if String.eqb n "b" then 1 else 0) c [] r <> result h ones not_given sums zeros c [] r.
Proof.
  destruct (tree 1 (whistory alone) ones 0) as [[um m]|] eqn:T; [|vm_compute in T; discriminate].
  pose proof T as T0. vm_compute in T. injection T as <- <-.
  assert (U1 : forall p um', um_at (UM [] [4] [0; 1; 2] []) p um' -> p = [] /\ um' = UM [] [4] [0; 1; 2] []).
  { intros p um' U. inversion U as [|? ? ? ? ? ? ? ? I _]; subst; [auto|destruct I]. }
  eexists _, _, _, _, _, _, _. cbn zeta.
  split; [exact alone_rules|]. split; [exact alone_finished|]. split; [vm_compute; reflexivity|].
  split; [reflexivity|].
  split. { apply no_inputs_no_targets. intros p o pn (x & q & (_ & a & b & c & d & U & I) & _). apply U1 in U as [_ U]. injection U as -> -> -> ->. destruct I. }
  split; [vm_compute; reflexivity|]. split; [vm_compute; reflexivity|].
  split; [vm_compute; reflexivity|]. split; [vm_compute; reflexivity|]. split; [vm_compute; reflexivity|].
  split.
  - intros v Hv. destruct (c32_terminals_exact (w_heap (whistory alone)) 4) as (ts & E & _ & X). vm_compute in E. injection E as <-.
    apply X in Hv. 
    assert (Hn : exists n, named (w_heap (whistory alone)) v n /\ n <> "r").
    { destruct Hv as [<-|[<-|[]]]; (eexists; split; [eexists; split; [vm_compute; reflexivity|reflexivity]|discriminate]). }
    destruct Hn as (n & Hn & Nr). exists n. split; [exact Hn|]. split.
    + intros p k o (x & q & ((ob & Eo & Ex) & a & b & c & d & U & I) & PN & En). apply U1 in U as [-> U]. injection U as -> -> -> ->.
      inversion PN; subst. destruct k; [destruct I| |reflexivity]. destruct I as [<-|[]]. vm_compute in Eo. injection Eo as <-. exfalso. apply Nr. reflexivity.
    + intros (p & a & b & (m' & S & I) & _). inversion S as [|? ? ? ? ? ? I' _]; subst; [destruct I|destruct I'].
  - split; [intros v [<-|[<-|[]]]; vm_compute; reflexivity|]. vm_compute. discriminate.
Qed.
