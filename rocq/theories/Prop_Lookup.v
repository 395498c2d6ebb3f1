(** Property theorems C104 and C105: names in a compiled model. *)
From Verif Require Import PyBase NamesModel PromotionsModel PromotionsSpec PromotionsProofs PromotionsProofs2 PromotionsProofs3 HierModel HierSpec HierProofs HierProofs2 Digraph FlatModel ExprModel ExprSpec ExprProofs2 UnflatModel UnflatSpec UnflatProofs
  FlattenModel FlattenSpec CompileModel CompileSpec CompileProofs Prop_Compile AcceptSpec Prop_Accept WorldModel WorldSpec WorldSpec2 WorldProofs4 WorldProofs7 WorldProofs8 Prop_World Prop_World2
  IterModel IterSpec IterProofs Prop_Iter LookupModel LookupProofs Prop_Rep.
From Coq Require Import Lia.
Local Open Scope string_scope.
Local Open Scope list_scope.

(** C104: a name is found in the compiled model exactly when it is the promoted or unpromoted name
    of a variable such that some needed variable has the same promoted name; what is found is
    the node in which the flat graph holds all variables with that promoted name. *)
Theorem c104_found : forall it h shp dflt um m c,
  lawful it -> well_formed h um m shp -> inputs_not_targets h um m -> compile_in it h shp dflt um m = Ok c ->
  forall name x, lookup c name = Some x <->
    exists pn p k o, resolves_to m name pn /\ occurs h um p o /\ called h um m p k o pn /\ x = node_of h c p o.
Proof.
  intros it h shp dflt um m c L WF TI H name x. unfold lookup. pose proof (name_in_rep_iff it h shp dflt um m c L WF H name) as N. split.
  - destruct (name_in_rep c name) as [pn|]; [|discriminate]. intros E. apply (node_under_iff it h shp dflt um m c L WF TI H) in E.
    destruct E as (p & k & o & E). exists pn, p, k, o. split; [apply N; reflexivity|exact E].
  - intros (pn & p & k & o & R & E). apply N in R. rewrite R. apply (node_under_iff it h shp dflt um m c L WF TI H). eauto.
Qed.
Print Assumptions c104_found.

(** C104: the value read there after running is the value the model gives to the variable, for all
    operations and supplied values; nodes that are found are in the flat graph. *)
Theorem c104_values : forall V it h shp dflt um m c (apply : nat -> list V -> nat -> V) init val,
  lawful it -> well_formed h um m shp -> inputs_not_targets h um m -> compile_in it h shp dflt um m = Ok c -> solves h um m apply init val ->
  forall name,
    (forall pn p k o, resolves_to m name pn -> occurs h um p o -> called h um m p k o pn ->
       read_value h shp dflt apply init c name = Some (val p o)) /\
    (forall v, read_value h shp dflt apply init c name = Some v ->
       exists pn p k o, resolves_to m name pn /\ occurs h um p o /\ called h um m p k o pn /\ v = val p o) /\
    (forall x, lookup c name = Some x -> node (c_graph c) x).
Proof.
  intros V it h shp dflt um m c apply init val L WF TI H SV name.
  pose proof (c104_found it h shp dflt um m c L WF TI H name) as N.
  pose proof (in_unique it h shp dflt um m c L WF TI H V apply init val SV) as U. unfold read_value. split; [|split].
  - intros pn p k o R Ho Hc. rewrite (proj2 (N (node_of h c p o))) by eauto 8. cbn. f_equal. symmetry. apply U; [exact Ho|]. eapply called_variable; eassumption.
  - intros v E. destruct (lookup c name) as [x|]; [|discriminate]. injection E as <-. destruct (proj1 (N x) eq_refl) as (pn & p & k & o & R & Ho & Hc & ->).
    exists pn, p, k, o. repeat (split; [assumption|]). symmetry. apply U; [exact Ho|]. eapply called_variable; eassumption.
  - intros x E. apply N in E. destruct E as (pn & p & k & o & R & Ho & Hc & ->). eapply node_of_in_graph; try eassumption. eapply called_variable; eassumption.
Qed.
Print Assumptions c104_values.

(** ** C105: design variables, constraints and objective *)
(** C105: the entries of the dictionaries of a compiled model are those declared anywhere in the
    hierarchy, under the promoted name of the variable that was named. *)
Theorem c105_recorded : forall it h shp dflt um m c,
  lawful it -> well_formed h um m shp -> compile_in it h shp dflt um m = Ok c ->
  (forall pn ns x, dget (c_dvs c) pn = Some (ns, x) <->
     exists p m' n1, sub_at m p m' /\ In x (m_dvs m') /\ ns = ns_of p /\ resolves_to m' x n1 /\ resolves_to m (dotted p n1) pn) /\
  (forall pn ns x, dget (c_cons c) pn = Some (ns, x) <->
     exists p m' n1, sub_at m p m' /\ In x (m_cons m') /\ ns = ns_of p /\ resolves_to m' x n1 /\ resolves_to m (dotted p n1) pn) /\
  (forall pn, c_objective c = Some pn <->
     exists p m' x n1, sub_at m p m' /\ m_obj m' = Some x /\ resolves_to m' x n1 /\ resolves_to m (dotted p n1) pn).
Proof.
  intros it h shp dflt um m c L WF H. destruct (@compile_in_compiles _ _ _ _ _ _ _ L H) as (c0 & (r & u & g & g1 & R & _ & _ & _ & _ & _ & _ & _ & _ & DV & CT & m2 & OB) & S).
  rewrite <- (sp_dvs S), <- (sp_cons S), <- (sp_objective S). pose proof (f_named WF) as W.
  assert (Hm : exists mp, maps_of m = Ok mp) by (unfold maps_of; rewrite R; cbn; eauto). destruct Hm as (mp & Hm).
  unfold rep_design_variables in DV. unfold rep_constraints in CT. rewrite Hm in DV, CT. cbn [bind] in DV, CT.
  split; [exact (collect_opt_iff _ _ _ _ W Hm DV)|]. split; [exact (collect_opt_iff _ _ _ _ W Hm CT)|].
  intros pn. pose proof (objective_unique _ _ _ W OB) as OU. unfold obj_owners in OU.
  assert (In_o : forall p m', In (p, m') (filter has_obj (preorder m)) <-> sub_at m p m' /\ exists x, m_obj m' = Some x).
  { intros p m'. rewrite filter_In, preorder_spec, has_obj_eq. cbn [snd]. destruct (m_obj m'); split; intros [A B]; split; auto; [eauto|discriminate|destruct B; discriminate]. }
  destruct (filter has_obj (preorder m)) as [|[p m'] [|]]; [| |destruct OU].
  - rewrite OU. split; [discriminate|]. intros (p & m' & x & n1 & Hs & Ho & _). exfalso. apply (proj2 (In_o p m')). split; eauto.
  - destruct OU as (k & n1 & n2 & Ok' & R1 & R2 & ->). destruct (proj1 (In_o p m') (or_introl eq_refl)) as [Hs _]. split.
    + intros E. injection E as <-. exists p, m', k, n1. auto.
    + intros (p' & m'' & x & n1' & Hs' & Ho' & R1' & R2'). destruct (proj2 (In_o p' m'') (conj Hs' (ex_intro _ _ Ho'))) as [E|[]]. injection E as <- <-.
      rewrite Ok' in Ho'. injection Ho' as <-. destruct (maps_sub _ _ _ _ Hm Hs) as (mp' & Hm').
      rewrite (resolves_fun _ _ _ _ _ (well_named_sub_at _ _ _ Hs W) Hm' R1 R1') in R2. rewrite (resolves_fun _ _ _ _ _ W Hm R2 R2'). reflexivity.
Qed.
Print Assumptions c105_recorded.

(** A path leads to one submodel. *)
Lemma sub_at_fun m p m1 m2 : well_named m -> sub_at m p m1 -> sub_at m p m2 -> m1 = m2.
Proof.
  intros W A. revert W m2. induction A as [m|m nm pr sm p m' Hs A IH]; intros W m2 B; [symmetry; apply sub_at_nil, B|].
  apply sub_at_cons in B. destruct B as (pr' & sm' & Hs' & B). destruct (W [] m (sub_here _)) as (ND & _ & _).
  assert (E : (nm, pr, sm) = (nm, pr', sm')).
  { clear - ND Hs Hs'. induction (m_subs m) as [|x l IHl]; [destruct Hs|]. cbn in ND. inversion ND as [|? ? N1 N2]; subst. destruct Hs as [->|Hs], Hs' as [E|Hs']; auto.
    - exfalso. apply N1. change nm with (fst (fst (nm, pr', sm'))). exact (in_map (fun t => fst (fst t)) _ _ Hs').
    - subst x. exfalso. apply N1. change nm with (fst (fst (nm, pr, sm))). exact (in_map (fun t => fst (fst t)) _ _ Hs). }
  injection E as <- <-. apply IH; [|exact B]. eapply well_named_sub; eassumption.
Qed.
(** Design variables are names of inputs, after every program. *)
Lemma design_inputs l : follows_rules l -> forall k n, In n (wm_dvs (the_model l k)) -> exists i, In i (wm_ins (the_model l k)) /\ name_of l i = n.
Proof.
  induction l as [|e l IH] using rev_ind; intros FR k n Hn; [rewrite the_model_nil in Hn; destruct Hn|].
  pose proof (proj1 (@rules_snoc l e FR)) as FRl.
  assert (K : forall i, In i (wm_ins (the_model l k)) -> In i (wm_ins (the_model (l ++ [e]) k)) /\ name_of (l ++ [e]) i = name_of l i).
  { intros i Hi. apply (proj1 (c90_inputs l FRl k i)) in Hi. destruct Hi as [O Ki]. unfold WorldSpec2.kind_of in Ki.
    destruct (nth_error (w_heap (whistory l)) i) as [ob|] eqn:E; [|discriminate]. cbn in Ki. injection Ki as Ki.
    destruct (@step_object l e FR i ob E) as (ob' & E' & K' & N'). split.
    - apply (proj1 (c90_inputs _ FR k i)). split; [apply owner_kept, O|]. unfold WorldSpec2.kind_of. rewrite E'. cbn. congruence.
    - unfold name_of, name_in. rewrite E, E'. destruct N' as [N'|(j & n' & -> & NO & N')]; [exact N'|].
      rewrite whistory_snoc in E'. destruct (created_dec l j) as [C|C]; [|cbn [wstep] in E'; rewrite (model_none C) in E'; congruence].
      rewrite (@wstep_on _ _ _ _ (model_some C)) in E' by discriminate. cbn [put w_heap bstep] in E'.
      destruct (@register_spec (view (whistory l) (the_model l j)) n' i) as [[R _]|[_ Eq]].
      + destruct R as (_ & R & _). unfold kind_is in R. cbn in R. rewrite E in R. unfold is_output in R. rewrite Ki in R. discriminate.
      + rewrite Eq in E'. cbn in E'. congruence. }
  apply c90_design in Hn. apply called_snoc in Hn. destruct Hn as [Hn|[_ (i & Hi & En)]].
  - destruct (IH FRl k n) as (i & Hi & En); [apply c90_design; exact Hn|]. destruct (K i Hi). exists i. split; [assumption|congruence].
  - destruct (K i Hi). exists i. split; [assumption|congruence].
Qed.

(** C105: in a compiled program every design variable is an input, found under its name; its value is
    the one supplied. *)
Theorem c105_design_variables : forall V it l shp dflt f k um m c (apply : nat -> list V -> nat -> V) init,
  let h := w_heap (whistory l) in
  lawful it -> follows_rules l -> finished l -> tree f (whistory l) shp k = Some (um, m) -> inputs_not_targets h um m -> compile_in it h shp dflt um m = Ok c ->
  forall pn ns x, dget (c_dvs c) pn = Some (ns, x) ->
    exists p o, ns = ns_of p /\ member h um p KInput o x /\ called h um m p KInput o pn /\
      lookup c pn = Some (NObj p o) /\ node (c_graph c) (NObj p o) /\ read_value h shp dflt apply init c pn = Some (init pn).
Proof.
  intros V it l shp dflt f k um m c apply init h L FR FI T TI H pn ns x E. pose proof (c89_well_formed l shp f k um m FR FI T) as WF. fold h in WF.
  apply (c105_recorded it h shp dflt um m c L WF H) in E. destruct E as (p & m' & n1 & Hs & Hx & -> & R1 & R2).
  destruct (c90_hierarchy _ _ _ _ _ _ T) as (G1 & _ & G3). destruct (G3 _ _ Hs) as (j & Lj). destruct (G1 _ _ Lj) as (mj & um' & m1 & Ej & U & Hs1 & RM).
  pose proof (f_named WF) as W. assert (m1 = m') as -> by (eapply sub_at_fun; eassumption).
  destruct RM as ((subs & -> & _) & EI & _ & _ & _ & ED & _). rewrite ED in Hx.
  assert (EM : the_model l j = mj) by (unfold the_model; rewrite Ej; reflexivity).
  destruct (design_inputs l FR j x) as (o & Ho & Nx); [rewrite EM; exact Hx|]. rewrite EM in Ho.
  assert (Hv : exists kd s, In (x, s) (vars kd m')).
  { exists KInput, (shp o). cbn [vars]. rewrite EI. apply in_map_iff. exists o. split; [|exact Ho]. unfold name_of in Nx. rewrite Nx. reflexivity. }
  destruct (local_resolves m p m' x W Hs Hv) as [LR1 LR2]. rewrite (LR1 _ R1) in R2. destruct (LR2 _ R2) as (q & Hq & ->).
  assert (Hb : exists ob, nth_error h o = Some ob).
  { pose proof (proj1 (proj1 (c90_inputs l FR j o))) as K. rewrite EM in K. specialize (K Ho). destruct K as [_ K]. unfold WorldSpec2.kind_of in K. fold h in K. destruct (nth_error h o); [eauto|discriminate]. }
  assert (Hm : member h um p KInput o x).
  { split; [|exists (wm_ins mj), (wm_outs mj), (wm_decls mj), subs; auto]. destruct Hb as (ob & Eb). exists ob. split; [exact Eb|]. unfold name_of, name_in in Nx. fold h in Nx. rewrite Eb in Nx. exact Nx. }
  assert (Hc : called h um m p KInput o (dotted q x)) by (exists x, q; auto).
  assert (Oc : occurs h um p o) by (eapply called_occurs; [exact WF|exact Hc|discriminate]).
  assert (Vo : variable h o) by (eapply called_variable; eassumption).
  assert (No : node_of h c p o = NObj p o).
  { eapply node_of_source; try eassumption. eapply not_declared; [exact WF| |exact Hc]. discriminate. }
  assert (Rn : resolves_to m (dotted q x) (dotted q x)).
  { exists p, KInput, x, (shp o), q. split; [|auto]. exists m'. split; [exact Hs|]. cbn [vars]. rewrite EI. apply in_map_iff. exists o. split; [|exact Ho]. unfold name_of in Nx. rewrite Nx. reflexivity. }
  exists p, o. split; [reflexivity|]. split; [exact Hm|]. split; [exact Hc|].
  assert (LK : lookup c (dotted q x) = Some (NObj p o)) by (apply (c104_found it h shp dflt um m c L WF TI H); exists (dotted q x), p, KInput, o; auto).
  split; [exact LK|]. split; [rewrite <- No; eapply node_of_in_graph; eassumption|].
  pose proof (in_solves it h shp dflt um m c L WF TI H V apply init) as SV.
  destruct (c104_values V it h shp dflt um m c apply init _ L WF TI H SV (dotted q x)) as (RV & _). rewrite (RV _ _ _ _ Rn Oc Hc). f_equal.
  eapply s_inputs; [exact SV|exact Hc].
Qed.
Print Assumptions c105_design_variables.

(** C105: a constraint or objective is a variable of the hierarchy; unless it is a declared
    variable that nothing uses, it is found and what is read is its value. *)
Theorem c105_constraints_objective_partial : forall V it h shp dflt um m c (apply : nat -> list V -> nat -> V) init val,
  lawful it -> well_formed h um m shp -> inputs_not_targets h um m -> compile_in it h shp dflt um m = Ok c -> solves h um m apply init val ->
  forall pn, (In pn (dkeys (c_cons c)) \/ c_objective c = Some pn) ->
    (exists p k o, called h um m p k o pn) /\
    forall p k o, called h um m p k o pn -> (k <> KDeclared \/ occurs h um p o) ->
      lookup c pn = Some (node_of h c p o) /\ read_value h shp dflt apply init c pn = Some (val p o).
Proof.
  intros V it h shp dflt um m c apply init val L WF TI H SV pn D. destruct (c105_recorded it h shp dflt um m c L WF H) as (_ & RC & RO).
  assert (E : exists p n1, resolves_to m (dotted p n1) pn).
  { destruct D as [D|D].
    - unfold dkeys in D. apply in_map_iff in D. destruct D as ([pn' [ns x]] & E & D). cbn in E. subst pn'.
      assert (Hg : exists v, dget (c_cons c) pn = Some v).
      { clear - D. induction (c_cons c) as [|[a b] r IH]; [destruct D|]. cbn. destruct (String.eqb pn a) eqn:Ea; [eauto|]. destruct D as [D|D]; [|auto].
        injection D as -> _. rewrite String.eqb_refl in Ea. discriminate. }
      destruct Hg as ([ns' x'] & Hg). apply RC in Hg. destruct Hg as (p & m' & n1 & _ & _ & _ & _ & R2). eauto.
    - apply RO in D. destruct D as (p & m' & x & n1 & _ & _ & _ & R2). eauto. }
  destruct E as (p0 & n1 & R2). assert (Rn : resolves_to m pn pn).
  { destruct R2 as (p & k & x & s & q & Hv & Hq & -> & _). exists p, k, x, s, q. auto. }
  split; [eapply resolved_called; [exact (f_hierarchy WF)|exact Rn]|]. intros p k o Hc K.
  assert (Oc : occurs h um p o) by (destruct K as [K|K]; [eapply called_occurs; eassumption|exact K]).
  split; [apply (c104_found it h shp dflt um m c L WF TI H); exists pn, p, k, o; auto|].
  destruct (c104_values V it h shp dflt um m c apply init _ L WF TI H SV pn) as (RV & _). exact (RV _ _ _ _ Rn Oc Hc).
Qed.
Print Assumptions c105_constraints_objective_partial.

(** ** A model with a submodel A, design variables, constraints, an objective, and an unused
    declared variable u *)
Definition lx : list wevent :=
  [WNew; WNew; WOn 1 (EInput "s"); WOn 1 (EApply [0] 1); WOn 1 (ERegister "a" 2); WDesign 1 "s"; WOn 0 (EInput "x"); WOn 0 (EDeclare "u"); WOn 0 (EApply [3] 1); WOn 0 (ERegister "z" 6);
   WDesign 0 "x"; WConstraint 0 "u"; WConstraint 0 "A.a"; WObjective 0 "z"; WAdd 0 (Some "A") (Some ["a"]) 1].
Definition lxh : list obj := Eval vm_compute in w_heap (whistory lx).
Definition lxum : umodel := UM [3] [6] [4] [("A", UM [0] [2] [] [])].
Definition lxm : model := Mdl [("x", [2])] [("z", [2])] [("u", [2])] [] ["x"] ["u"; "A.a"] (Some "z")
  [("A", Some ["a"], Mdl [("s", [2])] [("a", [2])] [] [] ["s"] [] None [])].
Lemma lx_tree : tree 2 (whistory lx) yxshp 0 = Some (lxum, lxm).
Proof. vm_compute. reflexivity. Qed.
Lemma lx_rules : follows_rules lx.
Proof.
  assert (H : rules_from (w_count (whistory lx)) [] lx); [|intros b e a E; exact (rules_from_ok _ lx [] H b e a E)].
  let v := eval vm_compute in (w_count (whistory lx)) in change (w_count (whistory lx)) with v. unfold lx. cbn [rules_from].
  repeat (split; [first [exact I|on_rule|idtac]|]); [|exact I].
  exists "A". split; [reflexivity|]. split; [apply other_length; [vm_compute; discriminate|cbn; lia]|discriminate].
Qed.
Lemma lxh_get o ob : nth_error lxh o = Some ob -> In (o, ob) (combine (seq 0 7) lxh).
Proof.
  intros E. assert (L : o < 7) by (change 7 with (length lxh); apply nth_error_Some; congruence).
  do 7 (destruct o as [|o]; [cbn in E; injection E as <-; cbn; tauto|]). lia.
Qed.
Lemma lx_finished : finished lx.
Proof.
  split; change (w_heap (whistory lx)) with lxh.
  - intros o ob E K. apply lxh_get in E. cbn in E. cases_in; injection E as <- <-; discriminate.
  - intros o ob k E K C Ow. apply lxh_get in E. cbn in E. cases_in; injection E as <- <-; try discriminate; vm_compute in Ow; injection Ow as <-;
      (eexists; split; [vm_compute; reflexivity|cbn; auto]).
  - intros k m E. destruct k as [|[|k]]; vm_compute in E; [injection E as <-|injection E as <-|destruct k; discriminate];
      vm_compute; repeat constructor; cbn; intuition discriminate.
  - vm_compute. discriminate.
Qed.
Lemma lx_well_formed : well_formed lxh lxum lxm yxshp.
Proof. exact (c89_well_formed lx yxshp 2 0 lxum lxm lx_rules lx_finished lx_tree). Qed.
Lemma lx_not_target : inputs_not_targets lxh lxum lxm.
Proof.
  intros p o pn (p0 & a & b & (m0 & A0 & Hc) & _) _.
  inversion A0 as [|? nm pr sm p' ? Hs A']; subst; [destruct Hc|]. cbn in Hs. destruct Hs as [E|[]]; injection E as <- <- <-;
    (inversion A' as [|? ? ? ? ? ? Hs' ?]; subst; [destruct Hc|destruct Hs']).
Qed.
(** What is declared and what is found: "u" is a constraint for which no value can be read. *)
Example c105_nonvacuous : exists c, lawful insertion_order /\ follows_rules lx /\ finished lx /\ tree 2 (whistory lx) yxshp 0 = Some (lxum, lxm) /\ inputs_not_targets lxh lxum lxm /\
  compile_in insertion_order lxh yxshp (fun _ => true) lxum lxm = Ok c /\
  c_dvs c = [("x", ("", "x")); ("A.s", ("A", "s"))] /\ c_cons c = [("u", ("", "u")); ("a", ("", "A.a"))] /\ c_objective c = Some "z" /\
  map (lookup c) ["x"; "A.s"; "a"; "A.a"; "z"; "u"; "s"] = [Some (NObj [] 3); Some (NObj ["A"] 0); Some (NObj ["A"] 2); Some (NObj ["A"] 2); Some (NObj [] 6); None; None].
Proof.
  let t := eval vm_compute in (compile_in insertion_order lxh yxshp (fun _ => true) lxum lxm) in match t with Ok ?c => exists c end.
  split; [exact insertion_lawful|]. split; [exact lx_rules|]. split; [exact lx_finished|]. split; [exact lx_tree|]. split; [exact lx_not_target|].
  split; [vm_compute; reflexivity|]. repeat split; vm_compute; reflexivity.
Qed.
(** The theorem for constraints and objectives cannot be had for all variables: a constraint
    on a declared variable that nothing uses is accepted, and its value cannot be read. *)
Theorem c105_unused_refuted : exists l it shp dflt f k um m c pn,
  follows_rules l /\ finished l /\ tree f (whistory l) shp k = Some (um, m) /\ inputs_not_targets (w_heap (whistory l)) um m /\ lawful it /\
  compile_in it (w_heap (whistory l)) shp dflt um m = Ok c /\ In pn (dkeys (c_cons c)) /\ lookup c pn = None.
Proof.
  exists lx, insertion_order, yxshp, (fun _ => true), 2, 0, lxum, lxm. change (w_heap (whistory lx)) with lxh.
  let t := eval vm_compute in (compile_in insertion_order lxh yxshp (fun _ => true) lxum lxm) in match t with Ok ?c => exists c, "u" end.
  split; [exact lx_rules|]. split; [exact lx_finished|]. split; [exact lx_tree|]. split; [exact lx_not_target|]. split; [exact insertion_lawful|].
  split; [vm_compute; reflexivity|]. split; vm_compute; auto.
Qed.
Print Assumptions c105_unused_refuted.
(** The hierarchy of Prop_Compile: x of A is found in the input x, w in its connection's source z,
    and for addition the value read under "z" can be computed. *)
Example c104_nonvacuous : exists c, lawful backwards /\ well_formed cxh cxum cxm cxshp /\ inputs_not_targets cxh cxum cxm /\
  compile_in backwards cxh cxshp (fun _ => false) cxum cxm = Ok c /\
  map (lookup c) ["x"; "A.x"; "z"; "w"; "q"] = [Some (NObj [] 0); Some (NObj [] 0); Some (NObj [] 6); Some (NObj [] 6); None].
Proof.
  let t := eval vm_compute in (compile_in backwards cxh cxshp (fun _ => false) cxum cxm) in match t with Ok ?c => exists c end.
  split; [exact backwards_lawful|]. split; [exact cx_well_formed|]. split; [exact cx_not_target|]. split; vm_compute; reflexivity.
Qed.
