(** Property theorems C110: the order of declarations does not matter. *)
From Verif Require Import PyBase NamesModel PromotionsModel PromotionsSpec HierModel HierSpec Digraph TopoModel FlatModel ExprModel UnflatModel UnflatSpec
  FlattenModel FlattenSpec CompileModel CompileSpec AcceptSpec WorldModel WorldSpec WorldSpec2 Prop_World IterModel IterSpec Prop_Iter Prop_Iter2 LookupModel LookupProofs DependSpec
  ExtendSpec ExtendProofs ExtendProofs2 Prop_Extend WorldCheck ReorderSpec ReorderProofs ReorderProofs2 ReorderProofs3 ReorderProofs4 ReorderProofs5 ReorderProofs6.
From Coq Require Import Permutation Lia.
Local Open Scope string_scope.
Local Open Scope list_scope.

(** C110, values of hierarchies: two compiled hierarchies that differ in the order in which models
    list their variables, connections, options and submodels give every variable the same value. *)
Theorem c110_hierarchy_values : forall V it it' h shp dflt dflt' um um' m m' c c' (apply : nat -> list V -> nat -> V) init,
  lawful it -> lawful it' -> well_formed h um m shp -> well_formed h um' m' shp -> um_reorder um um' -> reorder m m' -> inputs_not_targets h um m ->
  compile_in it h shp dflt um m = Ok c -> compile_in it' h shp dflt' um' m' = Ok c' ->
  forall p o, occurs h um p o -> variable h o -> result h shp dflt' apply init c' p o = result h shp dflt apply init c p o.
Proof.
  intros V it it' h shp dflt dflt' um um' m m' c c' apply init L L' WF WF' RU R TI H H'.
  eapply c109_hierarchy with (it := it) (it' := it') (um := um) (um' := um') (m := m) (m' := m'); try eassumption.
  - exact (r_not_targets h um um' m m' RU R TI).
  - apply keeps_refl.
  - apply um_reorder_grows, RU.
  - apply reorder_grows, R.
  - apply names_refl.
  - intros p o n _ _ U. exact (r_unsupplied h um um' m m' RU R n U).
Qed.
Print Assumptions c110_hierarchy_values.

(** C110, acceptance of hierarchies. *)
Theorem c110_hierarchy_accepted : forall it it' h shp dflt dflt' um um' m m',
  lawful it -> lawful it' -> well_formed h um m shp -> well_formed h um' m' shp -> um_reorder um um' -> reorder m m' ->
  inputs_not_targets h um m -> sizes_agree m -> valid_promotes m ->
  ((exists c, compile_in it h shp dflt um m = Ok c) <-> (exists c', compile_in it' h shp dflt' um' m' = Ok c')).
Proof.
  intros it it' h shp dflt dflt' um um' m m' L L' WF WF' RU R TI SA VP. pose proof (um_reorder_sym _ _ RU) as RU'. pose proof (reorder_sym _ _ R) as R'. split; intros C.
  - apply (c88_any_order it' h shp dflt' um' m' L' WF'). apply (r_acceptable h shp um um' m m' RU R). exact (proj2 (c88_any_order it h shp dflt um m L WF) TI SA VP C).
  - apply (c88_any_order it h shp dflt um m L WF). apply (r_acceptable h shp um' um m' m RU' R').
    apply (proj2 (c88_any_order it' h shp dflt' um' m' L' WF')); [exact (r_not_targets h um um' m m' RU R TI)|exact (r_sizes m m' R SA)|exact (r_promotes m m' R VP)|exact C].
Qed.
Print Assumptions c110_hierarchy_accepted.

(** C110, programs: the order of declarations does not matter.  If the calls of a program that
    follows the rules are put in another order, in which only connections, constraints, design
    variables, objectives and (named) submodels have moved, then the program still follows the rules,
    builds the same models up to the order of what they list, is accepted for compilation exactly
    when the first one is, and computes the same values. *)
Theorem c110_program : forall it it' l l' shp dflt dflt' f k um m,
  lawful it -> lawful it' -> reordered l l' -> follows_rules l -> finished l -> tree f (whistory l) shp k = Some (um, m) ->
  inputs_not_targets (w_heap (whistory l)) um m ->
  follows_rules l' /\ finished l' /\ w_heap (whistory l') = w_heap (whistory l) /\
  exists um' m', tree f (whistory l') shp k = Some (um', m') /\ um_reorder um um' /\ reorder m m' /\
    (sizes_agree m -> valid_promotes m ->
      ((exists c, compile_in it (w_heap (whistory l)) shp dflt um m = Ok c) <-> (exists c', compile_in it' (w_heap (whistory l')) shp dflt' um' m' = Ok c'))) /\
    forall V (apply : nat -> list V -> nat -> V) init c c',
      compile_in it (w_heap (whistory l)) shp dflt um m = Ok c -> compile_in it' (w_heap (whistory l')) shp dflt' um' m' = Ok c' ->
      forall p o, occurs (w_heap (whistory l)) um p o -> variable (w_heap (whistory l)) o ->
        result (w_heap (whistory l')) shp dflt' apply init c' p o = result (w_heap (whistory l)) shp dflt apply init c p o.
Proof.
  intros it it' l l' shp dflt dflt' f k um m L L' RO FR FI T TI.
  pose proof (reordered_rules l l' RO FR) as FR'. pose proof (reordered_finished l l' RO FI) as FI'. pose proof (reordered_sim l l' RO) as S. pose proof (ws_heap _ _ S) as HH.
  split; [exact FR'|]. split; [exact FI'|]. split; [symmetry; exact HH|]. destruct (tree_sim _ _ shp S f k um m T) as (um' & m' & T' & RU & R).
  pose proof (c89_well_formed _ _ _ _ _ _ FR FI T) as WF. pose proof (c89_well_formed _ _ _ _ _ _ FR' FI' T') as WF'. rewrite <- HH in *.
  exists um', m'. split; [exact T'|]. split; [exact RU|]. split; [exact R|]. split.
  - intros SA VP. apply c110_hierarchy_accepted; assumption.
  - intros V apply init c c' C C'. eapply c110_hierarchy_values with (it := it) (it' := it'); eassumption.
Qed.
Print Assumptions c110_program.

(** Connections and an objective declared before the submodels they refer to, and the submodels in
    the other order. *)
Definition ro_models : list wevent :=
  [WNew; WOn 0 (EInput "u"); WNew; WOn 1 (EDeclare "x"); WOn 1 (EApply [1] 1); WOn 1 (ERegister "y" 3); WNew; WOn 2 (EDeclare "z"); WOn 2 (EApply [4] 1); WOn 2 (ERegister "w" 6)].
Definition ro : list wevent := ro_models ++ [WAdd 0 (Some "A") None 1; WAdd 0 (Some "B") None 2; WConnect 0 "u" "x"; WConnect 0 "y" "z"; WObjective 0 "w"].
Definition ro' : list wevent := ro_models ++ [WConnect 0 "y" "z"; WObjective 0 "w"; WAdd 0 (Some "B") None 2; WAdd 0 (Some "A") None 1; WConnect 0 "u" "x"].
Lemma reordered_move l mid e r : Forall (fun x => independent x e) mid -> reordered (l ++ mid ++ e :: r) (l ++ e :: mid ++ r).
Proof.
  revert l. induction mid as [|x mid IH]; intros l F; [apply reordered_same|]. inversion F as [|? ? I F']; subst. eapply reordered_trans; [|exact (reordered_swap l x e (mid ++ r) I)].
  specialize (IH (l ++ [x]) F'). rewrite <- !app_assoc in IH. exact IH.
Qed.
Lemma ro_reordered : reordered ro ro'.
Proof.
  unfold ro, ro'. eapply reordered_trans. { apply (reordered_move ro_models [WAdd 0 (Some "A") None 1; WAdd 0 (Some "B") None 2; WConnect 0 "u" "x"] (WConnect 0 "y" "z")). repeat constructor. }
  eapply reordered_trans. { apply (reordered_move (ro_models ++ [WConnect 0 "y" "z"]) [WAdd 0 (Some "A") None 1; WAdd 0 (Some "B") None 2; WConnect 0 "u" "x"] (WObjective 0 "w")). repeat constructor. }
  apply (reordered_swap (ro_models ++ [WConnect 0 "y" "z"; WObjective 0 "w"]) (WAdd 0 (Some "A") None 1) (WAdd 0 (Some "B") None 2) [WConnect 0 "u" "x"]). right. discriminate.
Qed.
Definition ro_u : umodel := UM [0] [] [] [("A", UM [] [3] [1] []); ("B", UM [] [6] [4] [])].
Definition ro_A : model := Mdl [] [("y", [2])] [("x", [2])] [] [] [] None [].
Definition ro_B : model := Mdl [] [("w", [2])] [("z", [2])] [] [] [] None [].
Definition ro_m : model := Mdl [("u", [2])] [] [] [("u", "x"); ("y", "z")] [] [] (Some "w") [("A", None, ro_A); ("B", None, ro_B)].
Definition ro_u' : umodel := UM [0] [] [] [("B", UM [] [6] [4] []); ("A", UM [] [3] [1] [])].
Definition ro_m' : model := Mdl [("u", [2])] [] [] [("y", "z"); ("u", "x")] [] [] (Some "w") [("B", None, ro_B); ("A", None, ro_A)].
Lemma ro_sub p y : sub_at ro_m p y -> (p = [] /\ y = ro_m) \/ (p = ["A"] /\ y = ro_A) \/ (p = ["B"] /\ y = ro_B).
Proof.
  intros A. inversion A as [|? nm pr sm q ? Hs A']; subst; [auto|]. destruct Hs as [E|[E|[]]]; injection E as <- <- <-; (inversion A' as [|? ? ? ? ? ? Hs' ?]; subst; [auto|destruct Hs']).
Qed.
Lemma ro_promoted p x q : promoted_ns ro_m p x q -> q = [].
Proof.
  intros P. inversion P as [| |? nm pr sm p' ? q' Hs P' LL]; subst; [reflexivity..|]. exfalso. destruct Hs as [E|[E|[]]]; injection E as <- <- <-; destruct LL as [LL|LL]; try (apply LL; exact I);
    (inversion P' as [| |? nm pr sm p'' ? q'' Hs P'' LL']; subst; [apply LL; reflexivity|apply LL; reflexivity|destruct Hs]).
Qed.
Lemma ro_inputs p o n : called (w_heap (whistory ro)) ro_u ro_m p KInput o n -> n = "u".
Proof.
  intros (x & q & ((ob & E & N) & ins & outs & decls & subs & A & Hi) & P & ->). pose proof (ro_promoted _ _ _ P) as ->.
  inversion A as [|? ? ? ? s sm p' ? Hs A']; subst; [destruct Hi as [<-|[]]; vm_compute in E; injection E as <-; reflexivity|].
  destruct Hs as [Es|[Es|[]]]; injection Es as <- <-; (inversion A' as [|? ? ? ? s sm p'' ? Hs A'']; subst; [destruct Hi|destruct Hs]).
Qed.
Lemma ro_targets n : connection_target ro_m n -> n <> "u".
Proof.
  intros (p & a & b & (y & A & Hc) & (p' & k & x & s & q & (y' & A' & Hv) & P & -> & F)) E. pose proof (ro_promoted _ _ _ P) as ->. cbn in E. subst x.
  destruct (ro_sub _ _ A) as [[-> ->]|[[-> ->]|[-> ->]]]; cbn in Hc; [|destruct Hc..].
  destruct (ro_sub _ _ A') as [[-> ->]|[[-> ->]|[-> ->]]]; destruct k; cbn in Hv; repeat (destruct Hv as [Hv|Hv]; [try discriminate Hv|]); try destruct Hv;
    destruct Hc as [Hc|[Hc|[]]]; injection Hc as <- <-; destruct F as [F|F]; discriminate F.
Qed.
Example c110_nonvacuous : exists c c', reordered ro ro' /\ follows_rules ro /\ finished ro /\
  inputs_not_targets (w_heap (whistory ro)) ro_u ro_m /\ sizes_agree ro_m /\ valid_promotes ro_m /\
  tree 3 (whistory ro) gsh 0 = Some (ro_u, ro_m) /\ tree 3 (whistory ro') gsh 0 = Some (ro_u', ro_m') /\
  compile_in insertion_order (w_heap (whistory ro)) gsh (fun _ => true) ro_u ro_m = Ok c /\ compile_in backwards (w_heap (whistory ro')) gsh (fun _ => true) ro_u' ro_m' = Ok c' /\
  result (w_heap (whistory ro)) gsh (fun _ => true) gf (fun _ => 100%N) c ["B"] 6 = 107%N /\ result (w_heap (whistory ro')) gsh (fun _ => true) gf (fun _ => 100%N) c' ["B"] 6 = 107%N.
Proof.
  let t := eval vm_compute in (compile_in insertion_order (w_heap (whistory ro)) gsh (fun _ => true) ro_u ro_m) in match t with Ok ?c =>
  let t' := eval vm_compute in (compile_in backwards (w_heap (whistory ro')) gsh (fun _ => true) ro_u' ro_m') in match t' with Ok ?c' => exists c, c' end end.
  split; [exact ro_reordered|]. split; [apply rules_check; vm_compute; reflexivity|]. split; [apply finished_check; vm_compute; reflexivity|].
  split. { intros p o n T C. exact (ro_targets n T (ro_inputs p o n C)). }
  split. { assert (SH : forall p k x s, has_var ro_m p k x s -> s = [2]).
    { intros p k x s (y & A & Hv). destruct (ro_sub _ _ A) as [[-> ->]|[[-> ->]|[-> ->]]]; destruct k; cbn in Hv; repeat (destruct Hv as [Hv|Hv]; [injection Hv as _ <-; reflexivity|]); destruct Hv. }
    intros p1 p2 k1 k2 x s1 s2 q V1 V2 _ _. rewrite (SH _ _ _ _ V1), (SH _ _ _ _ V2). reflexivity. }
  split. { intros p y nm l sm x A Hs _. exfalso. destruct (ro_sub _ _ A) as [[-> ->]|[[-> ->]|[-> ->]]]; cbn in Hs; [destruct Hs as [Hs|[Hs|[]]]; discriminate Hs|destruct Hs..]. }
  repeat split; vm_compute; reflexivity.
Qed.
