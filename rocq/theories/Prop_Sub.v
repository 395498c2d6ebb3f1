(** Property theorem C108: a submodel inside a hierarchy and the same submodel on its own. *)
From Verif Require Import PyBase NamesModel PromotionsModel PromotionsSpec HierModel HierSpec Digraph TopoModel FlatModel ExprModel UnflatModel UnflatSpec
  FlattenModel FlattenSpec CompileModel CompileSpec CompileProofs Prop_Compile AcceptSpec AcceptProofs3 Prop_Accept WorldModel WorldSpec WorldProofs WorldProofs2 Prop_World WorldSpec2 WorldProofs4 WorldProofs7 WorldProofs8 Prop_World2 ExprSpec ExprProofs2 IterModel IterSpec IterProofs Prop_Iter Prop_Iter2
  DependSpec SubProofs.
From Coq Require Import Lia.
Local Open Scope string_scope.
Local Open Scope list_scope.

(** C108: inside a hierarchy, a submodel that compiles on its own computes what it computes on its
    own, from the values its inputs and the variables it does not supply itself have there. *)
Theorem c108_values : forall V it it' h shp dflt dflt' um m c p sum sm c' (apply : nat -> list V -> nat -> V) init init',
  lawful it -> lawful it' -> well_formed h um m shp -> inputs_not_targets h um m ->
  compile_in it h shp dflt um m = Ok c -> um_at um p sum -> sub_at m p sm -> compile_in it' h shp dflt' sum sm = Ok c' ->
  (forall q o n, called h sum sm q KInput o n -> init' n = result h shp dflt apply init c (p ++ q) o) ->
  (forall q o n, occurs h sum q o -> called h sum sm q KDeclared o n -> unsupplied h sum sm n -> init' n = result h shp dflt apply init c (p ++ q) o) ->
  forall q o, occurs h sum q o -> variable h o -> result h shp dflt' apply init' c' q o = result h shp dflt apply init c (p ++ q) o.
Proof.
  intros V it it' h shp dflt dflt' um m c p sum sm c' apply init init' L L' WF TI H A B H' I1 I2 q o Ho Vo.
  exact (c_below it h shp dflt um m c L WF TI H p sum sm A B apply init it' dflt' c' L' H' init' q o I1 I2 Ho Vo).
Qed.
Print Assumptions c108_values.

(** C108: for every run of the hierarchy there are such values; each is the value that all variables
    of the submodel with that name have. *)
Theorem c108_supply : forall V it it' h shp dflt dflt' um m c p sum sm c' (apply : nat -> list V -> nat -> V) init,
  lawful it -> lawful it' -> well_formed h um m shp -> inputs_not_targets h um m ->
  compile_in it h shp dflt um m = Ok c -> um_at um p sum -> sub_at m p sm -> compile_in it' h shp dflt' sum sm = Ok c' ->
  exists init', (forall q k o n, occurs h sum q o -> called h sum sm q k o n -> init' n = result h shp dflt apply init c (p ++ q) o) /\
    forall q o, occurs h sum q o -> variable h o -> result h shp dflt' apply init' c' q o = result h shp dflt apply init c (p ++ q) o.
Proof.
  intros V it it' h shp dflt dflt' um m c p sum sm c' apply init L L' WF TI H A B H'.
  assert (G : exists init', forall q k o n, occurs h sum q o -> called h sum sm q k o n -> init' n = result h shp dflt apply init c (p ++ q) o).
  { eexists. intros q k o n Ho Hc. exact (seen_value it h shp dflt um m c L WF TI H p sum sm A B apply init it' dflt' c' L' H' q k o n Ho Hc). }
  destruct G as (init' & G). exists init'. split; [exact G|]. intros q o Ho Vo. refine (c108_values V it it' h shp dflt dflt' um m c p sum sm c' apply init init' L L' WF TI H A B H' _ _ q o Ho Vo).
  - intros q1 o1 n Hc. eapply G; [|exact Hc]. destruct Hc as (x & r & (_ & ins & outs & decls & subs & C & Hi) & _). exists ins, outs, decls, subs. auto.
  - intros q1 o1 n Ho1 Hc _. eapply G; eassumption.
Qed.
Print Assumptions c108_supply.

(** C108: the only reason why a submodel of a hierarchy that satisfies all rules may not compile on
    its own is a connection declared in it. *)
Theorem c108_accepted : forall it it' h shp dflt dflt' um m c p sum sm,
  lawful it -> lawful it' -> well_formed h um m shp -> inputs_not_targets h um m -> sizes_agree m -> valid_promotes m ->
  compile_in it h shp dflt um m = Ok c -> um_at um p sum -> sub_at m p sm ->
  ((exists c', compile_in it' h shp dflt' sum sm = Ok c') <-> forall q a b, declared_conn sm q a b -> connection_ok h shp sum sm q a b).
Proof.
  intros it it' h shp dflt dflt' um m c p sum sm L L' WF TI SA VP H A B. pose proof (sub_well_formed h shp um m p sum sm WF A B) as WF'. split.
  - intros (c' & H'). pose proof (c_sub_targets it h shp dflt um m c L WF TI H p sum sm A B) as TI'. apply (c_enforced it' h shp dflt' sum sm c' L' WF' TI' H').
  - intros AC. destruct (compiled_maps _ _ _ _ _ _ _ H) as (mp & MP). apply (c88_any_order it' h shp dflt' sum sm L' WF').
    eapply sub_acceptable with (um := um) (m := m) (mp := mp); try eassumption. apply (c88_any_order it h shp dflt um m L WF); eauto.
Qed.
Print Assumptions c108_accepted.

(** The submodel A of the hierarchy of Prop_Compile, on its own and inside. *)
Example c108_nonvacuous : exists c c', lawful backwards /\ well_formed cxh cxum cxm cxshp /\ inputs_not_targets cxh cxum cxm /\ sizes_agree cxm /\ valid_promotes cxm /\
  um_at cxum ["A"] (UM [] [3] [1] []) /\ sub_at cxm ["A"] (Mdl [] [("y", [2])] [("x", [2])] [] [] [] None []) /\
  compile_in backwards cxh cxshp (fun _ => false) cxum cxm = Ok c /\
  compile_in backwards cxh cxshp (fun _ => true) (UM [] [3] [1] []) (Mdl [] [("y", [2])] [("x", [2])] [] [] [] None []) = Ok c' /\
  let f o args (_ : nat) := (N.of_nat o + fold_left N.add args 0)%N in
  (result cxh cxshp (fun _ => false) f (fun _ => 100%N) c ["A"] 3 = 102%N /\ result cxh cxshp (fun _ => true) f (fun _ => 100%N) c' [] 3 = 102%N).
Proof.
  let t := eval vm_compute in (compile_in backwards cxh cxshp (fun _ => false) cxum cxm) in match t with Ok ?c =>
  let t' := eval vm_compute in (compile_in backwards cxh cxshp (fun _ => true) (UM [] [3] [1] []) (Mdl [] [("y", [2])] [("x", [2])] [] [] [] None [])) in match t' with Ok ?c' => exists c, c' end end.
  split; [exact backwards_lawful|]. split; [exact cx_well_formed|]. split; [exact cx_not_target|].
  split; [apply cx_acceptable|]. split; [apply cx_acceptable|].
  split; [econstructor; [left; reflexivity|constructor]|]. split; [econstructor; [left; reflexivity|constructor]|]. split; [vm_compute; reflexivity|]. split; [vm_compute; reflexivity|]. split; vm_compute; reflexivity.
Qed.

(** A submodel that connects a name the hierarchy supplies does not compile on its own. *)
Definition sx : list wevent :=
  [WNew; WNew; WOn 0 (EInput "x"); WOn 1 (EDeclare "x"); WOn 1 (EDeclare "w"); WOn 1 (EApply [2] 1); WOn 1 (ERegister "y" 4); WConnect 1 "x" "w"; WAdd 0 (Some "A") None 1].
Definition sxh : list obj := Eval vm_compute in w_heap (whistory sx).
Definition sxum : umodel := UM [0] [] [] [("A", UM [] [4] [1; 2] [])].
Definition sxsm : model := Mdl [] [("y", [2])] [("x", [2]); ("w", [2])] [("x", "w")] [] [] None [].
Definition sxm : model := Mdl [("x", [2])] [] [] [] [] [] None [("A", None, sxsm)].
Lemma sx_tree : tree 2 (whistory sx) cxshp 0 = Some (sxum, sxm).
Proof. vm_compute. reflexivity. Qed.
Lemma sx_rules : follows_rules sx.
Proof.
  assert (H : rules_from (w_count (whistory sx)) [] sx); [|intros b e a E; exact (rules_from_ok _ sx [] H b e a E)].
  let v := eval vm_compute in (w_count (whistory sx)) in change (w_count (whistory sx)) with v. unfold sx. cbn [rules_from].
  repeat (split; [first [exact I|on_rule|idtac]|]); [|exact I].
  exists "A". split; [reflexivity|]. split; [apply other_length; [vm_compute; discriminate|cbn; lia]|discriminate].
Qed.
Lemma sxh_get o ob : nth_error sxh o = Some ob -> In (o, ob) (combine (seq 0 5) sxh).
Proof.
  intros E. assert (L : o < 5) by (change 5 with (length sxh); apply nth_error_Some; congruence).
  do 5 (destruct o as [|o]; [cbn in E; injection E as <-; cbn; tauto|]). lia.
Qed.
Lemma sx_finished : finished sx.
Proof.
  split; change (w_heap (whistory sx)) with sxh.
  - intros o ob E K. apply sxh_get in E. cbn in E. cases_in; injection E as <- <-; discriminate.
  - intros o ob k E K C Ow. apply sxh_get in E. cbn in E. cases_in; injection E as <- <-; try discriminate; vm_compute in Ow; injection Ow as <-;
      (eexists; split; [vm_compute; reflexivity|cbn; auto]).
  - intros k m E. destruct k as [|[|k]]; vm_compute in E; [injection E as <-|injection E as <-|destruct k; discriminate];
      vm_compute; repeat constructor; cbn; intuition discriminate.
  - vm_compute. discriminate.
Qed.
Lemma sx_well_formed : well_formed sxh sxum sxm cxshp.
Proof. exact (c89_well_formed sx cxshp 2 0 sxum sxm sx_rules sx_finished sx_tree). Qed.
(** C108 without its condition on connections is false: this hierarchy, made by a program that
    follows the rules, compiles, and its submodel A does not compile on its own. *)
Theorem c108_alone_refuted : exists l it shp dflt f k um m c p sum sm e,
  follows_rules l /\ finished l /\ tree f (whistory l) shp k = Some (um, m) /\ lawful it /\
  compile_in it (w_heap (whistory l)) shp dflt um m = Ok c /\ um_at um p sum /\ sub_at m p sm /\ compile_in it (w_heap (whistory l)) shp dflt sum sm = Err e.
Proof.
  exists sx, insertion_order, cxshp, (fun _ => true), 2, 0, sxum, sxm. change (w_heap (whistory sx)) with sxh.
  let t := eval vm_compute in (compile_in insertion_order sxh cxshp (fun _ => true) sxum sxm) in match t with Ok ?c => exists c end. exists ["A"], (UM [] [4] [1; 2] []), sxsm.
  let t := eval vm_compute in (compile_in insertion_order sxh cxshp (fun _ => true) (UM [] [4] [1; 2] []) sxsm) in match t with Err ?e => exists e end.
  split; [exact sx_rules|]. split; [exact sx_finished|]. split; [exact sx_tree|]. split; [exact insertion_lawful|]. split; [vm_compute; reflexivity|].
  split; [econstructor; [left; reflexivity|constructor]|]. split; [econstructor; [left; reflexivity|constructor]|]. vm_compute. reflexivity.
Qed.
Print Assumptions c108_alone_refuted.
