(** Property theorem C52 for the whole compilation: the attribute rep_node of variables. *)
From Verif Require Import PyBase NamesModel PromotionsModel PromotionsSpec HierModel HierSpec Digraph FlatModel ExprModel ExprSpec ExprProofs2 UnflatModel UnflatSpec UnflatProofs FlattenModel FlattenSpec
  CompileModel CompileSpec Prop_Compile AcceptSpec Prop_Accept WorldModel WorldSpec Prop_World IterModel IterSpec IterProofs Prop_Iter RepModel RepProofs.
Local Open Scope string_scope.
Local Open Scope list_scope.

(** Variable [o] is used in one place of the hierarchy (its model was added once). *)
Definition used_once (h : list obj) (um : umodel) (p : list string) (o : nat) : Prop := forall p', occurs h um p' o -> p' = p.
(** Something supplies the promoted name [pn]: an input or output has it, or a connection
    leads to it. *)
Definition supplied (h : list obj) (um : umodel) (m : model) (pn : string) : Prop :=
  (exists p k o, occurs h um p o /\ called h um m p k o pn /\ k <> KDeclared) \/ connection_target m pn.

(** C52: after a compilation the node a variable is mapped to is the node of the flat graph
    that holds its value, for all variables but the declared variables that share their
    promoted name with another declared variable while something supplies that name. *)
Theorem c52_compiled_partial : forall it h shp dflt um m c,
  lawful it -> well_formed h um m shp -> inputs_not_targets h um m -> compile_in it h shp dflt um m = Ok c ->
  exists calls, mapping_calls it h shp dflt um m = Ok calls /\
    forall p o, occurs h um p o -> variable h o -> used_once h um p o ->
      (forall pn, called h um m p KDeclared o pn -> supplied h um m pn ->
         forall p' o', occurs h um p' o' -> called h um m p' KDeclared o' pn -> p' = p /\ o' = o) ->
      rep_node_of calls p o = node_of h c p o /\ node (c_graph c) (rep_node_of calls p o).
Proof.
  intros it h shp dflt um m c L WF TI H. destruct (mapping_exact it h shp dflt um m c L WF TI H) as (calls & MP & G & FX & EX).
  exists calls. split; [exact MP|]. intros p o Ho V U K.
  assert (E : rep_node_of calls p o = node_of h c p o); [|rewrite E; split; [reflexivity|apply G; assumption]].
  destruct (CompileProofs.var_kind h shp um m WF p o Ho V) as [[_ ND]|(k & pn & Hc)]; [apply FX; assumption|].
  destruct k.
  1,2: apply FX; [assumption..|]; eapply (CompileProofs.not_declared h shp um m WF); [|exact Hc]; discriminate.
  destruct (EX pn) as (pe & oe & Hoe & Hce & GE & NE & R); [eauto|]. destruct (R p o Ho Hc U) as [R1 R2].
  destruct (irnode_eqb (NObj p o) (NObj pe oe)) eqn:D; [apply irnode_eqb_spec in D; apply R1, D|].
  assert (Ne : NObj p o <> NObj pe oe) by (intros X; apply irnode_eqb_spec in X; congruence).
  assert (NS : ~ supplied h um m pn) by (intros S; destruct (K pn Hc S pe oe Hoe Hce); congruence).
  rewrite (R2 Ne). symmetry. apply NE; [|exact Ho|exact Hc]. apply GE. split; [|intros CT; apply NS; right; exact CT].
  intros p' k' o' Ho' Hc'. destruct k'; [| |reflexivity]; exfalso; apply NS; left; exists p'; eexists; exists o'; (split; [exact Ho'|]); (split; [exact Hc'|discriminate]).
Qed.
Print Assumptions c52_compiled_partial.

(** C52: in the remaining case exactly one of the declared variables with a promoted name is
    mapped to the node with its value; the others are mapped to the first one's node, which
    is not in the graph any more. *)
Theorem c52_compiled_others_partial : forall it h shp dflt um m c pn,
  lawful it -> well_formed h um m shp -> inputs_not_targets h um m -> compile_in it h shp dflt um m = Ok c ->
  supplied h um m pn -> (exists p o, occurs h um p o /\ called h um m p KDeclared o pn) ->
  (forall p o, occurs h um p o -> called h um m p KDeclared o pn -> used_once h um p o) ->
  exists calls pe oe, mapping_calls it h shp dflt um m = Ok calls /\ occurs h um pe oe /\ called h um m pe KDeclared oe pn /\
    ~ node (c_graph c) (NObj pe oe) /\
    forall p o, occurs h um p o -> called h um m p KDeclared o pn ->
      rep_node_of calls p o = if irnode_eqb (NObj p o) (NObj pe oe) then node_of h c p o else NObj pe oe.
Proof.
  intros it h shp dflt um m c pn L WF TI H S E U. destruct (mapping_exact it h shp dflt um m c L WF TI H) as (calls & MP & _ & _ & EX).
  destruct (EX pn E) as (pe & oe & Hoe & Hce & GE & _ & R). exists calls, pe, oe. split; [exact MP|]. split; [exact Hoe|]. split; [exact Hce|]. split.
  - intros Hn. apply GE in Hn. destruct Hn as [N1 N2]. destruct S as [(p & k & o & Ho & Hc & K)|S]; [|exact (N2 S)]. exact (K (N1 _ _ _ Ho Hc)).
  - intros p o Ho Hc. destruct (R p o Ho Hc (U p o Ho Hc)) as [R1 R2]. destruct (irnode_eqb (NObj p o) (NObj pe oe)) eqn:D.
    + apply R1, irnode_eqb_spec, D.
    + apply R2. intros X. apply irnode_eqb_spec in X. congruence.
Qed.
Print Assumptions c52_compiled_others_partial.

(** ** A model with an input x and two submodels that declare x *)
Definition rx : list wevent :=
  [WNew; WNew; WNew; WOn 1 (EDeclare "x"); WOn 1 (EApply [0] 1); WOn 1 (ERegister "a" 2);
   WOn 2 (EDeclare "x"); WOn 2 (EApply [3] 1); WOn 2 (ERegister "b" 5); WOn 0 (EInput "x"); WAdd 0 (Some "A") None 1; WAdd 0 (Some "B") None 2].
Definition rxh : list obj := Eval vm_compute in w_heap (whistory rx).
Definition rxum : umodel := UM [6] [] [] [("A", UM [] [2] [0] []); ("B", UM [] [5] [3] [])].
Definition rxm : model := Mdl [("x", [2])] [] [] [] [] [] None
  [("A", None, Mdl [] [("a", [2])] [("x", [2])] [] [] [] None []); ("B", None, Mdl [] [("b", [2])] [("x", [2])] [] [] [] None [])].
Lemma rx_tree : tree 2 (whistory rx) yxshp 0 = Some (rxum, rxm).
Proof. vm_compute. reflexivity. Qed.
Lemma rx_rules : follows_rules rx.
Proof.
  assert (H : rules_from (w_count (whistory rx)) [] rx); [|intros b e a E; exact (rules_from_ok _ rx [] H b e a E)].
  let v := eval vm_compute in (w_count (whistory rx)) in change (w_count (whistory rx)) with v. unfold rx. cbn [rules_from].
  repeat (split; [first [exact I|on_rule|idtac]|]); [| |exact I].
  - exists "A". split; [reflexivity|]. split; [apply other_length; [vm_compute; discriminate|cbn; lia]|discriminate].
  - exists "B". split; [reflexivity|]. split; [apply other_length; [vm_compute; discriminate|cbn; lia]|discriminate].
Qed.
Lemma rxh_get o ob : nth_error rxh o = Some ob -> In (o, ob) (combine (seq 0 7) rxh).
Proof.
  intros E. assert (L : o < 7) by (change 7 with (length rxh); apply nth_error_Some; congruence).
  do 7 (destruct o as [|o]; [cbn in E; injection E as <-; cbn; tauto|]). lia.
Qed.
Lemma rx_finished : finished rx.
Proof.
  split; change (w_heap (whistory rx)) with rxh.
  - intros o ob E K. apply rxh_get in E. cbn in E. cases_in; injection E as <- <-; discriminate.
  - intros o ob k E K C Ow. apply rxh_get in E. cbn in E. cases_in; injection E as <- <-; try discriminate; vm_compute in Ow; injection Ow as <-;
      (eexists; split; [vm_compute; reflexivity|cbn; auto]).
  - intros k m E. destruct k as [|[|[|k]]]; vm_compute in E; [injection E as <-|injection E as <-|injection E as <-|destruct k; discriminate];
      vm_compute; repeat constructor; cbn; intuition discriminate.
  - vm_compute. discriminate.
Qed.
Lemma rx_well_formed : well_formed rxh rxum rxm yxshp.
Proof. exact (c89_well_formed rx yxshp 2 0 rxum rxm rx_rules rx_finished rx_tree). Qed.
Lemma rx_not_target : inputs_not_targets rxh rxum rxm.
Proof.
  intros p o pn (p0 & a & b & (m0 & A0 & Hc) & _) _.
  inversion A0 as [|? nm pr sm p' ? Hs A']; subst; [destruct Hc|]. cbn in Hs. destruct Hs as [E|[E|[]]]; injection E as <- <- <-;
    (inversion A' as [|? ? ? ? ? ? Hs' ?]; subst; [destruct Hc|destruct Hs']).
Qed.
(** C52 as stated fails: x of B is mapped to the node of x of A, which was merged away. *)
Theorem c52_compiled_refuted : exists it h shp dflt um m c calls p o,
  lawful it /\ well_formed h um m shp /\ inputs_not_targets h um m /\ compile_in it h shp dflt um m = Ok c /\ mapping_calls it h shp dflt um m = Ok calls /\
  occurs h um p o /\ variable h o /\ ~ node (c_graph c) (rep_node_of calls p o).
Proof.
  let t := eval vm_compute in (compile_in insertion_order rxh yxshp (fun _ => true) rxum rxm) in match t with Ok ?c =>
  let t' := eval vm_compute in (mapping_calls insertion_order rxh yxshp (fun _ => true) rxum rxm) in match t' with Ok ?l =>
    exists insertion_order, rxh, yxshp, (fun _ => true), rxum, rxm, c, l, ["B"], 3 end end.
  split; [exact insertion_lawful|]. split; [exact rx_well_formed|]. split; [exact rx_not_target|]. split; [vm_compute; reflexivity|]. split; [vm_compute; reflexivity|].
  split; [|split; [eexists; split; reflexivity|vm_compute; intuition discriminate]].
  exists [], [5], [3], []. split; [eapply um_step; [right; left; reflexivity|constructor]|]. right.
  apply (needed_dep _ _ 4); [apply (needed_dep _ _ 5); [apply needed_leaf; cbn; auto|]|]; (eexists; split; [reflexivity|cbn; auto]).
Qed.
Print Assumptions c52_compiled_refuted.

(** The hypotheses of the first theorem are met by the hierarchy of Prop_Compile, where x of A
    is mapped to the input x, and w to its connection's source z. *)
Example c52_compiled_nonvacuous : exists c calls, lawful backwards /\ well_formed cxh cxum cxm cxshp /\ inputs_not_targets cxh cxum cxm /\
  compile_in backwards cxh cxshp (fun _ => false) cxum cxm = Ok c /\ mapping_calls backwards cxh cxshp (fun _ => false) cxum cxm = Ok calls /\
  rep_node_of calls ["A"] 1 = NObj [] 0 /\ rep_node_of calls [] 7 = NObj [] 6 /\ node_of cxh c ["A"] 1 = NObj [] 0 /\ node_of cxh c [] 7 = NObj [] 6.
Proof.
  let t := eval vm_compute in (compile_in backwards cxh cxshp (fun _ => false) cxum cxm) in match t with Ok ?c =>
  let t' := eval vm_compute in (mapping_calls backwards cxh cxshp (fun _ => false) cxum cxm) in match t' with Ok ?l => exists c, l end end.
  split; [exact backwards_lawful|]. split; [exact cx_well_formed|]. split; [exact cx_not_target|]. split; [vm_compute; reflexivity|]. split; [vm_compute; reflexivity|].
  repeat split; vm_compute; reflexivity.
Qed.
