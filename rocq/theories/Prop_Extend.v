(** Property theorem C109: a program that goes on keeps the values it has computed. *)
From Verif Require Import PyBase NamesModel PromotionsModel PromotionsSpec HierModel HierSpec Digraph TopoModel FlatModel ExprModel UnflatModel UnflatSpec
  FlattenModel FlattenSpec CompileModel CompileSpec WorldModel WorldSpec WorldSpec2 Prop_World IterModel IterSpec Prop_Iter LookupModel LookupProofs DependSpec
  ExtendSpec ExtendProofs ExtendProofs2 WorldCheck.
From Coq Require Import Lia.
Local Open Scope string_scope.
Local Open Scope list_scope.

(** C109, hierarchies: if a compiled hierarchy has the variables, operations, connections and
    submodels of another one, and possibly more, without supplying what the other one expected to be
    supplied, then the variables of the other one have the same values in both. *)
Theorem c109_hierarchy : forall V it it' h h' shp shp' dflt dflt' um um' m m' c c' (apply : nat -> list V -> nat -> V) init,
  lawful it -> lawful it' -> well_formed h um m shp -> well_formed h' um' m' shp' -> inputs_not_targets h' um' m' ->
  compile_in it h shp dflt um m = Ok c -> compile_in it' h' shp' dflt' um' m' = Ok c' ->
  keeps h h' -> um_grows um um' -> grows m m' -> names_kept h h' um -> supplies_nothing h um m h' um' m' ->
  forall p o, occurs h um p o -> variable h o -> result h' shp' dflt' apply init c' p o = result h shp dflt apply init c p o.
Proof.
  intros V it it' h h' shp shp' dflt dflt' um um' m m' c c' apply init L L' WF WF' TI' H H' K UG G NK SN p o Ho Vo.
  pose proof (e_targets h h' um um' m m' UG G NK TI') as TI. pose proof (in_solves it' h' shp' dflt' um' m' c' L' WF' TI' H' V apply init) as SV.
  apply (in_unique it h shp dflt um m c L WF TI H V apply init); try assumption. exact (e_solves h h' um um' m m' K UG G NK V apply init _ SN SV).
Qed.
Print Assumptions c109_hierarchy.

(** C109, programs: calls made after a program was complete do not change the values of the variables
    that were there, as long as they do not assign to its outputs again, do not apply custom
    operations it constructed, and do not supply what it left to be supplied. *)
Theorem c109_program : forall V it it' l l' shp dflt dflt' f f' k um m um' m' c c' (apply : nat -> list V -> nat -> V) init,
  lawful it -> lawful it' -> follows_rules (l ++ l') -> finished l -> finished (l ++ l') -> leaves_alone l l' ->
  tree f (whistory l) shp k = Some (um, m) -> tree f' (whistory (l ++ l')) shp k = Some (um', m') ->
  inputs_not_targets (w_heap (whistory (l ++ l'))) um' m' ->
  compile_in it (w_heap (whistory l)) shp dflt um m = Ok c -> compile_in it' (w_heap (whistory (l ++ l'))) shp dflt' um' m' = Ok c' ->
  supplies_nothing (w_heap (whistory l)) um m (w_heap (whistory (l ++ l'))) um' m' ->
  forall p o, occurs (w_heap (whistory l)) um p o -> variable (w_heap (whistory l)) o ->
    result (w_heap (whistory (l ++ l'))) shp dflt' apply init c' p o = result (w_heap (whistory l)) shp dflt apply init c p o.
Proof.
  intros V it it' l l' shp dflt dflt' f f' k um m um' m' c c' apply init L L' FR FI FI' LA T T' TI' H H' SN p o Ho Vo.
  pose proof (kept_all l l' FR LA) as K. destruct (tree_grows l l' shp K f f' k um m um' m' T T') as [UG G].
  eapply c109_hierarchy with (it := it) (it' := it') (um := um) (m := m) (um' := um') (m' := m'); try eassumption.
  - eapply c89_well_formed; [exact (follows_prefix _ _ FR)|exact FI|exact T].
  - eapply c89_well_formed; [exact FR|exact FI'|exact T'].
  - exact (tree_keeps l l' K).
  - exact (tree_names l l' shp K f k um m T).
Qed.
Print Assumptions c109_program.

(** Reading part of an output, and adding a submodel that uses the output. *)
Definition gx : list wevent := [WNew; WOn 0 (EDeclare "x"); WOn 0 (EInput "u"); WOn 0 (EApply [0; 1] 1); WOn 0 (ERegister "y" 3)].
Definition gx' : list wevent :=
  [WNew; WOn 1 (EDeclare "y"); WOn 1 (EApply [4] 1); WOn 1 (ERegister "w" 6); WAdd 0 (Some "B") None 1; WOn 0 (EGetitem 3 true); WOn 0 (ERegister "z" 8)].
Definition gxu : umodel := UM [1] [3] [0] [].
Definition gxm : model := Mdl [("u", [2])] [("y", [2])] [("x", [2])] [] [] [] None [].
Definition gxu' : umodel := UM [1] [3; 8] [0] [("B", UM [] [6] [4] [])].
Definition gxm' : model :=
  Mdl [("u", [2])] [("y", [2]); ("z", [2])] [("x", [2])] [] [] [] None [("B", None, Mdl [] [("w", [2])] [("y", [2])] [] [] [] None [])].
Definition gsh : nat -> shape := fun _ => [2].
Definition gf (o : nat) (args : list N) (k : nat) : N := (N.of_nat o + fold_left N.add args 0)%N.
Lemma gx_tree : tree 3 (whistory gx) gsh 0 = Some (gxu, gxm) /\ tree 3 (whistory (gx ++ gx')) gsh 0 = Some (gxu', gxm').
Proof. split; vm_compute; reflexivity. Qed.
Definition gxh' : list obj := Eval vm_compute in w_heap (whistory (gx ++ gx')).
Lemma gx_conns p a b : ~ declared_conn gxm' p a b.
Proof.
  intros (y & A & Hi). inversion A as [|? nm pr sm q ? Hs A']; subst; [destruct Hi|]. destruct Hs as [E|[]]. injection E as <- <- <-.
  inversion A' as [|? nm pr sm q' ? Hs A'']; subst; [destruct Hi|destruct Hs].
Qed.
Lemma gx_x p k o : called gxh' gxu' gxm' p k o "x" -> k = KDeclared.
Proof.
  intros (x & q & ((ob & E & N) & ins & outs & decls & subs & A & Hi) & P & D).
  assert (NX : x = "x" -> k = KDeclared).
  { intros ->. inversion A as [|? ? ? ? s sm p' ? Hs A']; subst; [|destruct Hs as [Es|[]]; injection Es as <- <-; inversion A' as [|? ? ? ? s sm p'' ? Hs A'']; subst; [|destruct Hs]];
      destruct k; cbn in Hi; try reflexivity; repeat (destruct Hi as [<-|Hi]; [cbn in E; injection E as <-; discriminate N|]); destruct Hi. }
  destruct q as [|s q]; [cbn in D; apply NX; congruence|].
  inversion P as [| |? ? ? ? ? ? ? Hs P' LL]; subst. destruct Hs as [Es|[]]. injection Es as <- <- <-. exfalso. clear - D. unfold dotted in D. cbn in D. destruct (q ++ [ob_name ob]); discriminate D.
Qed.
Example c109_nonvacuous : exists c c', lawful backwards /\ follows_rules (gx ++ gx') /\ finished gx /\ finished (gx ++ gx') /\ leaves_alone gx gx' /\
  tree 3 (whistory gx) gsh 0 = Some (gxu, gxm) /\ tree 3 (whistory (gx ++ gx')) gsh 0 = Some (gxu', gxm') /\
  inputs_not_targets (w_heap (whistory (gx ++ gx'))) gxu' gxm' /\
  compile_in insertion_order (w_heap (whistory gx)) gsh (fun _ => true) gxu gxm = Ok c /\
  compile_in backwards (w_heap (whistory (gx ++ gx'))) gsh (fun _ => true) gxu' gxm' = Ok c' /\
  supplies_nothing (w_heap (whistory gx)) gxu gxm (w_heap (whistory (gx ++ gx'))) gxu' gxm' /\
  result (w_heap (whistory gx)) gsh (fun _ => true) gf (fun _ => 100%N) c [] 3 = 202%N /\
  result (w_heap (whistory (gx ++ gx'))) gsh (fun _ => true) gf (fun _ => 100%N) c' [] 3 = 202%N /\
  result (w_heap (whistory (gx ++ gx'))) gsh (fun _ => true) gf (fun _ => 100%N) c' ["B"] 6 = 207%N.
Proof.
  let t := eval vm_compute in (compile_in insertion_order (w_heap (whistory gx)) gsh (fun _ => true) gxu gxm) in match t with Ok ?c =>
  let t' := eval vm_compute in (compile_in backwards (w_heap (whistory (gx ++ gx'))) gsh (fun _ => true) gxu' gxm') in match t' with Ok ?c' => exists c, c' end end.
  split; [exact backwards_lawful|]. split; [apply rules_check; vm_compute; reflexivity|]. split; [apply finished_check; vm_compute; reflexivity|]. split; [apply finished_check; vm_compute; reflexivity|].
  split. { intros k e Hi. cbn in Hi. repeat (destruct Hi as [Hi|Hi]; [try discriminate Hi; injection Hi as <- <-; exact I|]). destruct Hi. }
  split; [apply gx_tree|]. split; [apply gx_tree|]. split. { intros p o n (p0 & a & b & D & _). exfalso. eapply gx_conns, D. }
  split; [vm_compute; reflexivity|]. split; [vm_compute; reflexivity|]. split.
  { change (w_heap (whistory (gx ++ gx'))) with gxh'. intros p o n _ (x & q & ((ob & E & N) & ins & outs & decls & subs & A & Hi) & P & ->) _.
    inversion A as [|? ? ? ? s sm p' ? Hs A']; subst; [|destruct Hs]. inversion P; subst. destruct Hi as [<-|[]]. vm_compute in E. injection E as <-. split; [exact gx_x|].
    intros (p0 & a & b & D & _). eapply gx_conns, D. }
  split; [vm_compute; reflexivity|]. split; vm_compute; reflexivity.
Qed.

(** C109 without its condition on what is supplied is false: a submodel added later may supply a
    variable the program declared. *)
Definition sup' : list wevent := [WNew; WOn 1 (EInput "v"); WOn 1 (EApply [4] 1); WOn 1 (ERegister "x" 6); WAdd 0 (Some "A") None 1].
Definition supu' : umodel := UM [1] [3] [0] [("A", UM [4] [6] [] [])].
Definition supm' : model := Mdl [("u", [2])] [("y", [2])] [("x", [2])] [] [] [] None [("A", None, Mdl [("v", [2])] [("x", [2])] [] [] [] [] None [])].
Theorem c109_supplied_refuted : exists l l' shp dflt f k um m um' m' c c' (apply : nat -> list N -> nat -> N) init p o,
  follows_rules (l ++ l') /\ finished l /\ finished (l ++ l') /\ leaves_alone l l' /\
  tree f (whistory l) shp k = Some (um, m) /\ tree f (whistory (l ++ l')) shp k = Some (um', m') /\
  compile_in insertion_order (w_heap (whistory l)) shp dflt um m = Ok c /\ compile_in insertion_order (w_heap (whistory (l ++ l'))) shp dflt um' m' = Ok c' /\
  occurs (w_heap (whistory l)) um p o /\ variable (w_heap (whistory l)) o /\
  result (w_heap (whistory (l ++ l'))) shp dflt apply init c' p o <> result (w_heap (whistory l)) shp dflt apply init c p o.
Proof.
  exists gx, sup', gsh, (fun _ => true), 3, 0, gxu, gxm, supu', supm'.
  let t := eval vm_compute in (compile_in insertion_order (w_heap (whistory gx)) gsh (fun _ => true) gxu gxm) in match t with Ok ?c =>
  let t' := eval vm_compute in (compile_in insertion_order (w_heap (whistory (gx ++ sup'))) gsh (fun _ => true) supu' supm') in match t' with Ok ?c' => exists c, c' end end.
  exists gf, (fun _ => 100%N), [], 3.
  split; [apply rules_check; vm_compute; reflexivity|]. split; [apply finished_check; vm_compute; reflexivity|]. split; [apply finished_check; vm_compute; reflexivity|].
  split. { intros k e Hi. cbn in Hi. repeat (destruct Hi as [Hi|Hi]; [try discriminate Hi; injection Hi as <- <-; exact I|]). destruct Hi. }
  split; [vm_compute; reflexivity|]. split; [vm_compute; reflexivity|]. split; [vm_compute; reflexivity|]. split; [vm_compute; reflexivity|].
  split. { exists [1], [3], [0], []. split; [constructor|]. right. apply needed_leaf. left. reflexivity. }
  split. { eexists. split; vm_compute; reflexivity. } vm_compute. discriminate.
Qed.
Print Assumptions c109_supplied_refuted.

(** C109 without its condition on assignments is false: assigning to another part of an output
    changes the arguments of the operation that computes it. *)
Definition asg : list wevent := [WNew; WOn 0 (EInput "u"); WOn 0 (EInput "v"); WOn 0 (ECreateOut "y"); WOn 0 (ESetitem 2 0)].
Definition asg' : list wevent := [WOn 0 (ESetitem 2 1)].
Definition asu : umodel := UM [0; 1] [2] [] [].
Definition asm : model := Mdl [("u", [2]); ("v", [2])] [("y", [2])] [] [] [] [] None [].
Theorem c109_assigned_refuted : exists l l' shp dflt f k um m c c' (apply : nat -> list N -> nat -> N) init p o,
  follows_rules (l ++ l') /\ finished l /\ finished (l ++ l') /\
  tree f (whistory l) shp k = Some (um, m) /\ tree f (whistory (l ++ l')) shp k = Some (um, m) /\
  compile_in insertion_order (w_heap (whistory l)) shp dflt um m = Ok c /\ compile_in insertion_order (w_heap (whistory (l ++ l'))) shp dflt um m = Ok c' /\
  supplies_nothing (w_heap (whistory l)) um m (w_heap (whistory (l ++ l'))) um m /\
  occurs (w_heap (whistory l)) um p o /\ variable (w_heap (whistory l)) o /\
  result (w_heap (whistory (l ++ l'))) shp dflt apply init c' p o <> result (w_heap (whistory l)) shp dflt apply init c p o.
Proof.
  exists asg, asg', gsh, (fun _ => true), 3, 0, asu, asm.
  let t := eval vm_compute in (compile_in insertion_order (w_heap (whistory asg)) gsh (fun _ => true) asu asm) in match t with Ok ?c =>
  let t' := eval vm_compute in (compile_in insertion_order (w_heap (whistory (asg ++ asg'))) gsh (fun _ => true) asu asm) in match t' with Ok ?c' => exists c, c' end end.
  exists gf, (fun _ => 100%N), [], 2.
  split; [apply rules_check; vm_compute; reflexivity|]. split; [apply finished_check; vm_compute; reflexivity|]. split; [apply finished_check; vm_compute; reflexivity|].
  split; [vm_compute; reflexivity|]. split; [vm_compute; reflexivity|]. split; [vm_compute; reflexivity|]. split; [vm_compute; reflexivity|].
  split. { intros p o n _ (x & q & (_ & ins & outs & decls & subs & A & Hi) & _) _. exfalso. inversion A as [|? ? ? ? s sm p' ? Hs A']; subst; [destruct Hi|destruct Hs]. }
  split. { exists [0; 1], [2], [], []. split; [constructor|]. right. apply needed_leaf. left. reflexivity. }
  split. { eexists. split; vm_compute; reflexivity. } vm_compute. discriminate.
Qed.
Print Assumptions c109_assigned_refuted.
