(** C42: combining operations preserves values; C66: dead code removal
    (csdl/opt/combine_operations.py, csdl/opt/remove_dead_code.py). *)
From Verif Require Import PyBase Digraph TopoModel TopoSpec TopoProofs CombineModel CombineSpec CombineProofs.
Set Implicit Arguments.
Open Scope list_scope.

Ltac in_cases := repeat match goal with
  | H : edge _ _ _ |- _ => unfold edge in H; simpl in H
  | H : node _ _ |- _ => unfold node in H; simpl in H
  | H : _ \/ _ |- _ => destruct H
  | H : False |- _ => destruct H
  | H : (_, _) = (_, _) |- _ => injection H; clear H; intros; subst
  | H : V _ = V _ |- _ => injection H; clear H; intros; subst
  | H : O _ = O _ |- _ => injection H; clear H; intros; subst
  | H : V _ = O _ |- _ => discriminate H
  | H : O _ = V _ |- _ => discriminate H
  | H : (_, _) = _ |- _ => injection H; clear H; intros; subst
  | H : _ = _ :> nat |- _ => first [subst | discriminate H]
  end.

(** ** C42 *)
(** Whatever the registered outputs are and in whatever order they are visited: if the
    combination does not raise, the variables left over have the values they had, nothing is
    added, the variables nothing depends on stay, and the recursion ends (the result does
    not depend on the bound [fuel] once it exceeds the depth of the visited variables).
    Partial: only for graphs in which no variable is used twice, and whose elementwise
    operations have a compute string. *)
Theorem C42_values_partial : forall is_output fuel st reg order st',
  built st -> unshared (c_graph st) ->
  combine_all is_output fuel st reg order = Ok st' ->
  (forall n, node (c_graph st') (V n) -> node (c_graph st) (V n)) /\
  (forall n, node (c_graph st) (V n) -> (forall b, ~ edge (c_graph st) (V n) b) -> node (c_graph st') (V n)) /\
  (forall D (I : nat -> list D -> D) (inp : nat -> D) n d d', node (c_graph st') (V n) ->
     value I inp st n d -> value I inp st' n d /\ (value I inp st' n d' -> d' = d)).
Proof.
  intros io fuel st reg order st' B U H.
  pose proof (@combine_all_good io fuel reg order st st' (built_inv B U) H) as G.
  split; [apply G|]. split.
  - intros n Hn Hs. apply (@g_keep _ _ G n Hn Hs).
  - intros D I inp n d d' Hn Hv. pose proof (@g_val _ _ G D I inp n d Hn Hv) as Hv'. split; [exact Hv'|].
    intros H'. eapply value_fun; [apply (i_rank (g_inv G))|exact H'|exact Hv'].
Qed.
Print Assumptions C42_values_partial.
Theorem C42_terminates_partial : forall is_output st reg order depth fuel fuel',
  built st -> unshared (c_graph st) ->
  (forall x o y, edge (c_graph st) (V x) (O o) -> edge (c_graph st) (O o) (V y) -> depth x < depth y) ->
  (forall v, In v order -> depth v < fuel /\ depth v < fuel') ->
  combine_all is_output fuel st reg order = combine_all is_output fuel' st reg order.
Proof.
  intros io st reg order depth fuel fuel' B U HD HO.
  exact (@combine_all_fuel io depth order fuel fuel' st reg (built_inv B U) HD HO).
Qed.
Print Assumptions C42_terminates_partial.

Lemma fn_step D (I : nat -> list D -> D) inp st n o f p xs ds d :
  gpreds (c_graph st) (V n) = [O o] -> o_body (c_ops st o) = Fn f p ->
  gpreds (c_graph st) (O o) = map V xs -> Forall2 (value I inp st) xs ds -> d = I f ds -> value I inp st n d.
Proof. intros H1 H2 H3 H4 ->. eapply value_fn; eassumption. Qed.

Lemma fn_inv D (I : nat -> list D -> D) inp st n o f p xs d : value I inp st n d ->
  gpreds (c_graph st) (V n) = [O o] -> o_body (c_ops st o) = Fn f p -> gpreds (c_graph st) (O o) = map V xs ->
  exists ds, Forall2 (value I inp st) xs ds /\ d = I f ds.
Proof.
  intros H P B A. inversion H as [? E|? o' f' p' xs' ds E1 E2 E3 F|? o' p' xs' ds e ? E1 E2 E3 F R V0]; subst; try congruence;
  rewrite P in E1; injection E1 as <-; rewrite B in E2; try discriminate. injection E2 as <- <-.
  rewrite A in E3. apply map_V_inj in E3. subst xs'. eauto.
Qed.
Lemma comb_inv D (I : nat -> list D -> D) inp st n o p xs d : value I inp st n d ->
  gpreds (c_graph st) (V n) = [O o] -> o_body (c_ops st o) = Combined p -> gpreds (c_graph st) (O o) = map V xs ->
  exists ds e, Forall2 (value I inp st) xs ds /\ run I (bind_all xs ds) p = Some e /\ e n = Some d.
Proof.
  intros H P B A. inversion H as [? E|? o' f' p' xs' ds E1 E2 E3 F|? o' p' xs' ds e ? E1 E2 E3 F R V0]; subst; try congruence;
  rewrite P in E1; injection E1 as <-; rewrite B in E2; try discriminate. injection E2 as <-.
  rewrite A in E3. apply map_V_inj in E3. subst xs'. eauto.
Qed.
Lemma filter_none A (f : A -> bool) l : (forall x, In x l -> f x = false) -> filter f l = [].
Proof. intros H. induction l as [|a l IH]; simpl; [reflexivity|]. rewrite H by (left; reflexivity). apply IH. intros x Hx. apply H. right; exact Hx. Qed.

(** a chain y4 = f3(f2(f1(f0(u)))) and a product of two variables *)
Definition ex_ops (o : nat) : opinfo :=
  match o with
  | 0 => OpInfo true (Fn 0 [(1, 0, [0])])
  | 1 => OpInfo true (Fn 1 [(2, 1, [1])])
  | 2 => OpInfo true (Fn 2 [(3, 2, [2])])
  | 3 => OpInfo true (Fn 3 [(4, 3, [3])])
  | _ => OpInfo false (Fn 4 [])
  end.
Definition ex_chain : cstate :=
  CState (DG [V 0; O 0; V 1; O 1; V 2; O 2; V 3; O 3; V 4; V 9; O 4; V 5]
             [(V 0, O 0); (O 0, V 1); (V 1, O 1); (O 1, V 2); (V 2, O 2); (O 2, V 3); (V 3, O 3); (O 3, V 4);
              (V 4, O 4); (V 9, O 4); (O 4, V 5)]) ex_ops 5.
Definition ex_I (f : nat) (ds : list nat) : nat := f + list_sum ds.
Definition ex_rank (x : nd) : nat := match x with V 9 => 0 | V n => 2 * n | O n => 2 * n + 1 end.
Definition ex_is_output (n : nat) : bool := negb (Nat.eqb n 0) && negb (Nat.eqb n 9).

Lemma ex_chain_built : built ex_chain.
Proof.
  constructor.
  - constructor; [intros a b H; in_cases; simpl; unfold node; simpl; tauto| |]; simpl; repeat constructor; simpl; intuition discriminate.
  - intros a b H. in_cases; exact Logic.I.
  - intros n a b H H'. in_cases; congruence.
  - intros o Ho He. in_cases; simpl in He; try discriminate;
    do 3 eexists; (split; [reflexivity|split; [vm_compute; reflexivity|split; [unfold edge; simpl; intuition|simpl; intuition discriminate]]]).
  - intros o p Ho. in_cases; discriminate.
  - intros o Ho. in_cases; simpl; lia.
  - exists ex_rank. intros a b H. in_cases; vm_compute; lia.
Qed.
Example C42_nonvacuous : built ex_chain /\ unshared (c_graph ex_chain) /\
  registered ex_is_output (fun _ => true) (c_graph ex_chain) = [5] /\
  exists st', combine_all ex_is_output 9 ex_chain [5] [5] = Ok st' /\
    g_nodes (c_graph st') <> g_nodes (c_graph ex_chain) /\ node (c_graph st') (V 4) /\
    value ex_I (fun _ => 7) ex_chain 4 13.
Proof.
  split; [exact ex_chain_built|]. split; [intros n a b H H'; in_cases; congruence|].
  split; [reflexivity|]. eexists. split; [vm_compute; reflexivity|]. split; [vm_compute; discriminate|].
  split; [vm_compute; intuition|].
  assert (V0 : value ex_I (fun _ => 7) ex_chain 0 7) by exact (@value_source nat ex_I (fun _ => 7) ex_chain 0 eq_refl).
  assert (V1 : value ex_I (fun _ => 7) ex_chain 1 7) by (apply (@fn_step nat _ _ _ _ 0 0 [(1, 0, [0])] [0] [7]); auto).
  assert (V2 : value ex_I (fun _ => 7) ex_chain 2 8) by (apply (@fn_step nat _ _ _ _ 1 1 [(2, 1, [1])] [1] [7]); auto).
  assert (V3 : value ex_I (fun _ => 7) ex_chain 3 10) by (apply (@fn_step nat _ _ _ _ 2 2 [(3, 2, [2])] [2] [8]); auto).
  apply (@fn_step nat _ _ _ _ 3 3 [(4, 3, [3])] [3] [10]); auto.
Qed.

(** In general it fails.  1. combine_operations as such always raises (reading the attribute
    unflat_graph of the representation, if not earlier), and the flat graph it returns to
    the caller is the one it was given: it works on a copy. *)
Theorem C42_combine_operations_raises_refuted : forall is_output named order fuel r,
  rep_unflat r = None -> exists e, combine_operations is_output named order fuel r = (r, Err e).
Proof.
  intros io named order fuel r H. unfold combine_operations. destruct (combine_all _ _ _ _ _); [rewrite H|]; eauto.
Qed.
Print Assumptions C42_combine_operations_raises_refuted.

(** 2. A variable used by two operations is removed with the first chain; the other
    operation has lost its argument.  Here w = f0(u), y2 = f1(w), y3 = f2(w). *)
Definition ex_shared_ops (o : nat) : opinfo :=
  match o with
  | 0 => OpInfo true (Fn 0 [(1, 0, [0])])
  | 1 => OpInfo true (Fn 1 [(2, 1, [1])])
  | _ => OpInfo true (Fn 2 [(3, 2, [1])])
  end.
Definition ex_shared : cstate :=
  CState (DG [V 0; O 0; V 1; O 1; V 2; O 2; V 3]
             [(V 0, O 0); (O 0, V 1); (V 1, O 1); (O 1, V 2); (V 1, O 2); (O 2, V 3)]) ex_shared_ops 3.
Lemma ex_shared_built : built ex_shared.
Proof.
  constructor.
  - constructor; [intros a b H; in_cases; simpl; unfold node; simpl; tauto| |]; simpl; repeat constructor; simpl; intuition discriminate.
  - intros a b H. in_cases; exact Logic.I.
  - intros n a b H H'. in_cases; congruence.
  - intros o Ho He. in_cases; simpl in He; try discriminate;
    do 3 eexists; (split; [reflexivity|split; [vm_compute; reflexivity|split; [unfold edge; simpl; intuition|simpl; intuition discriminate]]]).
  - intros o p Ho. in_cases; discriminate.
  - intros o Ho. in_cases; simpl; lia.
  - exists ex_rank. intros a b H. in_cases; vm_compute; lia.
Qed.
Theorem C42_shared_intermediate_refuted : exists st st', built st /\
  registered ex_is_output (fun _ => true) (c_graph st) = [2; 3] /\
  (forall fuel, combine_all ex_is_output (4 + fuel) st [2; 3] [2; 3] = Ok st') /\ node (c_graph st') (V 3) /\
  exists (I : nat -> list nat -> nat) inp d, value I inp st 3 d /\ ~ value I inp st' 3 d.
Proof.
  exists ex_shared. eexists. split; [exact ex_shared_built|]. split; [reflexivity|].
  split; [intros fuel; vm_compute; reflexivity|]. split; [vm_compute; intuition|].
  exists ex_I, (fun _ => 7), 9. split.
  - assert (V0 : value ex_I (fun _ => 7) ex_shared 0 7) by exact (@value_source nat ex_I (fun _ => 7) ex_shared 0 eq_refl).
    assert (V1 : value ex_I (fun _ => 7) ex_shared 1 7) by (apply (@fn_step nat _ _ _ _ 0 0 [(1, 0, [0])] [0] [7]); auto).
    apply (@fn_step nat _ _ _ _ 2 2 [(3, 2, [1])] [1] [7]); auto.
  - intros H. destruct (@fn_inv _ _ _ _ _ 2 2 [(3, 2, [1])] [] _ H) as (ds & F & E); try reflexivity.
    inversion F; subst ds. discriminate E.
Qed.
Print Assumptions C42_shared_intermediate_refuted.

(** 3. Only outputs that nothing depends on are taken for registered: a registered output
    that another one is computed from is removed from the graph. *)
Definition ex_two : cstate :=
  CState (DG [V 0; O 0; V 1; O 1; V 2] [(V 0, O 0); (O 0, V 1); (V 1, O 1); (O 1, V 2)]) ex_shared_ops 2.
Lemma ex_two_built : built ex_two.
Proof.
  constructor.
  - constructor; [intros a b H; in_cases; simpl; unfold node; simpl; tauto| |]; simpl; repeat constructor; simpl; intuition discriminate.
  - intros a b H. in_cases; exact Logic.I.
  - intros n a b H H'. in_cases; congruence.
  - intros o Ho He. in_cases; simpl in He; try discriminate;
    do 3 eexists; (split; [reflexivity|split; [vm_compute; reflexivity|split; [unfold edge; simpl; intuition|simpl; intuition discriminate]]]).
  - intros o p Ho. in_cases; discriminate.
  - intros o Ho. in_cases; simpl; lia.
  - exists ex_rank. intros a b H. in_cases; vm_compute; lia.
Qed.
Theorem C42_registered_output_removed_refuted : exists st st' n (named : nat -> bool), built st /\ unshared (c_graph st) /\
  node (c_graph st) (V n) /\ ex_is_output n = true /\ named n = true /\
  (let reg := registered ex_is_output named (c_graph st) in combine_all ex_is_output 9 st reg reg = Ok st') /\
  ~ node (c_graph st') (V n).
Proof.
  exists ex_two. eexists. exists 1, (fun _ => true). split; [exact ex_two_built|]. split; [intros n a b H H'; in_cases; congruence|].
  split; [vm_compute; intuition|]. do 2 (split; [reflexivity|]). split; [vm_compute; reflexivity|]. vm_compute. intuition discriminate.
Qed.
Print Assumptions C42_registered_output_removed_refuted.

(** 4. passthrough and print_var are elementwise but have no compute string: a chain that
    ends with one of them leaves its result without a value. *)
Definition ex_pass : cstate :=
  CState (DG [V 0; O 0; V 1; O 1; V 2] [(V 0, O 0); (O 0, V 1); (V 1, O 1); (O 1, V 2)])
         (fun o => match o with 0 => OpInfo true (Fn 0 [(1, 0, [0])]) | _ => OpInfo true (Fn 1 []) end) 2.
Theorem C42_no_compute_string_refuted : exists st', combine_all ex_is_output 9 ex_pass [2] [2] = Ok st' /\
  (exists d, value ex_I (fun _ => 7) ex_pass 2 d) /\ node (c_graph st') (V 2) /\
  forall D (I : nat -> list D -> D) inp d, ~ value I inp st' 2 d.
Proof.
  eexists. split; [vm_compute; reflexivity|]. split.
  - exists 8. assert (V0 : value ex_I (fun _ => 7) ex_pass 0 7) by exact (@value_source nat ex_I (fun _ => 7) ex_pass 0 eq_refl).
    assert (V1 : value ex_I (fun _ => 7) ex_pass 1 7) by (apply (@fn_step nat _ _ _ _ 0 0 [(1, 0, [0])] [0] [7]); auto).
    apply (@fn_step nat _ _ _ _ 1 1 [] [1] [7]); auto.
  - split; [vm_compute; intuition|]. intros D I inp d H.
    destruct (@comb_inv _ _ _ _ _ 2 [(1, 0, [0])] [0] _ H) as (ds & e & F & R & E); try reflexivity.
    inversion F as [|? d0 ? ? F1 F2]; subst. inversion F2; subst. vm_compute in R. injection R as <-. vm_compute in E. discriminate.
Qed.
Print Assumptions C42_no_compute_string_refuted.

(** 5. The combination itself may raise: w = f0(u), x = f1(w), y = x * w.  While the
    arguments of the product are visited, one of them is removed. *)
Definition ex_live : cstate :=
  CState (DG [V 0; O 0; V 1; O 1; V 2; O 2; V 3]
             [(V 0, O 0); (O 0, V 1); (V 1, O 1); (O 1, V 2); (V 2, O 2); (V 1, O 2); (O 2, V 3)])
         (fun o => match o with 0 => OpInfo true (Fn 0 [(1, 0, [0])]) | 1 => OpInfo true (Fn 1 [(2, 1, [1])])
                   | _ => OpInfo true (Fn 2 [(3, 2, [2; 1])]) end) 3.
Lemma ex_live_built : built ex_live.
Proof.
  constructor.
  - constructor; [intros a b H; in_cases; simpl; unfold node; simpl; tauto| |]; simpl; repeat constructor; simpl; intuition discriminate.
  - intros a b H. in_cases; exact Logic.I.
  - intros n a b H H'. in_cases; congruence.
  - intros o Ho He. in_cases; simpl in He; try discriminate;
    do 3 eexists; (split; [reflexivity|split; [vm_compute; reflexivity|split; [unfold edge; simpl; intuition|simpl; intuition discriminate]]]).
  - intros o p Ho. in_cases; discriminate.
  - intros o Ho. in_cases; simpl; lia.
  - exists ex_rank. intros a b H. in_cases; vm_compute; lia.
Qed.
Theorem C42_combining_raises_refuted : exists st, built st /\
  registered ex_is_output (fun _ => true) (c_graph st) = [3] /\
  forall fuel, combine_all ex_is_output (4 + fuel) st [3] [3] = Err RuntimeError.
Proof. exists ex_live. split; [exact ex_live_built|]. split; [reflexivity|]. intros fuel. vm_compute. reflexivity. Qed.
Print Assumptions C42_combining_raises_refuted.

(** ** C66: dead code removal *)
(** It removes nothing, whatever the registered outputs depend on, and then raises:
    AttributeError, or KeyError if the graph has a cycle. *)
Theorem C66_removes_nothing_refuted : forall r r' x, rep_unflat r = None -> wf (c_graph (rep_flat r)) ->
  remove_dead_code r = (r', x) ->
  (x = Err AttributeError /\ ~ has_cycle (c_graph (rep_flat r)) \/ x = Err KeyError /\ has_cycle (c_graph (rep_flat r))) /\
  (forall n, node (c_graph (rep_flat r')) n <-> node (c_graph (rep_flat r)) n) /\
  (forall a b, edge (c_graph (rep_flat r')) a b <-> edge (c_graph (rep_flat r)) a b).
Proof.
  intros r r' x HN W H. unfold remove_dead_code in H. rewrite HN in H. unfold sort_nodes in H.
  pose proof (@topological_sort_spec _ nd_eqb nd_eqb_spec _ W) as S.
  destruct (topological_sort nd_eqb (c_graph (rep_flat r))) as [l|e].
  - destruct S as [P HO]. injection H as <- <-. simpl.
    replace (filter (fun y => negb (memA nd_eqb y l)) (g_nodes (c_graph (rep_flat r)))) with (@nil nd); [simpl|].
    + split; [|split; intros; reflexivity]. left. split; [reflexivity|].
      apply (@clos_trans_precedes _ _ W l); [|exact HO|].
      * apply (Permutation.Permutation_NoDup (Permutation.Permutation_sym P)), (wf_nodes _ W).
      * intros v Hv. apply (Permutation.Permutation_in _ (Permutation.Permutation_sym P)), Hv.
    + symmetry. apply filter_none. intros y Hy. apply negb_false_iff. apply (@memA_spec _ nd_eqb nd_eqb_spec).
      apply (Permutation.Permutation_in _ (Permutation.Permutation_sym P)), Hy.
  - injection H as <- <-. split; [right; auto|]. split; intros; reflexivity.
Qed.
Print Assumptions C66_removes_nothing_refuted.
(** V 5 has no consumer and is not registered, nothing registered depends on O 4. *)
Example C66_nonvacuous : wf (c_graph ex_chain) /\
  exists r', remove_dead_code (Rep ex_chain None) = (r', Err AttributeError) /\ node (c_graph (rep_flat r')) (O 4) /\
  registered ex_is_output (fun n => Nat.eqb n 4) (c_graph ex_chain) = [].
Proof.
  split; [apply (b_wf ex_chain_built)|]. eexists. split; [vm_compute; reflexivity|]. split; [vm_compute; intuition|reflexivity].
Qed.
