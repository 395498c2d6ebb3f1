(** C69-C75: queries on a representation. *)
From Verif Require Import PyBase NamesModel Digraph TopoModel TopoSpec TopoProofs QueryModel QuerySpec QueryProofs QueryProofs2.
From Coq Require Import Lia Permutation Relation_Operators Sorted.
Set Implicit Arguments.
Open Scope list_scope.

(** ** C69: influences *)
Theorem c69_inputs_to_outputs r : well_formed r ->
  let d := snd (influences r) in
  NoDup (dkeys d) /\
  (forall a l, dget d a = Some l -> l <> [] /\ NoDup l) /\
  (forall a b, (exists l, dget d a = Some l /\ In b l) <->
     exists x o, leaf r x /\ final_output r o /\ path r x o /\ named r x a /\ named r o b).
Proof.
  intros W d. unfold influences in d. cbn [snd] in d.
  set (ps := flat_map (fun o => map (fun y => (o, y)) (leaves_of r o)) (registered_outputs r)) in d.
  destruct (second_spec (fun ol => (full_name r (fst ol), full_name r (snd ol))) ps []) as (A & B & C).
  split; [apply C; constructor|]. split; [apply B; discriminate|].
  intros a b. etransitivity; [apply A|]. split.
  - intros [(l & E & _)|((o & x) & Hi & E)]; [discriminate|]. cbn in E. injection E as E1 E2.
    apply in_flat_map in Hi. destruct Hi as (o' & Ho & Hi). apply in_map_iff in Hi. destruct Hi as (y & E & Hy). injection E as -> ->.
    apply registered_spec in Ho. pose proof (final_node _ _ Ho) as No. apply leaves_of_spec in Hy; [|exact W|exact No]. destruct Hy as [Hl Hp].
    exists x, o. repeat split; try apply Hl; auto; apply full_name_spec; auto; apply Hl.
  - intros (x & o & Hl & Ho & Hp & Hx & Hn). right. exists (o, x). pose proof (final_node _ _ Ho) as No. split.
    + apply in_flat_map. exists o. split; [apply registered_spec; auto|]. apply in_map_iff. exists x. split; auto. apply leaves_of_spec; auto.
    + cbn. apply full_name_spec in Hx; [|exact W|apply Hl]. apply full_name_spec in Hn; [|exact W|exact No]. congruence.
Qed.
Print Assumptions c69_inputs_to_outputs.

(** The other dictionary: its keys are the names of the final registered outputs, and where such a
    name is unique its value has exactly the leaves with a name that the output depends on. *)
Theorem c69_outputs_to_inputs_partial r : well_formed r ->
  let d := fst (influences r) in
  NoDup (dkeys d) /\
  (forall b, In b (dkeys d) <-> exists o, final_output r o /\ named r o b) /\
  (forall b o, final_output r o -> named r o b -> (forall o', final_output r o' -> named r o' b -> o' = o) ->
     exists l, dget d b = Some l /\ forall x, In x l <-> leaf r x /\ path r x o /\ ~ named r x "").
Proof.
  intros W d. unfold influences in d. cbn [fst] in d.
  set (vf := fun o => filter (fun y => negb (String.eqb (full_name r y) "")) (leaves_of r o)) in d.
  destruct (first_spec (full_name r) vf (registered_outputs r) []) as (A & B & C). fold d in A, B, C.
  assert (K : forall b, In b (dkeys d) <-> exists o, final_output r o /\ named r o b).
  { intros b. etransitivity; [apply A|]. split.
    - intros [[]|(o & Ho & E)]. apply registered_spec in Ho; auto. exists o. split; auto. apply full_name_spec; auto. apply final_node, Ho.
    - intros (o & Ho & Hn). right. exists o. split; [apply registered_spec; auto|]. apply full_name_spec; auto. apply final_node, Ho. }
  split; [apply B; constructor|]. split; [exact K|]. intros b o Ho Hn Hu.
  assert (Hk : In b (dkeys d)) by (apply K; eauto). apply In_key_dget in Hk. destruct Hk as (l & E). exists l. split; auto.
  destruct (C _ _ E) as [E'|(o' & Ho' & En & ->)]; [discriminate|]. apply registered_spec in Ho'; auto.
  assert (o' = o). { apply Hu; auto. apply full_name_spec; auto. apply final_node, Ho'. } subst o'.
  pose proof (final_node _ _ Ho) as No. intros x. unfold vf. rewrite filter_In, negb_true_iff, leaves_of_spec by auto. rewrite String.eqb_neq. split.
  - intros [[Hl Hp] Hx]. repeat split; try apply Hl; auto. intros Hm. apply Hx. apply full_name_spec in Hm; auto. apply Hl.
  - intros (Hl & Hp & Hx). repeat split; try apply Hl; auto. intros Hm. apply Hx. apply full_name_spec; auto. apply Hl.
Qed.
Print Assumptions c69_outputs_to_inputs_partial.

(** x, y are inputs of f; g depends on x only and is used by h *)
Definition var n out auto := QVar (R := rep) (QV "" n out auto [2]).
Definition ex_rep : rep := Rep
  [(0, var "x" false false); (1, var "y" false false); (2, QOp "mul" false); (3, var "f" true false);
   (4, QOp "exp" false); (5, var "g" true false); (6, QOp "cos" false); (7, var "h" true false)]
  [(0, 2); (1, 2); (2, 3); (0, 4); (4, 5); (5, 6); (6, 7)].
Ltac mem := cbn; repeat (first [left; reflexivity | right]).
Ltac nodup := repeat (constructor; [let H := fresh in intros H; cbn in H; repeat (destruct H as [H|H]; [discriminate H|]); exact H|]); constructor.
Lemma ex_rep_wf : well_formed ex_rep.
Proof.
  split; cbn; [|nodup|nodup]. unfold edge, node. cbn. intros a b H.
  repeat (destruct H as [H|H]; [injection H as <- <-; split; mem|]). destruct H.
Qed.
Example c69_nonvacuous : well_formed ex_rep /\
  snd (influences ex_rep) = [("x", ["f"; "h"]); ("y", ["f"])]%string /\ fst (influences ex_rep) = [("f"%string, [0; 1]); ("h"%string, [0])].
Proof. split; [exact ex_rep_wf|split; vm_compute; reflexivity]. Qed.

(** The values of the first dictionary are nodes, not names (no list of strings is even comparable);
    an output used by another operation is in neither dictionary, so an objective or constraint
    that is used further is missing; an operation without arguments is listed as an input. *)
Theorem c69_every_response_refuted : exists r x o, well_formed r /\ leaf r x /\ path r x o /\
  (exists v, has_node r o (QVar v) /\ qv_output v = true /\ qv_auto v = false) /\ named r o "g" /\
  dget (fst (influences r)) "g" = None /\ (forall a l, dget (snd (influences r)) a = Some l -> ~ In "g"%string l).
Proof.
  exists ex_rep, 0, 5. split; [exact ex_rep_wf|]. split; [split|split; [|split; [|split; [|split]]]].
  - left; reflexivity.
  - unfold edge; cbn. intros y H. repeat (destruct H as [H|H]; [discriminate H|]). exact H.
  - apply t_trans with 4; apply t_step; unfold edge; mem.
  - exists (QV "" "g" true false [2]). split; [unfold has_node; mem|auto].
  - exists (var "g" true false). split; [unfold has_node; mem|reflexivity].
  - vm_compute. reflexivity.
  - intros a l H. apply dget_In in H. vm_compute in H. destruct H as [H|[H|[]]]; injection H as <- <-; cbn; intros K; repeat (destruct K as [K|K]; [discriminate K|]); exact K.
Qed.
Print Assumptions c69_every_response_refuted.
Theorem c69_inputs_only_refuted : exists r a l, well_formed r /\ dget (snd (influences r)) a = Some l /\
  forall x k, has_node r x k -> named r x a -> is_operation k = true.
Proof.
  exists (Rep [(0, QOp "custom" true); (1, var "f" true false)] [(0, 1)]), "custom"%string, ["f"%string]. split; [|split; [vm_compute; reflexivity|]].
  - split; cbn; [|nodup|nodup]. unfold edge, node. cbn. intros a b [H|[]]. injection H as <- <-. split; mem.
  - unfold has_node. cbn. intros x k [H|[H|[]]] Hn; injection H as <- <-; [reflexivity|].
    destruct Hn as (k & Hk & E). unfold has_node in Hk. cbn in Hk. destruct Hk as [Hk|[Hk|[]]]; [discriminate Hk|]. injection Hk as <-. discriminate E.
Qed.
Print Assumptions c69_inputs_only_refuted.

(** ** C70: inputs, outputs, edges *)
Lemma measure_weights vec l : measure vec l = list_sum (map (fun xv => var_weight vec (snd xv)) l).
Proof.
  destruct vec; cbn; [|reflexivity]. induction l as [|a l IH]; [reflexivity|]. cbn [length map]. rewrite IH. reflexivity.
Qed.
Theorem c70_inputs r vec l : well_formed r -> NoDup l ->
  (forall x v, In (x, v) l <-> has_node r x (QVar v) /\ forall y, ~ edge (graph r) y x) ->
  nin_vars vec false r = measure vec l.
Proof.
  intros W Nl Hl. unfold nin_vars. rewrite measure_weights. apply count_vars_list; auto; [apply (wf_nodes _ W)|].
  intros x v. rewrite Hl, Nat.eqb_eq, <- indeg_zero. split; intros [? ?]; auto.
Qed.
Print Assumptions c70_inputs.
Theorem c70_outputs r vec l : well_formed r -> NoDup l ->
  (forall x v, In (x, v) l <-> has_node r x (QVar v) /\ exists y, edge (graph r) y x) ->
  nout_vars vec false r = measure vec l.
Proof.
  intros W Nl Hl. unfold nout_vars. rewrite measure_weights. apply count_vars_list; auto; [apply (wf_nodes _ W)|].
  intros x v. rewrite Hl, Nat.ltb_lt. split; intros [H1 H2]; (split; [exact H1|]).
  - destruct H2 as (y & He). apply preds_edge in He. unfold indeg. destruct (preds Nat.eqb (graph r) x); [destruct He|cbn; lia].
  - unfold indeg in H2. destruct (preds Nat.eqb (graph r) x) as [|y t] eqn:E; [cbn in H2; lia|]. exists y. apply preds_edge. rewrite E. left; reflexivity.
Qed.
Print Assumptions c70_outputs.
Theorem c70_partition r vec : nin_vars vec false r + nout_vars vec false r =
  if vec then length (variables r) else list_sum (map (fun v => prod (qv_shape v)) (variables r)).
Proof.
  unfold nin_vars, nout_vars. cbn [plus]. rewrite count_vars_total. destruct vec; [|reflexivity].
  cbn. induction (variables r) as [|a l IH]; [reflexivity|]. cbn [map length]. rewrite <- IH. reflexivity.
Qed.
Print Assumptions c70_partition.
Theorem c70_every_edge_counted r : well_formed r ->
  list_sum (num_uses_of_variables false r) + list_sum (outputs_per_operation false r) = length (rep_edges r).
Proof. intros W. unfold num_uses_of_variables, outputs_per_operation. rewrite !app_nil_r. apply count_edges, W. Qed.
Print Assumptions c70_every_edge_counted.
Example c70_nonvacuous : well_formed ex_rep /\ nin_vars true false ex_rep = 2 /\ nin_vars false false ex_rep = 4 /\
  nout_vars true false ex_rep = 3 /\ num_uses_of_variables false ex_rep = [2; 1; 0; 1; 0] /\ outputs_per_operation false ex_rep = [1; 1; 1].
Proof. split; [exact ex_rep_wf|repeat split; vm_compute; reflexivity]. Qed.

(** ** C71: totals over the representations of implicit operations *)
Theorem c71_variable_sizes r : get_variable_sizes r = flat_map (fun s => map (fun v => prod (qv_shape v)) (variables s)) (all_reps r).
Proof. unfold get_variable_sizes, get_var_nodes. rewrite rec_concat, map_flat_map. reflexivity. Qed.
Print Assumptions c71_variable_sizes.
Theorem c71_distribution r : let (sizes, counts) := variable_size_distribution r in
  StronglySorted lt sizes /\ length counts = length sizes /\
  forall s n, In (s, n) (combine sizes counts) <->
    n = count_occ Nat.eq_dec (flat_map (fun s => map (fun v => prod (qv_shape v)) (variables s)) (all_reps r)) s /\ 0 < n.
Proof.
  unfold variable_size_distribution. rewrite c71_variable_sizes. set (xs := flat_map _ _). destruct (distribution_counted xs) as [A B].
  split; [exact A|]. split; [rewrite !map_length; reflexivity|]. intros s n. rewrite <- B.
  set (l := fold_left _ xs []). replace (combine (map fst l) (map snd l)) with l; [reflexivity|]. clear. induction l as [|[a b] l IH]; cbn; congruence.
Qed.
Print Assumptions c71_distribution.
Theorem c71_outputs r vec : nout_vars vec true r = list_sum (map (nout_vars vec false) (all_reps r)).
Proof. unfold nout_vars. apply rec_sum. intros. lia. Qed.
Print Assumptions c71_outputs.
Theorem c71_arguments r : (forall s, In s (all_reps r) -> well_formed s) ->
  total_arguments_per_operation r = list_sum (map (fun s =>
    length (filter (fun e => existsb (fun nk => Nat.eqb (fst nk) (snd e) && negb (is_variable (snd nk))) (rep_nodes s)) (rep_edges s))) (all_reps r)).
Proof.
  intros W. unfold total_arguments_per_operation. rewrite (@rec_sum _ (fun s => list_sum (own_args s))) by reflexivity.
  f_equal. apply map_ext_in. intros s Hs. apply count_args, W, Hs.
Qed.
Print Assumptions c71_arguments.
(** An implicit operation with one state and one residual, nested in another one. *)
Definition ex_inner : rep := Rep
  [(0, var "u" false false); (1, var "x" false false); (2, QOp "sub" false); (3, var "res" true false)] [(0, 2); (1, 2); (2, 3)].
Definition ex_middle : rep := Rep
  [(0, var "p" false false); (1, QImp "inner" (Ok 10) ex_inner); (2, var "u" true false); (3, QOp "sub" false); (4, var "r" true false)]
  [(0, 1); (1, 2); (2, 3); (3, 4)].
Definition ex_outer : rep := Rep
  [(0, var "q" false false); (1, QImp "middle" (Ok 5) ex_middle); (2, var "z" true false)] [(0, 1); (1, 2)].
Lemma ex_outer_wf : forall s, In s (all_reps ex_outer) -> well_formed s.
Proof.
  intros s H. change (all_reps ex_outer) with [ex_outer; ex_middle; ex_inner] in H.
  destruct H as [<- |[<- |[<- |[]]]]; (split; [unfold edge, node; cbn; intros a b H;
    repeat (destruct H as [H|H]; [injection H as <- <-; split; mem|]); destruct H|cbn; nodup|cbn; nodup]).
Qed.
Example c71_nonvacuous : (forall s, In s (all_reps ex_outer) -> well_formed s) /\ length (all_reps ex_outer) = 3 /\
  variable_size_distribution ex_outer = ([2], [8]) /\ nout_vars true true ex_outer = 4 /\ total_arguments_per_operation ex_outer = 5.
Proof. split; [exact ex_outer_wf|repeat split; vm_compute; reflexivity]. Qed.
(** nin_vars and the two lists do not do the same. *)
Theorem c71_inputs_refuted : ~ forall r, nin_vars true true r = list_sum (map (nin_vars true false) (all_reps r)).
Proof. intros H. specialize (H ex_middle). vm_compute in H. discriminate H. Qed.
Print Assumptions c71_inputs_refuted.
Theorem c71_uses_refuted : ~ forall r, num_uses_of_variables true r = flat_map (num_uses_of_variables false) (all_reps r).
Proof. intros H. specialize (H ex_outer). vm_compute in H. discriminate H. Qed.
Print Assumptions c71_uses_refuted.
Theorem c71_operation_outputs_refuted : ~ forall r, outputs_per_operation true r = flat_map (outputs_per_operation false) (all_reps r).
Proof. intros H. specialize (H ex_outer). vm_compute in H. discriminate H. Qed.
Print Assumptions c71_operation_outputs_refuted.
(** What they do: one level. *)
Theorem c71_one_level_partial r :
  num_uses_of_variables true r = flat_map (num_uses_of_variables false) (r :: nested r) /\
  outputs_per_operation true r = flat_map (outputs_per_operation false) (r :: nested r) /\
  forall vec, nin_vars vec true r = nin_vars vec false r + list_sum (map (nout_vars vec false) (flat_map all_reps (nested r))).
Proof.
  unfold num_uses_of_variables, outputs_per_operation. cbn [flat_map]. rewrite !app_nil_r. repeat split.
  - f_equal. apply flat_map_ext. intros. rewrite app_nil_r. reflexivity.
  - f_equal. apply flat_map_ext. intros. rewrite app_nil_r. reflexivity.
  - intros vec. unfold nin_vars. cbn [plus]. rewrite Nat.add_comm. f_equal. rewrite map_flat_map, list_sum_flat_map. f_equal.
    apply map_ext. intros s. apply c71_outputs.
Qed.
Print Assumptions c71_one_level_partial.

(** ** C72: largest number of arguments *)
Theorem c72_maximum r m : (forall s, In s (all_reps r) -> well_formed s) -> max_arguments_per_operation r = Ok m ->
  (exists s x, In s (all_reps r) /\ operation s x /\ arguments s x m) /\
  (forall s x n, In s (all_reps r) -> operation s x -> arguments s x n -> n <= m).
Proof.
  intros W H. destruct (@max_args_ok _ _ H) as (A & (s & Hs & B) & _). split.
  - apply own_args_In in B. destruct B as (x & k & Hk & Hv & E). exists s, x. split; auto. split.
    + exists k. split; auto. destruct k; [discriminate Hv| |]; exact I.
    + apply indeg_count; [apply W, Hs|]. congruence.
  - intros s' x n Hs' (k & Hk & Hv) Hn. apply indeg_count in Hn; [|apply W, Hs']. apply (A s'); auto. apply own_args_In. exists x, k. repeat split; auto.
    destruct k; [destruct Hv| |]; reflexivity.
Qed.
Print Assumptions c72_maximum.
Theorem c72_answers r : (exists m, max_arguments_per_operation r = Ok m) <-> (forall s, In s (all_reps r) -> exists x, operation s x).
Proof.
  split.
  - intros (m & H) s Hs. destruct (@max_args_ok _ _ H) as (_ & _ & C). specialize (C s Hs).
    destruct (own_args s) as [|n t] eqn:E; [congruence|]. assert (K : In n (own_args s)) by (rewrite E; left; reflexivity).
    apply own_args_In in K. destruct K as (x & k & Hk & Hv & _). exists x, k. split; auto. destruct k; [discriminate Hv| |]; exact I.
  - intros H. apply max_args_answers. intros s Hs E. destruct (H s Hs) as (x & k & Hk & Hv).
    assert (K : In (indeg s x) (own_args s)) by (apply own_args_In; exists x, k; repeat split; auto; destruct k; [destruct Hv| |]; reflexivity).
    rewrite E in K. destruct K.
Qed.
Print Assumptions c72_answers.
Theorem c72_raises r : (exists s, In s (all_reps r) /\ forall x, ~ operation s x) -> max_arguments_per_operation r = Err ValueError.
Proof.
  intros (s & Hs & Hn). destruct (max_arguments_per_operation r) as [m|e] eqn:E.
  - exfalso. destruct (proj1 (c72_answers r) (ex_intro _ m E) s Hs) as (x & Hx). apply (Hn x Hx).
  - f_equal. apply (@max_args_err _ _ E).
Qed.
Print Assumptions c72_raises.
Example c72_nonvacuous : (forall s, In s (all_reps ex_outer) -> well_formed s) /\ max_arguments_per_operation ex_outer = Ok 2 /\
  max_arguments_per_operation (Rep [(0, var "x" false false)] []) = Err ValueError.
Proof. split; [exact ex_outer_wf|split; vm_compute; reflexivity]. Qed.

(** ** C73: serial cost *)
Theorem c73_serial_cost r c : serial_cost r = Ok c ->
  (forall w s, In (w, s) (weighted_reps (Some 1) r) -> w <> None) /\
  c = list_sum (map (fun ws => match fst ws with Some w => w * explicit_operations (snd ws) | None => 0 end) (weighted_reps (Some 1) r)).
Proof.
  intros H. destruct (@serial_cost_ok _ _ H 1) as [A B]. split; [intros w s Hi; apply (A _ Hi)|].
  rewrite Nat.mul_1_l in B. rewrite <- B. unfold weighted_sum. f_equal. apply map_ext. intros [[w|] s]; reflexivity.
Qed.
Print Assumptions c73_serial_cost.
Theorem c73_raises r : (exists e, serial_cost r = Err e) <-> (exists s, In (None, s) (weighted_reps (Some 1) r)).
Proof.
  split.
  - intros (e & E). assert (D : {exists s, In (None, s) (weighted_reps (Some 1) r)} + {forall wr, In wr (weighted_reps (Some 1) r) -> fst wr <> None}).
    { generalize (weighted_reps (Some 1) r). intros l. induction l as [|[[w|] s] l IH].
      - right. intros ? [].
      - destruct IH as [IH|IH]; [left|right].
        + destruct IH as (s' & H). exists s'. right; exact H.
        + intros wr [<- |H]; [discriminate|apply IH, H].
      - left. exists s. left; reflexivity. }
    destruct D as [D|D]; auto. destruct (@serial_cost_answers _ _ D) as (c & Hc). congruence.
  - intros (s & Hs). destruct (serial_cost r) as [c|e] eqn:E; [|eauto]. destruct (c73_serial_cost _ E) as [A _]. exfalso. apply (A None s Hs eq_refl).
Qed.
Print Assumptions c73_raises.
Example c73_nonvacuous : serial_cost ex_outer = Ok (5 * (1 + 10 * 1)) /\ length (weighted_reps (Some 1) ex_outer) = 3 /\
  serial_cost (Rep [(0, QImp "solve" (Err AttributeError) ex_inner)] []) = Err AttributeError.
Proof. repeat split; vm_compute; reflexivity. Qed.

(** ** C74: parallel computation time *)
Theorem c74_longest_walk r n : well_formed r -> predict_computation_time_parallel r = Ok n ->
  ~ has_cycle (graph r) /\ (forall m x y, walk r m x y -> m <= n) /\
  ((exists x y, walk r n x y) \/ rep_nodes r = [] /\ n = 0).
Proof.
  intros W H. pose proof (@longest_spec _ W) as S. rewrite H in S. destruct S as (A & B & C & D). split; auto. split; auto.
  destruct (rep_nodes r) as [|a t]; [right; auto|left; apply B; discriminate].
Qed.
Print Assumptions c74_longest_walk.
Theorem c74_raises_iff_cyclic r : well_formed r -> ((exists e, predict_computation_time_parallel r = Err e) <-> has_cycle (graph r)).
Proof.
  intros W. pose proof (@longest_spec _ W) as S. destruct (predict_computation_time_parallel r) as [n|e].
  - split; [intros (e & E); discriminate|]. intros C. destruct S as [A _]. contradiction.
  - split; [intros _; apply S|]. intros _. eauto.
Qed.
Print Assumptions c74_raises_iff_cyclic.
Example c74_nonvacuous : well_formed ex_rep /\ predict_computation_time_parallel ex_rep = Ok 4.
Proof. split; [exact ex_rep_wf|vm_compute; reflexivity]. Qed.

(** It is not the number of operations on a longest path (the docstring): edges are counted. *)
Theorem c74_operations_on_path_refuted : exists r n, well_formed r /\ predict_computation_time_parallel r = Ok n /\
  explicit_operations r < n.
Proof.
  exists (Rep [(0, var "x" false false); (1, QOp "cos" false); (2, var "f" true false)] [(0, 1); (1, 2)]), 2.
  split; [|split; [vm_compute; reflexivity|cbn; lia]].
  split; cbn; [|nodup|nodup]. unfold edge, node. cbn. intros a b H.
  repeat (destruct H as [H|H]; [injection H as <- <-; split; mem|]). destruct H.
Qed.
Print Assumptions c74_operations_on_path_refuted.

(** ** C75: statistics *)
Theorem c75_never_answered_refuted q : (forall i, q <> Avg_var_uses_per_var i) -> (forall i, q <> Avg_outs_per_op i) ->
  forall r, exists e, ask q r = Err e /\ (e = AttributeError \/ e = ValueError /\ q = Best_case_memory /\ forall x, ~ operation r x).
Proof.
  intros H1 H2 r. destruct q; try (eexists; split; [reflexivity|left; reflexivity]); try (exfalso; eapply H1; reflexivity); try (exfalso; eapply H2; reflexivity).
  - cbn [ask]. exists AttributeError. split; [|left; reflexivity]. induction r as [r IH] using rep_induction. rewrite rec_eq.
    match goal with |- bind ?a _ = _ => assert (E : a = Ok 0 \/ a = Err AttributeError) end.
    { induction (nested r) as [|s l IHl]; [left; reflexivity|]. right. cbn [map sum_res]. rewrite (IH s) by (left; reflexivity). reflexivity. }
    destruct E as [-> | ->]; reflexivity.
  - cbn [ask]. destruct (own_ops r) as [|nk t] eqn:E; [|eexists; split; [reflexivity|left; reflexivity]]. exists ValueError. split; [reflexivity|].
    right. split; auto. split; auto. intros x (k & Hk & Hv).
    assert (K : In (x, k) (own_ops r)). { unfold own_ops. apply filter_In. split; [exact Hk|]. destruct k; [destruct Hv| |]; reflexivity. }
    rewrite E in K. destruct K.
Qed.
Print Assumptions c75_never_answered_refuted.
(** The two averages raise whenever there is anything to average over, in the representation or,
    with [implicit], in that of an implicit operation at any depth; otherwise they are 0. *)
Lemma per_node_cases (has : knd rep -> bool) (i : bool) (r : rep) :
  ((exists s, In s (if i then all_reps r else [r]) /\ exists x k, has_node s x k /\ has k = true) -> per_node has i r = Err NameError) /\
  ((forall s, In s (if i then all_reps r else [r]) -> forall x k, has_node s x k -> has k = false) -> per_node has i r = Ok 0).
Proof.
  assert (U1 : forall r, (exists x k, has_node r x k /\ has k = true) -> undefined_graph has r = Err NameError).
  { intros r0 (x & k & H & Hk). unfold undefined_graph. replace (existsb _ _) with true; [reflexivity|]. symmetry. apply existsb_exists. exists (x, k). auto. }
  assert (U2 : forall r, (forall x k, has_node r x k -> has k = false) -> undefined_graph has r = Ok 0).
  { intros r0 H. unfold undefined_graph. destruct (existsb _ _) eqn:E; [|reflexivity]. apply existsb_exists in E. destruct E as ([x k] & Hi & Hk).
    cbn [snd] in Hk. rewrite (H x k Hi) in Hk. discriminate. }
  unfold per_node. destruct i.
  2: { split; [intros (s & [<- |[]] & H); auto|intros H; apply U2, H; left; reflexivity]. }
  induction r as [r IH] using rep_induction. rewrite rec_eq.
  assert (D : forall r0 : rep, (exists x k, has_node r0 x k /\ has k = true) \/ (forall x k, has_node r0 x k -> has k = false)).
  { intros r0. destruct (existsb (fun nk => has (snd nk)) (rep_nodes r0)) eqn:E.
    - apply existsb_exists in E. destruct E as ([x k] & Hi & Hk). left. exists x, k. auto.
    - right. intros x k Hi. destruct (has k) eqn:Ek; [|reflexivity].
      assert (X : existsb (fun nk => has (snd nk)) (rep_nodes r0) = true) by (apply existsb_exists; exists (x, k); auto). congruence. }
  assert (S2 : forall l : list rep, (forall s, In s l -> In s (nested r)) ->
    (forall s, In s l -> forall u, In u (all_reps s) -> forall x k, has_node u x k -> has k = false) ->
    sum_res (map (rec (fun r subs => do a <- sum_res subs; do b <- undefined_graph has r; Ok (a + b))) l) = Ok 0).
  { induction l as [|s l IHl]; [reflexivity|]. intros L H. cbn [map sum_res].
    destruct (IH s (L s (or_introl eq_refl))) as [_ B]. rewrite B by (apply H; left; reflexivity). cbn [bind].
    rewrite IHl; [reflexivity| |]; intros; [apply L; right; assumption|eapply H; [right|..]; eassumption]. }
  assert (S1 : forall l : list rep, (forall s, In s l -> In s (nested r)) ->
    (exists s, In s l /\ exists u, In u (all_reps s) /\ exists x k, has_node u x k /\ has k = true) ->
    sum_res (map (rec (fun r subs => do a <- sum_res subs; do b <- undefined_graph has r; Ok (a + b))) l) = Err NameError).
  { induction l as [|s l IHl]; intros L (s' & Hs & H); [destruct Hs|]. cbn [map sum_res].
    destruct (IH s (L s (or_introl eq_refl))) as [A B].
    assert (E : (exists u, In u (all_reps s) /\ exists x k, has_node u x k /\ has k = true) \/
                (forall u, In u (all_reps s) -> forall x k, has_node u x k -> has k = false)).
    { clear - D. induction (all_reps s) as [|u t IHt]; [right; intros u []|]. destruct (D u) as [Y|Y]; [left; exists u; split; [left; reflexivity|exact Y]|].
      destruct IHt as [(v & Hv & H)|H]; [left; exists v; split; [right; exact Hv|exact H]|]. right. intros v [<- |Hv]; [exact Y|apply H, Hv]. }
    destruct E as [E|E]; [rewrite A by exact E; reflexivity|]. rewrite B by exact E. cbn [bind]. rewrite IHl; [reflexivity| |].
    - intros; apply L; right; assumption.
    - destruct Hs as [<- |Hs]; [|exists s'; auto]. destruct H as (u & Hu & x & k & Hk & T). rewrite (E u Hu x k Hk) in T. discriminate. }
  rewrite all_reps_eq. split.
  - intros (s & [<- |Hs] & H).
    + destruct (sum_res _) as [a|e] eqn:E; cbn [bind]; [rewrite (U1 _ H); reflexivity|].
      assert (Q : forall l : list rep, (forall s, In s l -> In s (nested r)) ->
        (forall s, In s l -> rec (fun r subs => do a <- sum_res subs; do b <- undefined_graph has r; Ok (a + b)) s = Err NameError \/
           exists n, rec (fun r subs => do a <- sum_res subs; do b <- undefined_graph has r; Ok (a + b)) s = Ok n) ->
        forall e, sum_res (map (rec (fun r subs => do a <- sum_res subs; do b <- undefined_graph has r; Ok (a + b))) l) = Err e -> e = NameError).
      { induction l as [|u l IHl]; intros L K e0; cbn [map sum_res]; [discriminate|].
        destruct (K u (or_introl eq_refl)) as [-> |[n ->]]; cbn [bind]; [congruence|].
        match goal with |- bind ?a _ = _ -> _ => destruct a as [m|e1] eqn:E1 end; cbn [bind]; [discriminate|]. intros X. assert (e1 = e0) as <- by congruence.
        apply (IHl (fun s Hs => L s (or_intror Hs)) (fun s Hs => K s (or_intror Hs)) e1 eq_refl). }
      f_equal. eapply Q; [| |exact E]; [auto|]. intros u Hu. destruct (IH u Hu) as [A B].
      assert (F : (exists v, In v (all_reps u) /\ exists x k, has_node v x k /\ has k = true) \/
                (forall v, In v (all_reps u) -> forall x k, has_node v x k -> has k = false)).
      { clear - D. induction (all_reps u) as [|w t IHt]; [right; intros v []|]. destruct (D w) as [Y|Y]; [left; exists w; split; [left; reflexivity|exact Y]|].
        destruct IHt as [(v & Hv & H)|H]; [left; exists v; split; [right; exact Hv|exact H]|]. right. intros v [<- |Hv]; [exact Y|apply H, Hv]. }
      destruct F as [F|F]; [left; exact (A F)|right; exists 0; exact (B F)].
    + apply in_flat_map in Hs. destruct Hs as (u & Hu & Hs). rewrite S1; [reflexivity|auto|]. exists u. split; auto. exists s. auto.
  - intros H. rewrite S2; [cbn [bind]; rewrite U2; [reflexivity|] |auto|].
    + apply H. left; reflexivity.
    + intros s Hs u Hu. apply H. right. apply in_flat_map. exists s. auto.
Qed.

Theorem c75_averages_refuted (r : rep) (i : bool) :
  ((exists s, In s (if i then all_reps r else [r]) /\ exists x k, has_node s x k /\ is_variable k = true) ->
     ask (Avg_var_uses_per_var i) r = Err NameError) /\
  ((forall s, In s (if i then all_reps r else [r]) -> forall x k, has_node s x k -> is_variable k = false) ->
     ask (Avg_var_uses_per_var i) r = Ok 0).
Proof. exact (per_node_cases is_variable i r). Qed.
Print Assumptions c75_averages_refuted.
Theorem c75_average_outputs_refuted (r : rep) (i : bool) :
  ((exists s, In s (if i then all_reps r else [r]) /\ exists x, operation s x) -> ask (Avg_outs_per_op i) r = Err NameError) /\
  ((forall s, In s (if i then all_reps r else [r]) -> forall x, ~ operation s x) -> ask (Avg_outs_per_op i) r = Ok 0).
Proof.
  destruct (per_node_cases is_operation i r) as [A B]. split.
  - intros (s & Hs & x & k & H & Hk). apply A. exists s. split; [exact Hs|]. exists x, k. split; [exact H|]. destruct k; [destruct Hk|reflexivity..].
  - intros H. apply B. intros s Hs x k Hk. destruct k; [reflexivity|exfalso; apply (H s Hs x); eexists; split; [exact Hk|exact I]..].
Qed.
Print Assumptions c75_average_outputs_refuted.
Example c75_nonvacuous : ask Num_input_nodes ex_rep = Err AttributeError /\ ask (Avg_outs_per_op false) ex_rep = Err NameError /\ ask Num_scalar_variables ex_outer = Err AttributeError.
Proof. repeat split; vm_compute; reflexivity. Qed.
