(** Property theorems C22, C23, C24, C53: the graph built for each model. *)
From Verif Require Import PyBase NamesModel NamesProofs Digraph ExprModel ExprSpec UnflatModel UnflatSpec UnflatProofs UnflatProofs2
  ExprProofs ExprProofs2 ExprProofs3.
Local Open Scope string_scope.
Local Open Scope list_scope.

(** The model that a history of calls defines, with the given submodels. *)
Definition defined_model (l : list event) (subs : list (string * umodel)) : umodel :=
  UM (b_ins (history l)) (b_outs (history l)) (b_decls (history l)) subs.
(** Two results of operations never have the same name. *)
Definition computed_names_distinct (h : list obj) : Prop :=
  forall a b n, variable h a -> variable h b -> (exists x, flows h x a) -> (exists x, flows h x b) ->
    named h a n -> named h b n -> a = b.
(** Fewer nodes than generated ids. *)
Definition few_nodes (l : list event) : Prop := (b_count (history l) <= 62 * 63 ^ 4)%N.

(** ** C22: contents of the graph *)
(** Whatever the objects (even cyclic): the traversal terminates, and the graph it adds is
    the image of what the leaves need under the assignment of nodes to names. *)
Theorem c22_terminates : forall h p nodes g leaves, wf g -> construct_this_model h p nodes g leaves <> None.
Proof. intros h p nodes g leaves W H. destruct (@construct_spec h p nodes g leaves W) as (r & E & _). congruence. Qed.
Print Assumptions c22_terminates.
(** In general: there is one node per name, and the graph is exactly the image of the
    expression graph needed by the outputs and declared variables, with the inputs and one
    node per submodel. *)
Theorem c22_image : forall h p ins outs decls subs u,
  (forall i, In i ins -> i < length h) ->
  construct_all h p (UM ins outs decls subs) = Ok u ->
  exists f : nat -> irnode,
    (forall x, scope h ins (outs ++ decls) x ->
        (exists o, f x = NObj p o /\ scope h ins (outs ++ decls) o /\ (forall k, named h x k <-> named h o k)) \/
        (exists s, f x = NModel p s /\ In s (map fst subs) /\ named h x s)) /\
    (forall x y k k', scope h ins (outs ++ decls) x -> scope h ins (outs ++ decls) y -> named h x k -> named h y k' ->
        (f x = f y <-> k = k')) /\
    (forall a b, edge (ug_graph u) a b <-> exists x y,
        needed h (outs ++ decls) x /\ needed h (outs ++ decls) y /\ flows h x y /\ a = f x /\ b = f y) /\
    (forall a, node (ug_graph u) a <-> (exists s, In s (map fst subs) /\ a = NModel p s) \/ (exists i, In i ins /\ a = f i) \/
        (exists x y, needed h (outs ++ decls) x /\ needed h (outs ++ decls) y /\ flows h x y /\ (a = f x \/ a = f y))) /\
    (forall x, needed h (outs ++ decls) x -> variable h x -> exists o, f x = NObj p o /\ variable h o) /\
    wf (ug_graph u).
Proof. exact graph_of_model. Qed.
Print Assumptions c22_image.
(** With distinct names the graph contains exactly the submodels, the inputs and what the
    registered outputs transitively depend on, with one edge per dependency. *)
Theorem c22_contents : forall h p ins outs decls subs u,
  (forall i, In i ins -> i < length h) ->
  names_apart h (scope h ins (outs ++ decls)) (map fst subs) ->
  (forall x, needed h (outs ++ decls) x -> x < length h) ->
  (forall d y, In d decls -> ~ reads h d y) -> (forall d, In d decls -> ~ operation h d) ->
  (forall d y, In d decls -> ~ writes h y d) ->
  (forall o, In o outs -> exists y, reads h o y) ->
  construct_all h p (UM ins outs decls subs) = Ok u ->
  (forall a b, edge (ug_graph u) a b <-> exists x y,
        a = NObj p x /\ b = NObj p y /\ needed h outs x /\ needed h outs y /\ flows h x y) /\
  (forall a, node (ug_graph u) a <-> (exists s, In s (map fst subs) /\ a = NModel p s) \/
        (exists x, a = NObj p x /\ (In x ins \/ needed h outs x))).
Proof. exact graph_contents. Qed.
Print Assumptions c22_contents.
(** The graphs of the submodels hang below the node of the submodel. *)
Theorem c22_submodels : forall h p ins outs decls subs u, construct_all h p (UM ins outs decls subs) = Ok u ->
  (forall s su, In (s, su) (ug_subs u) -> exists sm, In (s, sm) subs /\ construct_all h (p ++ [s]) sm = Ok su) /\
  (forall s, In s (map fst (ug_subs u)) <-> In s (map fst subs)) /\ NoDup (map fst (ug_subs u)).
Proof. exact sub_graphs. Qed.
Print Assumptions c22_submodels.
(** Construction does not fail on models without name clashes between variables and
    operations or submodels. *)
Theorem c22_builds : forall h m p, no_dangling h -> buildable h m -> exists u, construct_all h p m = Ok u.
Proof. intros h m p N B. exact (@construct_all_ok h N m B p). Qed.
Print Assumptions c22_builds.
Theorem c22_history_builds : forall l subs p, (forall e, In e l -> clean_event (b_count (history l)) e) -> few_nodes l ->
  map fst subs = b_subs (history l) ->
  (forall v n, variable (b_heap (history l)) v -> named (b_heap (history l)) v n -> In n (b_subs (history l)) ->
     exists i, In i (b_ins (history l)) /\ named (b_heap (history l)) i n) ->
  (forall x sm, In (x, sm) subs -> buildable (b_heap (history l)) sm) ->
  exists u, construct_all (b_heap (history l)) p (defined_model l subs) = Ok u.
Proof. intros l subs p C F S V B. exact (@history_builds l subs C F S p V B). Qed.
Print Assumptions c22_history_builds.

(** x*d*x with an unused declaration, the second of two results is not registered. *)
Definition exhist : list event :=
  [EInput "x"; EDeclare "d"; EDeclare "unused"; EApply [0; 1; 0] 1; EApply [6] 2; ERegister "y" 8].
Notation exheap := (b_heap (history exhist)).
Lemma exheap_tbl : length exheap = 10. Proof. vm_compute. reflexivity. Qed.
Lemma ex_named o n : named exheap o n -> nth_error
  (map Some ["x"; "d"; "unused"; "_0003"; "_0004"; "_0005"; "_0006"; "_0007"; "y"; "_0009"]) o = Some (Some n).
Proof.
  intros (ob & E & <-). assert (L : o < 10) by (rewrite <- exheap_tbl; apply nth_error_Some; congruence).
  do 10 (destruct o as [|o]; [vm_compute in E; injection E as <-; reflexivity|]). lia.
Qed.
Lemma ex_reads x y : reads exheap x y -> In y (nth x [[]; []; []; [0]; [3]; [0; 1; 4]; [5]; [6]; [7]; [7]] []).
Proof.
  intros (ob & E & H). assert (L : x < 10) by (rewrite <- exheap_tbl; apply nth_error_Some; congruence).
  do 10 (destruct x as [|x]; [vm_compute in E; injection E as <-; exact H|]). lia.
Qed.
Lemma ex_writes x y : writes exheap x y -> In y (nth x [[]; []; []; [4]; []; [6]; []; [8; 9]; []; []] []).
Proof.
  intros (ob & E & _ & H). assert (L : x < 10) by (rewrite <- exheap_tbl; apply nth_error_Some; congruence).
  do 10 (destruct x as [|x]; [vm_compute in E; injection E as <-; exact H|]). lia.
Qed.
Lemma ex_hyps :
  (forall i, In i [0] -> i < length exheap) /\ names_apart exheap (scope exheap [0] ([8] ++ [1; 2])) (map fst (@nil (string * umodel))) /\
  (forall x, needed exheap ([8] ++ [1; 2]) x -> x < length exheap) /\
  (forall d y, In d [1; 2] -> ~ reads exheap d y) /\ (forall d, In d [1; 2] -> ~ operation exheap d) /\
  (forall d y, In d [1; 2] -> ~ writes exheap y d) /\ (forall o, In o [8] -> exists y, reads exheap o y).
Proof.
  split; [|split; [|split; [|split; [|split; [|split]]]]].
  - rewrite exheap_tbl. intros i [<-|[]]. lia.
  - split; [|intros a n _ _ []]. intros a b n _ _ Ha Hb. apply ex_named in Ha, Hb.
    assert (D : forall l : list (option string), NoDup l -> nth_error l a = Some (Some n) -> nth_error l b = Some (Some n) -> a = b).
    { intros l ND Ea Eb. apply (proj1 (NoDup_nth_error l) ND); [apply nth_error_Some; congruence|congruence]. }
    refine (D _ _ Ha Hb). cbn. repeat constructor; cbn; intuition congruence.
  - intros x Hx. rewrite exheap_tbl. induction Hx as [x Hx|x y _ _ H|x y _ _ H].
    + cbn in Hx. lia.
    + apply ex_reads in H. do 10 (destruct x as [|x]; [cbn in H; lia|]). destruct x; destruct H.
    + apply ex_writes in H. do 10 (destruct x as [|x]; [cbn in H; lia|]). destruct x; destruct H.
  - intros d y [<-|[<-|[]]] H; apply ex_reads in H; exact H.
  - intros d [<-|[<-|[]]] (ob & E & O); vm_compute in E; injection E as <-; discriminate.
  - intros d y Hd H. apply ex_writes in H. do 10 (destruct y as [|y]; [cbn in H, Hd; lia|]). destruct y; destruct H.
  - intros o [<-|[]]. exists 7. eexists. split; [vm_compute; reflexivity|left; reflexivity].
Qed.
Example c22_nonvacuous : exists u, construct_all exheap [] (UM [0] [8] [1; 2] []) = Ok u /\
  defined_model exhist [] = UM [0] [8] [1; 2] [] /\
  ug_graph u = DG [NObj [] 0; NObj [] 7; NObj [] 8; NObj [] 6; NObj [] 9; NObj [] 5; NObj [] 1; NObj [] 4; NObj [] 3]
    [(NObj [] 7, NObj [] 8); (NObj [] 6, NObj [] 7); (NObj [] 7, NObj [] 9); (NObj [] 5, NObj [] 6); (NObj [] 0, NObj [] 5);
     (NObj [] 1, NObj [] 5); (NObj [] 4, NObj [] 5); (NObj [] 3, NObj [] 4); (NObj [] 0, NObj [] 3)].
Proof. eexists. split; [vm_compute; reflexivity|]. split; vm_compute; reflexivity. Qed.

(** ** C23: declared variables *)
(** A declared variable is in the graph exactly when a registered output needs it. *)
Theorem c23_declared_partial : forall h p ins outs decls subs u d,
  (forall i, In i ins -> i < length h) ->
  names_apart h (scope h ins (outs ++ decls)) (map fst subs) ->
  (forall x, needed h (outs ++ decls) x -> x < length h) ->
  (forall d y, In d decls -> ~ reads h d y) -> (forall d, In d decls -> ~ operation h d) ->
  (forall d y, In d decls -> ~ writes h y d) ->
  (forall o, In o outs -> exists y, reads h o y) ->
  construct_all h p (UM ins outs decls subs) = Ok u ->
  In d decls -> ~ In d ins -> (node (ug_graph u) (NObj p d) <-> needed h outs d).
Proof.
  intros h p ins outs decls subs u d H1 H2 H3 H4 H5 H6 H7 H Hd Hi.
  destruct (@graph_contents h p ins outs decls subs u H1 H2 H3 H4 H5 H6 H7 H) as [_ N]. rewrite N. split.
  - intros [(s & _ & E)|(x & E & [Hx|Hx])]; [discriminate| |]; injection E as <-; [contradiction|exact Hx].
  - intros Hx. right. exists d. auto.
Qed.
Print Assumptions c23_declared_partial.
(** So an unused declared variable is not in the graph, whatever its name. *)
Theorem c23_unused_refuted : exists l u d,
  In d (b_decls (history l)) /\ named (b_heap (history l)) d "unused" /\
  construct_all (b_heap (history l)) [] (defined_model l []) = Ok u /\
  forall x, node (ug_graph u) x -> forall o, x = NObj [] o -> ~ named (b_heap (history l)) o "unused".
Proof.
  exists exhist. eexists. exists 2. split; [vm_compute; auto|].
  split; [eexists; split; [vm_compute; reflexivity|reflexivity]|]. split; [vm_compute; reflexivity|].
  intros x Hx o -> Ho. apply ex_named in Ho.
  assert (K : o = 2). { do 10 (destruct o as [|o]; [first [reflexivity|discriminate Ho]|]). destruct o; discriminate Ho. }
  subst. clear Ho. vm_compute in Hx. intuition discriminate.
Qed.
Print Assumptions c23_unused_refuted.

(** ** C24: alternation, one producer *)
(** The expression graph, after every history of calls: every data flow joins a variable and
    an operation, and no variable is produced twice. *)
Theorem c24_expression_graph : forall l, let h := b_heap (history l) in
  (forall a b, flows h a b -> (variable h a /\ operation h b) \/ (operation h a /\ variable h b)) /\
  (forall a b v, variable h v -> flows h a v -> flows h b v -> a = b).
Proof. exact expression_graph. Qed.
Print Assumptions c24_expression_graph.
(** The graph of the model.  Missing: names of results given by custom or implicit operations
    may clash (refuted below); names chosen by the user are assumed to differ from the ids the
    program generates. *)
Theorem c24_graph_partial : forall l subs p u,
  (forall e, In e l -> clean_event (b_count (history l)) e) -> few_nodes l -> map fst subs = b_subs (history l) ->
  computed_names_distinct (b_heap (history l)) ->
  construct_all (b_heap (history l)) p (defined_model l subs) = Ok u ->
  (forall a b, edge (ug_graph u) a b -> exists x y, a = NObj p x /\ b = NObj p y /\
      ((variable (b_heap (history l)) x /\ operation (b_heap (history l)) y) \/
       (operation (b_heap (history l)) x /\ variable (b_heap (history l)) y))) /\
  (forall a b v, variable (b_heap (history l)) v ->
     edge (ug_graph u) a (NObj p v) -> edge (ug_graph u) b (NObj p v) -> a = b).
Proof. intros l subs p u C F S D H. exact (@history_graph l subs C F S p u D H). Qed.
Print Assumptions c24_graph_partial.
Theorem c24_names_distinct : forall l, (forall e, In e l -> clean_event (b_count (history l)) e) -> few_nodes l ->
  (forall e, In e l -> unnamed_results e) -> computed_names_distinct (b_heap (history l)).
Proof. intros l C F U. exact (@history_names l C F U). Qed.
Print Assumptions c24_names_distinct.

(** The names a user may pick: with at most 62 * 63^4 nodes every name that does not have five
    characters, with at most 63^4 nodes (15752961) every name that does not begin with an
    underscore. *)
Theorem c24_choosable_names : forall used n,
  ((used <= 62 * 63 ^ 4)%N -> String.length n <> 5 -> chosen_name used n) /\
  ((used <= 63 ^ 4)%N -> (forall r, n <> String "_"%char r) -> chosen_name used n).
Proof. intros used n. split; [apply other_length|apply no_underscore]. Qed.
Print Assumptions c24_choosable_names.
Definition exhist24 : list event :=
  [EInput "position"; EDeclare "d"; EApply [0; 1; 0] 1; EAdd (Some "sub"); EApply [5] 2; ERegister "y" 7; ECreateOut "z"; ESetitem 9 5].
Example c24_nonvacuous : (forall e, In e exhist24 -> clean_event (b_count (history exhist24)) e) /\ few_nodes exhist24 /\
  (forall e, In e exhist24 -> unnamed_results e) /\ b_subs (history exhist24) = ["sub"] /\ b_outs (history exhist24) = [7; 9] /\
  exists u, construct_all (b_heap (history exhist24)) [] (defined_model exhist24 [("sub", UM [] [] [] [])]) = Ok u /\
    List.length (g_edges (ug_graph u)) = 11.
Proof.
  split; [|split; [|split; [|split; [|split]]]].
  - intros e He. repeat (destruct He as [<-|He]); try destruct He; (split; [|exact I]); intros n Hn; cbn in Hn; try tauto;
      destruct Hn as [<-|[]]; (apply other_length; [vm_compute; discriminate|cbn; lia]).
  - unfold few_nodes. vm_compute. discriminate.
  - intros e He. repeat (destruct He as [<-|He]); try destruct He; exact I.
  - vm_compute. reflexivity.
  - vm_compute. reflexivity.
  - eexists. split; vm_compute; reflexivity.
Qed.
(** Two custom operations that name their outputs alike (both called "a", not registered):
    one node stands for both, and it has two producers. *)
Definition exclash : list event :=
  [EInput "x"; ENewCustom; ENewCustom; ECustom 1 [0] ["a"]; ECustom 2 [0] ["a"]; EApply [3; 4] 1; ERegister "y" 6].
Theorem c24_custom_names_refuted : (forall e, In e exclash -> clean_event (b_count (history exclash)) e) /\
  exists u, construct_all (b_heap (history exclash)) [] (defined_model exclash []) = Ok u /\
    edge (ug_graph u) (NObj [] 1) (NObj [] 3) /\ edge (ug_graph u) (NObj [] 2) (NObj [] 3) /\
    variable (b_heap (history exclash)) 3 /\ ~ node (ug_graph u) (NObj [] 4).
Proof.
  split.
  - intros e He. repeat (destruct He as [<-|He]); try destruct He; (split; [|exact I]); intros n Hn; cbn in Hn; try tauto;
      destruct Hn as [<-|[]]; (apply other_length; [vm_compute; discriminate|cbn; lia]).
  - eexists. split; [vm_compute; reflexivity|]. split; [vm_compute; auto 10|]. split; [vm_compute; auto 10|]. split.
    + eexists. split; vm_compute; reflexivity.
    + unfold node. vm_compute. intuition discriminate.
Qed.
Print Assumptions c24_custom_names_refuted.

(** ** C53: unnamed submodels *)
(** With named submodels every operation needed has its own node: the same statement as the
    node set of [c24_graph_partial] with [c22_image]. *)
Theorem c53_operations_kept_partial : forall l subs p u x,
  (forall e, In e l -> clean_event (b_count (history l)) e) -> few_nodes l -> map fst subs = b_subs (history l) ->
  construct_all (b_heap (history l)) p (defined_model l subs) = Ok u ->
  operation (b_heap (history l)) x ->
  needed (b_heap (history l)) (b_outs (history l)) x ->
  node (ug_graph u) (NObj p x).
Proof. intros l subs p u x C F S. exact (@history_operations l subs C F S p u x). Qed.
Print Assumptions c53_operations_kept_partial.
(** An unnamed submodel gets the id of the next node as its name: the operation created right
    after [add] has no node, its edges are attached to the node of the submodel. *)
Definition exswallow : list event := [EInput "x"; EAdd None; EApply [0] 1; ERegister "y" 2].
Theorem c53_unnamed_submodel_refuted :
  let h := b_heap (history exswallow) in
  operation h 1 /\ needed h (b_outs (history exswallow)) 1 /\ b_subs (history exswallow) = ["_0002"] /\
  exists u, construct_all h [] (defined_model exswallow [("_0002", UM [] [] [] [])]) = Ok u /\
    ~ node (ug_graph u) (NObj [] 1) /\
    edge (ug_graph u) (NObj [] 0) (NModel [] "_0002") /\ edge (ug_graph u) (NModel [] "_0002") (NObj [] 2).
Proof.
  cbn zeta. split; [eexists; split; vm_compute; reflexivity|]. split.
  { eapply needed_dep; [apply needed_leaf; vm_compute; left; reflexivity|]. eexists. split; [vm_compute; reflexivity|left; reflexivity]. }
  split; [vm_compute; reflexivity|]. eexists. split; [vm_compute; reflexivity|]. split; [|split; vm_compute; auto].
  unfold node. vm_compute. intuition discriminate.
Qed.
Print Assumptions c53_unnamed_submodel_refuted.
