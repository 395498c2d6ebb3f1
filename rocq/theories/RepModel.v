(** Model of the mapping from the variables of a model to the nodes of its representation:
    Variable.add_IR_mapping (csdl/lang/variable.py:67-80) and the places that call it. *)
From Verif Require Import PyBase NamesModel PromotionsModel HierModel Digraph TopoModel FlatModel ExprModel UnflatModel FlattenModel CompileModel IterModel.

(** The calls made during a compilation after the nodes were created, in order, as pairs (node
    whose variable is re-mapped, new node): csdl/rep/construct_flat_graph.py:358 and 375
    for variables with equal promoted names, csdl/rep/merge_connections.py:211 for
    connections.  The calls of csdl/rep/construct_unflat_graph.py:307 are not modelled: they
    concern two objects with one name in one model (excluded by [distinct_names]). *)
Definition mapping_calls (it : iteration) (h : list obj) (shp : nat -> list nat) (dflt : nat -> bool) (um : umodel) (m : model)
  : res (list (irnode * irnode)) :=
  do r <- resolve m None;
  let p2u := visit_sets (it_names it) (rp_p2u r) in
  let u2p := create_reverse_map p2u in
  do u <- construct_all h [] um;
  do fl <- flatten h p2u u2p (visit_models it [] u);
  let attr := node_attr h shp dflt (snd fl) in
  let vars := filter (is_var attr) (g_nodes (fst fl)) in
  let sources := dict_of (map (fun x => (pname attr x, x)) (filter (is_src attr) vars)) in
  let targets := filter (is_tgt attr) vars in
  let ut := unique_targets attr targets in
  let steps := auto_steps sources ut (visit_sets (it_nodes it) (redundant_targets irnode_eqb attr targets ut)) in
  do g1 <- contract_all irnode_eqb (fst fl) steps;
  do mc <- merge_connections irnode_eqb attr g1 (collect_connections m "") p2u u2p;
  let '(g2, p2n, u2n, conns) := mc in
  Ok (map (fun uv => (snd uv, fst uv)) steps ++ conns).

(** The element of the attribute rep_node (variable.py:74) of variable [o], which has a node in
    the model at path [p] (the first call, csdl/rep/variable_node.py:22): the last call counts.
    The attribute belongs to the variable, not to its node: a call for any node of the
    variable overwrites it. *)
Definition rep_node_of (calls : list (irnode * irnode)) (p : list string) (o : nat) : irnode :=
  fold_left (fun cur e => match fst e with
                          | NObj _ o' => if Nat.eqb o o' then snd e else cur
                          | NModel _ _ => cur end) calls (NObj p o).
