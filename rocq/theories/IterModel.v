(** Model of the compilation with the iteration order of Python sets as a parameter.

    CPython fixes the order in which a set is visited by the hashes of its elements, and
    those vary between runs (strings: PYTHONHASHSEED; nodes: memory addresses).  The compiler
    visits the elements of three kinds of sets:
    - the values of promoted_to_unpromoted (csdl/rep/resolve_promotions.py), by
      create_reverse_map (csdl/rep/graph_representation.py:107-112) and by the construction of
      unpromoted_to_node (csdl/rep/merge_connections.py:116-131);
    - graph.model_nodes (csdl/rep/construct_unflat_graph.py:216-230), by merge_graphs
      (csdl/rep/construct_flat_graph.py:124-129);
    - the values of redundant_targets (csdl/rep/construct_flat_graph.py:317-331), by the
      loop at 350-362.
    The other sets of the compiler are only built, combined or asked for membership; so are
    the first ones while promotions are resolved (resolve_promotions.py:203-212, 254-271, 334-345). *)
From Coq Require Import Permutation.
From Verif Require Import PyBase NamesModel PromotionsModel HierModel Digraph TopoModel FlatModel ExprModel UnflatModel FlattenModel CompileModel.

(** How each of these sets is visited: [it_names pn s] lists the set [s] stored under the
    promoted name [pn]; [it_subs p s] the model nodes of the model at path [p]; [it_nodes pn s]
    the redundant targets with promoted name [pn]. *)
Record iteration := Iteration {
  it_names : string -> list string -> list string;
  it_subs : list string -> list (string * ugraph) -> list (string * ugraph);
  it_nodes : string -> list irnode -> list irnode
}.
(** Every element is visited exactly once. *)
Definition lawful (it : iteration) : Prop :=
  (forall k l, Permutation l (it_names it k l)) /\ (forall p l, Permutation l (it_subs it p l)) /\
  (forall k l, Permutation l (it_nodes it k l)).

Definition visit_sets {B} (f : string -> list B -> list B) (d : dict (list B)) : dict (list B) :=
  map (fun kv => (fst kv, f (fst kv) (snd kv))) d.

(** The graphs of all models with their model nodes in the order of the visit
    (construct_flat_graph.py:124-129). *)
Fixpoint visit_models (it : iteration) (p : list string) (u : ugraph) : ugraph :=
  match u with
  | UG g subs => UG g (it_subs it p (map (fun s => (fst s, visit_models it (p ++ [fst s]) (snd s))) subs))
  end.

(** construct_flat_graph.py:247-375, as FlatModel.merge_auto. *)
Definition merge_auto_in (it : iteration) (attr : irnode -> nattr) (g : digraph irnode) : res (digraph irnode) :=
  let vars := filter (is_var attr) (g_nodes g) in
  let sources := dict_of (map (fun x => (pname attr x, x)) (filter (is_src attr) vars)) in
  let targets := filter (is_tgt attr) vars in
  let ut := unique_targets attr targets in
  contract_all irnode_eqb g (auto_steps sources ut (visit_sets (it_nodes it) (redundant_targets irnode_eqb attr targets ut))).

(** graph_representation.py:227-435, as CompileModel.compile. *)
Definition compile_in (it : iteration) (h : list obj) (shp : nat -> list nat) (dflt : nat -> bool) (um : umodel) (m : model) : res compiled :=
  do r <- resolve m None;                                              (* 236 *)
  let p2u := visit_sets (it_names it) (rp_p2u r) in
  let u2p := create_reverse_map p2u in                                 (* 237 *)
  do cs <- rep_connections m;                                          (* 238-259 *)
  do dvs <- rep_design_variables m;                                    (* 306-312 *)
  do ob <- rep_objective m;                                            (* 317-321 *)
  do csts <- rep_constraints m;                                        (* 326-332 *)
  do u <- construct_all h [] um;                                       (* 345-350 *)
  do fl <- flatten h p2u u2p (visit_models it [] u);                   (* 352-371 *)
  let attr := node_attr h shp dflt (snd fl) in
  do g1 <- merge_auto_in it attr (fst fl);
  do mc <- merge_connections irnode_eqb attr g1 (collect_connections m "") p2u u2p;
  let '(g2, p2n, u2n, conns) := mc in
  do order <- flat_sorted_nodes irnode_eqb g2;                         (* 383-393 *)
  Ok (Compiled p2u u2p cs dvs (fst ob) csts (snd fl) g2 p2n u2n conns order).

(** The order of CompileModel. *)
Definition insertion_order : iteration := Iteration (fun _ l => l) (fun _ l => l) (fun _ l => l).
