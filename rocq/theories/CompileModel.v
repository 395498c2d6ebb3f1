(** Model of the whole compilation, GraphRepresentation.__init__
    (csdl/rep/graph_representation.py:227-435): the passes modelled separately, in the order
    of the code. *)
From Verif Require Import PyBase NamesModel PromotionsModel HierModel Digraph TopoModel FlatModel ExprModel UnflatModel FlattenModel.

(** The attributes of a GraphRepresentation.  [c_log] holds the namespaces written into the
    nodes. *)
Record compiled := Compiled {
  c_p2u : dict (list string);            (* promoted_to_unpromoted *)
  c_u2p : dict string;                   (* unpromoted_to_promoted *)
  c_connections : list (string * string);(* connections *)
  c_dvs : dict (string * string);        (* design_variables *)
  c_objective : option string;           (* objective *)
  c_cons : dict (string * string);       (* constraints *)
  c_log : nslog;
  c_graph : digraph irnode;              (* flat_graph *)
  c_p2n : dict irnode;                   (* promoted_to_node *)
  c_u2n : dict irnode;                   (* unpromoted_to_node *)
  c_conns : list (irnode * irnode);      (* connected_tgt_nodes_to_source_nodes *)
  c_order : list irnode                  (* flat_sorted_nodes *)
}.

(** graph_representation.py:227-435.  The models have been defined (line 235 is the subject
    of DefineModel): [m] has the names, promotions and connections of the hierarchy, [um]
    its objects in the heap [h]; [shp] and [dflt] are the shapes and default flags of the
    variables.  Not modelled: the tree of user_declared_connections (240-245), the checks
    behind the constant check_compilation (268-303), the analytics file, and the list of
    implicit operations at the end. *)
Definition compile (h : list obj) (shp : nat -> list nat) (dflt : nat -> bool) (um : umodel) (m : model) : res compiled :=
  do r <- resolve m None;                                              (* 236 *)
  let p2u := rp_p2u r in
  let u2p := create_reverse_map p2u in                                 (* 237 *)
  do cs <- rep_connections m;                                          (* 238-259 *)
  do dvs <- rep_design_variables m;                                    (* 306-312 *)
  do ob <- rep_objective m;                                            (* 317-321 *)
  do csts <- rep_constraints m;                                        (* 326-332 *)
  do u <- construct_all h [] um;                                       (* 345-350 *)
  do fl <- flatten h p2u u2p u;                                        (* 352-371 *)
  let attr := node_attr h shp dflt (snd fl) in
  do g1 <- merge_auto irnode_eqb attr (fst fl);
  do mc <- merge_connections irnode_eqb attr g1 (collect_connections m "") p2u u2p;
  let '(g2, p2n, u2n, conns) := mc in
  do order <- flat_sorted_nodes irnode_eqb g2;                         (* 383-393 *)
  Ok (Compiled p2u u2p cs dvs (fst ob) csts (snd fl) g2 p2n u2n conns order).
