(** Model of looking a value up in a compiled model by name: csdl/sim/simulator_base.py:129-158
    with the maps of a GraphRepresentation (csdl/rep/graph_representation.py:236-237, 376-377). *)
From Verif Require Import PyBase NamesModel PromotionsModel HierModel Digraph FlatModel ExprModel UnflatModel FlattenModel CompileModel CompileSpec.

(** simulator_base.py:143-158 (_find_promoted_name), with the maps of the representation. *)
Definition name_in_rep (c : compiled) (name : string) : res string := find_promoted_name name (c_p2u c, c_u2p c).
(** The node found under a promoted name: promoted_to_node (graph_representation.py:376, filled by
    csdl/rep/merge_connections.py:113), and the source if that node was merged into one by a
    connection (merge_connections.py:205-213, connected_tgt_nodes_to_source_nodes). *)
Definition node_under (c : compiled) (pn : string) : option irnode :=
  match dget (c_p2n c) pn with
  | None => None
  | Some x => Some (match cget irnode_eqb (c_conns c) x with Some s => s | None => x end)
  end.
(** simulator_base.py:129-135: None stands for KeyError. *)
Definition lookup (c : compiled) (name : string) : option irnode :=
  match name_in_rep c name with Ok pn => node_under c pn | Err _ => None end.
Definition read_value {V} (h : list obj) (shp : nat -> shape) (dflt : nat -> bool) (apply : nat -> list V -> nat -> V) (init : string -> V)
  (c : compiled) (name : string) : option V := option_map (run h shp dflt apply init c) (lookup c name).
