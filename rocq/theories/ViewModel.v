(** A compiled model as the queries of QueryModel see it: flat_graph of a GraphRepresentation
    (csdl/rep/graph_representation.py:352-381).  Nodes are numbered by their position. *)
From Verif Require Import PyBase NamesModel Digraph FlatModel ExprModel UnflatModel FlattenModel CompileModel CompileSpec.
From Verif Require QueryModel.
Import QueryModel.

Definition number (c : compiled) (x : irnode) : nat :=
  match position x (g_nodes (c_graph c)) with Some k => k | None => length (g_nodes (c_graph c)) end.
(** csdl/rep/variable_node.py:8-22, csdl/rep/operation_node.py:7-18.  Implicit operations are
    shown without the representation they carry, which influences does not read. *)
Definition view_node (h : list obj) (shp : nat -> list nat) (dflt : nat -> bool) (c : compiled) (x : irnode) : knd rep :=
  match node_attr h shp dflt (c_log c) x with
  | NVar v => QVar (QV (va_ns v) (va_name v) (match va_class v with COutput => true | _ => false end) (va_auto v) (va_shape v))
  | NOp custom => QOp (match x with NObj _ o => match nth_error h o with Some ob => ob_name ob | None => EmptyString end | NModel _ _ => EmptyString end) custom
  end.
Definition view (h : list obj) (shp : nat -> list nat) (dflt : nat -> bool) (c : compiled) : rep :=
  Rep (map (fun x => (number c x, view_node h shp dflt c x)) (g_nodes (c_graph c)))
      (map (fun e => (number c (fst e), number c (snd e))) (g_edges (c_graph c))).
