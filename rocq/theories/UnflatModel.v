(** Model of csdl/rep/construct_unflat_graph.py:198-312: the graph of each model, from the
    objects it created.  The heap of objects is that of ExprModel. *)
From Verif Require Import PyBase Digraph ExprModel.

(** A node of the intermediate representation.  [NModel p s] is the ModelNode of submodel
    [s] of the model at path [p]; [NObj p o] is the VariableNode or OperationNode created
    for object [o] while the model at path [p] was processed: a model object added twice is
    processed twice and gets separate nodes. *)
Inductive irnode :=
| NModel (p : list string) (s : string)
| NObj (p : list string) (o : nat).

Definition irnode_eqb (a b : irnode) : bool :=
  match a, b with
  | NModel p s, NModel q t => list_eqb String.eqb p q && String.eqb s t
  | NObj p o, NObj q r => list_eqb String.eqb p q && Nat.eqb o r
  | _, _ => false
  end.

(** get_graph_node, 296-312.  Reading [.var] of a node that is not a VariableNode raises.
    The bookkeeping done by add_IR_mapping is not modelled.  A dangling reference cannot
    occur in Python; it is an error here. *)
Definition get_graph_node (h : list obj) (p : list string) (nodes : dict irnode) (o : nat)
  : res (dict irnode * irnode) :=
  match nth_error h o with
  | None => Err RuntimeError
  | Some ob =>
    match dget nodes (ob_name ob) with
    | None => Ok (dset nodes (ob_name ob) (NObj p o), NObj p o)
    | Some n =>
      if is_op ob then Ok (nodes, n)
      else match n with
           | NModel _ _ => Err AttributeError
           | NObj _ o' => match nth_error h o' with
                          | Some ob' => if is_op ob' then Err AttributeError else Ok (nodes, n)
                          | None => Err RuntimeError
                          end
           end
    end
  end.

(** State of the loop 256-293: nodes, graph, bfs_queue (next element first), queued_nodes. *)
Record wst := Wst {
  w_nodes : dict irnode;
  w_graph : digraph irnode;
  w_queue : list nat;
  w_queued : list nat
}.

(** 271-280 and 283-292: one predecessor ([fwd = false]) or successor ([fwd = true]). *)
Definition link (h : list obj) (p : list string) (fwd : bool) (me : irnode) (w : wst) (x : nat) : res wst :=
  do nn <- get_graph_node h p (w_nodes w) x;
  let g := if fwd then add_edge irnode_eqb (w_graph w) me (snd nn)
           else add_edge irnode_eqb (w_graph w) (snd nn) me in
  if memn x (w_queued w) then Ok (Wst (fst nn) g (w_queue w) (w_queued w))
  else Ok (Wst (fst nn) g (x :: w_queue w) (x :: w_queued w)).

Fixpoint link_all (h : list obj) (p : list string) (fwd : bool) (me : irnode) (w : wst) (l : list nat) : res wst :=
  match l with
  | [] => Ok w
  | x :: r => do w1 <- link h p fwd me w x; link_all h p fwd me w1 r
  end.

(** 263-293: the body of the loop for the object taken from the queue. *)
Definition visit (h : list obj) (p : list string) (w : wst) (x : nat) : res wst :=
  do nn <- get_graph_node h p (w_nodes w) x;
  match nth_error h x with
  | None => Err RuntimeError
  | Some ob =>
    do w1 <- link_all h p false (snd nn) (Wst (fst nn) (w_graph w) (w_queue w) (w_queued w)) (ob_deps ob);
    if is_op ob then link_all h p true (snd nn) w1 (ob_outs ob) else Ok w1
  end.

(** 262-293, with fuel; [None] means out of fuel. *)
Fixpoint wloop (h : list obj) (p : list string) (fuel : nat) (w : wst) : option (res wst) :=
  match w_queue w with
  | [] => Some (Ok w)
  | x :: r =>
    match fuel with
    | O => None
    | S f => match visit h p (Wst (w_nodes w) (w_graph w) r (w_queued w)) x with
             | Err e => Some (Err e)
             | Ok w1 => wloop h p f w1
             end
    end
  end.

(** construct_graph_this_model, 254-293. [bfs_queue.pop()] takes the last leaf first. *)
Definition construct_this_model (h : list obj) (p : list string) (nodes : dict irnode)
  (g : digraph irnode) (leaves : list nat) : option (res wst) :=
  wloop h p (length leaves + length h) (Wst nodes g (rev leaves) leaves).

(** A defined model: its inputs, registered outputs, declared variables and submodels. *)
Inductive umodel := UM (ins outs decls : list nat) (subs : list (string * umodel)).
(** The graph of a model with the graphs of its ModelNodes. *)
Inductive ugraph := UG (g : digraph irnode) (subs : list (string * ugraph)).
Definition ug_graph (u : ugraph) : digraph irnode := let (g, _) := u in g.
Definition ug_subs (u : ugraph) : list (string * ugraph) := let (_, s) := u in s.

(** 238: [{inp.name: VariableNode(inp) for inp in inputs}] *)
Definition input_entries (h : list obj) (p : list string) (ins : list nat) : list (string * irnode) :=
  flat_map (fun i => match nth_error h i with Some ob => [(ob_name ob, NObj p i)] | None => [] end) ins.

(** construct_graphs_all_models, 198-250.  222-234: a submodel whose name was already used
    is skipped.  238-240: the inputs; the dictionary keeps one node per name. *)
Fixpoint construct_all (h : list obj) (p : list string) (m : umodel) : res ugraph :=
  let (ins, outs, decls, subs) := m in
  do sub <-
    (fix go (nodes : dict irnode) (g : digraph irnode) (subs : list (string * umodel))
       : res (dict irnode * digraph irnode * list (string * ugraph)) :=
       match subs with
       | [] => Ok (nodes, g, [])
       | (s, sm) :: r =>
         if dmem s nodes then go nodes g r
         else do u <- construct_all h (p ++ [s]) sm;
              do rest <- go (dset nodes s (NModel p s)) (add_node irnode_eqb g (NModel p s)) r;
              Ok (fst rest, (s, u) :: snd rest)
       end) [] (empty_graph) subs;
  let input_nodes := dict_of (input_entries h p ins) in
  let nodes := dupdate (fst (fst sub)) input_nodes in
  let g := add_nodes irnode_eqb (snd (fst sub)) (map snd input_nodes) in
  match construct_this_model h p nodes g (outs ++ decls) with
  | None => Err RuntimeError
  | Some (Err e) => Err e
  | Some (Ok w) => Ok (UG (w_graph w) (snd sub))
  end.
