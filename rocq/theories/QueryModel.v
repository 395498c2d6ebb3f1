(** Model of the queries on a representation: csdl/rep/graph_representation.py:53-91,141-144,
    437-1231, csdl/rep/get_nodes.py, csdl/rep/get_registered_outputs_from_graph.py.
    Drawing and printing are not modelled. *)
From Verif Require Import PyBase NamesModel Digraph TopoModel.

(** What the queries read of a VariableNode: namespace and name of the node, whether its
    variable is an Output, whether its name is its id, its shape. *)
Record qvar := QV { qv_ns : string; qv_name : string; qv_output : bool; qv_auto : bool; qv_shape : list nat }.

(** A node of the flattened graph.  An ImplicitOperationNode (csdl/rep/implicit_operation_node.py)
    carries the representation of the model that defines it; [QImp] records what reading its
    maximal number of iterations gives (graph_representation.py:579-582): the attribute of a
    bracketed search, the option of the nonlinear solver, AttributeError without a solver,
    KeyError for a solver without that option. *)
Inductive knd (R : Type) :=
| QVar (v : qvar)
| QOp (name : string) (custom : bool)
| QImp (name : string) (maxiter : res nat) (sub : R).
Arguments QVar {R}. Arguments QOp {R}. Arguments QImp {R}.

(** flat_graph: nodes with an identity, edges.  flat_sorted_nodes has the same nodes in another
    order, which none of the queries below depends on. *)
Inductive rep := Rep (nodes : list (nat * knd rep)) (edges : list (nat * nat)).
Definition rep_nodes (r : rep) : list (nat * knd rep) := let (n, _) := r in n.
Definition rep_edges (r : rep) : list (nat * nat) := let (_, e) := r in e.
Definition graph (r : rep) : digraph nat := DG (map fst (rep_nodes r)) (rep_edges r).

Definition indeg (r : rep) (x : nat) : nat := length (preds Nat.eqb (graph r) x).
Definition outdeg (r : rep) (x : nat) : nat := length (succs Nat.eqb (graph r) x).
Definition is_variable (k : knd rep) : bool := match k with QVar _ => true | _ => false end.
Definition is_operation (k : knd rep) : bool := negb (is_variable k).

(** get_nodes.py:26-44, 71-91 *)
Definition own_vars (r : rep) : list qvar :=
  flat_map (fun nk => match snd nk with QVar v => [v] | _ => [] end) (rep_nodes r).
Definition own_ops (r : rep) : list (nat * knd rep) := filter (fun nk => is_operation (snd nk)) (rep_nodes r).

(** Recursion into the implicit operations: [f own subs] combines the value of the
    representation itself with the values of those of its implicit operations, in node order. *)
Section Rec.
  Context {B : Type} (f : rep -> list B -> B).
  Fixpoint rec (r : rep) : B :=
    match r with
    | Rep nodes edges =>
      f (Rep nodes edges)
        ((fix go (l : list (nat * knd rep)) : list B :=
            match l with
            | [] => []
            | (_, QImp _ _ s) :: t => rec s :: go t
            | _ :: t => go t
            end) nodes)
    end.
End Rec.

(** get_nodes.py:26-44 *)
Definition get_var_nodes (implicit : bool) (r : rep) : list qvar :=
  if implicit then rec (fun r subs => own_vars r ++ concat subs) r else own_vars r.
(** graph_representation.py:141-144 *)
Definition size (v : qvar) : nat := prod (qv_shape v).
(** 489-496 *)
Definition get_variable_sizes (r : rep) : list nat := map size (get_var_nodes true r).
(** numpy.unique with counts *)
Fixpoint count_into (x : nat) (l : list (nat * nat)) : list (nat * nat) :=
  match l with
  | [] => [(x, 1)]
  | (y, n) :: t => if Nat.eqb x y then (y, S n) :: t else if Nat.ltb x y then (x, 1) :: l else (y, n) :: count_into x t
  end.
(** 498-509 *)
Definition variable_size_distribution (r : rep) : list nat * list nat :=
  let l := fold_left (fun l x => count_into x l) (get_variable_sizes r) [] in (map fst l, map snd l).

(** 1140-1194.  [vectorized] counts nodes, otherwise scalars. *)
Definition var_weight (vectorized : bool) (v : qvar) : nat := if vectorized then 1 else size v.
Definition count_vars (sel : nat -> bool) (vectorized : bool) (r : rep) : nat :=
  list_sum (flat_map (fun nk => match snd nk with
                                | QVar v => if sel (indeg r (fst nk)) then [var_weight vectorized v] else []
                                | _ => [] end) (rep_nodes r)).
Definition nout_vars (vectorized implicit : bool) (r : rep) : nat :=
  if implicit then rec (fun r subs => list_sum subs + count_vars (Nat.ltb 0) vectorized r) r
  else count_vars (Nat.ltb 0) vectorized r.
(** The nested term calls nout_vars (1176-1182), not nin_vars. *)
Definition nested (r : rep) : list rep :=
  flat_map (fun nk => match snd nk with QImp _ _ s => [s] | _ => [] end) (rep_nodes r).
Definition nin_vars (vectorized implicit : bool) (r : rep) : nat :=
  (if implicit then list_sum (map (nout_vars vectorized true) (nested r)) else 0) + count_vars (Nat.eqb 0) vectorized r.

(** 772-791, 793-811: the nested calls use the default implicit=False *)
Definition own_outs (r : rep) : list nat := map (fun nk => outdeg r (fst nk)) (own_ops r).
Definition own_uses (r : rep) : list nat :=
  map (fun nk => outdeg r (fst nk)) (filter (fun nk => is_variable (snd nk)) (rep_nodes r)).
Definition outputs_per_operation (implicit : bool) (r : rep) : list nat :=
  own_outs r ++ (if implicit then flat_map own_outs (nested r) else []).
Definition num_uses_of_variables (implicit : bool) (r : rep) : list nat :=
  own_uses r ++ (if implicit then flat_map own_uses (nested r) else []).

(** 53-61 with vectorized=True *)
Definition own_args (r : rep) : list nat := map (fun nk => indeg r (fst nk)) (own_ops r).
(** 826-853, 855-880 with implicit=True (with implicit=False see [ask] below);
    numpy.max of an empty list raises ValueError. *)
Definition np_max (l : list nat) : res nat := match l with [] => Err ValueError | x :: t => Ok (fold_left Nat.max t x) end.
Fixpoint max_all (m : nat) (l : list (res nat)) : res nat :=
  match l with [] => Ok m | x :: t => do y <- x; max_all (Nat.max m y) t end.
Definition max_arguments_per_operation (r : rep) : res nat :=
  rec (fun r subs => do m <- np_max (own_args r); max_all m subs) r.
Definition total_arguments_per_operation (r : rep) : nat :=
  rec (fun r subs => list_sum (own_args r) + list_sum subs) r.

(** 574-593: implicit operations first, in order; the number of iterations is read before the
    cost of the nested representation is computed. *)
Fixpoint serial_cost (r : rep) : res nat :=
  match r with
  | Rep nodes _ =>
    do b <- (fix go (l : list (nat * knd rep)) : res nat :=
               match l with
               | [] => Ok 0
               | (_, QImp _ it s) :: t => do n <- it; do c <- serial_cost s; do rest <- go t; Ok (c * n + rest)
               | _ :: t => go t
               end) nodes;
    Ok (length (filter (fun nk => match snd nk with QOp _ _ => true | _ => false end) nodes) + b)
  end.

(** networkx.ancestors: all nodes with a path to [x], without [x]. *)
Definition memn (x : nat) (l : list nat) : bool := existsb (Nat.eqb x) l.
Definition widen (r : rep) (acc : list nat) : list nat :=
  fold_left (fun l x => if memn x l then l else l ++ [x]) (flat_map (preds Nat.eqb (graph r)) acc) acc.
Fixpoint iter {A} (n : nat) (f : A -> A) (x : A) : A := match n with O => x | S m => iter m f (f x) end.
Definition ancestors (r : rep) (x : nat) : list nat :=
  filter (fun y => negb (Nat.eqb y x)) (iter (length (rep_nodes r)) (widen r) [x]).

Fixpoint kind_of (l : list (nat * knd rep)) (x : nat) : option (knd rep) :=
  match l with [] => None | (y, k) :: t => if Nat.eqb x y then Some k else kind_of t x end.
(** prepend_namespace(x.namespace, x.name); an operation has an empty namespace (ir_node.py:8-10,
    operation_node.py:7-10). *)
Definition full_name (r : rep) (x : nat) : string :=
  match kind_of (rep_nodes r) x with
  | Some (QVar v) => prepend_namespace (qv_ns v) (qv_name v)
  | Some (QOp n _) | Some (QImp n _ _) => prepend_namespace "" n
  | None => ""
  end.
(** get_registered_outputs_from_graph.py:6-18 *)
Definition registered_outputs (r : rep) : list nat :=
  flat_map (fun nk => match snd nk with
                      | QVar v => if Nat.eqb (outdeg r (fst nk)) 0 && (qv_output v && negb (qv_auto v)) then [fst nk] else []
                      | _ => [] end) (rep_nodes r).
Definition leaves_of (r : rep) (x : nat) : list nat := filter (fun y => Nat.eqb (indeg r y) 0) (ancestors r x).
Definition sadd (n : string) (l : list string) : list string := if smem n l then l else l ++ [n].
(** 966-1029: the four options are not read.  The values of the first dictionary are the nodes
    themselves: [filter] keeps the nodes whose name is not empty instead of naming them. *)
Definition influences (r : rep) : dict (list nat) * dict (list string) :=
  (fold_left (fun d o => dset d (full_name r o) (filter (fun y => negb (String.eqb (full_name r y) "")) (leaves_of r o)))
     (registered_outputs r) [],
   fold_left (fun d ol => dset d (full_name r (snd ol))
        (sadd (full_name r (fst ol)) (match dget d (full_name r (snd ol)) with Some l => l | None => [] end)))
     (flat_map (fun o => map (fun y => (o, y)) (leaves_of r o)) (registered_outputs r)) []).

(** networkx.dag_longest_path_length with the default weight 1: in topological order, the largest
    distance of a predecessor plus one.  The length is read off the table instead of being added
    up again along the path found. *)
Definition dist_of (d : list (nat * nat)) (x : nat) : nat := match iget Nat.eqb d x with Some n => n | None => 0 end.
Definition longest_to (r : rep) (d : list (nat * nat)) (x : nat) : nat :=
  fold_left Nat.max (map (fun u => dist_of d u + 1) (preds Nat.eqb (graph r) x)) 0.
Definition distances (r : rep) (order : list nat) : list (nat * nat) :=
  fold_left (fun d x => d ++ [(x, longest_to r d x)]) order [].
(** 717-728 *)
Definition predict_computation_time_parallel (r : rep) : res nat :=
  match rep_nodes r with
  | [] => Ok 0
  | _ => do order <- topological_sort Nat.eqb (graph r); np_max (map snd (distances r order))
  end.

(** ** Queries that cannot be answered *)
(** The statements that would assign these attributes are commented out (413-426). *)
Inductive attribute := A_variable_nodes | A_operation_nodes | A_std_operation_nodes | A_adjacency | A_density | A_longest_path | A_critical_path_length.
Definition read {B} (a : attribute) : res B := Err AttributeError.
Inductive statistic :=
| Num_input_nodes | Num_output_nodes | Num_variable_nodes | Num_operation_nodes | Num_implicit_operation_nodes
| Num_scalar_inputs | Num_scalar_outputs | Num_scalar_variables
| Avg_arguments (ignore_custom : bool) | Min_arguments (ignore_custom : bool) | Max_arguments_flat (ignore_custom : bool)
| Total_arguments_flat (ignore_custom : bool)
| Min_outputs (ignore_custom : bool) | Max_outputs (ignore_custom : bool) | Custom_operations | Count_operation_types
| Density | Sparsity | Longest_path | Critical_path_length | Print_stats | Predict_computation_time | Best_case_memory
| Avg_var_uses_per_var (implicit : bool) | Avg_outs_per_op (implicit : bool).
(** 1196-1231: [graph] is not defined; the list comprehension raises NameError at its first node. *)
Definition undefined_graph (has : knd rep -> bool) (r : rep) : res nat :=
  if existsb (fun nk => has (snd nk)) (rep_nodes r) then Err NameError else Ok 0.
Fixpoint sum_res (l : list (res nat)) : res nat := match l with [] => Ok 0 | x :: t => do a <- x; do b <- sum_res t; Ok (a + b) end.
Definition per_node (has : knd rep -> bool) (implicit : bool) (r : rep) : res nat :=
  if implicit then rec (fun r subs => do a <- sum_res subs; do b <- undefined_graph has r; Ok (a + b)) r else undefined_graph has r.
(** The first attribute each method reads (437-482, 571-572, 608-770, 813-935, 1044-1094, 1196-1231).
    num_scalar_variables (658-666) first asks the nested representations. *)
Definition ask (q : statistic) (r : rep) : res nat :=
  match q with
  | Num_input_nodes | Num_output_nodes | Num_variable_nodes | Num_scalar_inputs | Num_scalar_outputs => read A_variable_nodes
  | Num_scalar_variables => rec (fun r subs => do a <- sum_res subs; do b <- read A_variable_nodes; Ok (a + b)) r
  | Num_operation_nodes | Num_implicit_operation_nodes | Custom_operations | Count_operation_types => read A_operation_nodes
  | Avg_arguments c | Min_arguments c | Max_arguments_flat c | Total_arguments_flat c | Min_outputs c | Max_outputs c =>
    read (if c then A_std_operation_nodes else A_operation_nodes)
  | Density | Sparsity => read A_density
  | Longest_path => read A_longest_path
  | Critical_path_length => read A_critical_path_length
  | Print_stats | Predict_computation_time => read A_variable_nodes
  | Best_case_memory => (* 537-569: the matrix is read at the first operation, max([]) raises *)
    match own_ops r with [] => Err ValueError | _ => read A_adjacency end
  | Avg_var_uses_per_var i => per_node is_variable i r
  | Avg_outs_per_op i => per_node is_operation i r
  end.
