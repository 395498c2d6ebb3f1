(** Model of the node sorting (csdl/rep/sort_nodes_nx.py) and of the check made by its
    caller. *)
From Verif Require Import PyBase Digraph.

Section Topo.
  Context {A : Type} (eqb : A -> A -> bool).

  (** A dict from nodes to numbers, in insertion order. *)
  Fixpoint iget (m : list (A * nat)) (k : A) : option nat :=
    match m with [] => None | (x, n) :: r => if eqb k x then Some n else iget r k end.
  Fixpoint iset (m : list (A * nat)) (k : A) (n : nat) : list (A * nat) :=
    match m with [] => [(k, n)] | (x, n') :: r => if eqb k x then (x, n) :: r else (x, n') :: iset r k n end.
  Definition idel (m : list (A * nat)) (k : A) : list (A * nat) := filter (fun e => negb (eqb k (fst e))) m.

  (** networkx.topological_generations, inner loop: one out-edge.  [st] is
      ([indegree_map], [zero_indegree]).  A missing child raises RuntimeError; entries of
      the map are positive, so the case of a stored zero is unreachable. *)
  Definition visit_child (c : A) (st : list (A * nat) * list A) : res (list (A * nat) * list A) :=
    match iget (fst st) c with
    | None => Err RuntimeError
    | Some 0 => Err RuntimeError
    | Some 1 => Ok (idel (fst st) c, snd st ++ [c])
    | Some (S n) => Ok (iset (fst st) c n, snd st)
    end.
  Fixpoint visit_children (cs : list A) (st : list (A * nat) * list A) : res (list (A * nat) * list A) :=
    match cs with [] => Ok st | c :: r => do st' <- visit_child c st; visit_children r st' end.
  (** One generation. *)
  Fixpoint visit_generation (g : digraph A) (gen : list A) (st : list (A * nat) * list A)
    : res (list (A * nat) * list A) :=
    match gen with [] => Ok st | v :: r => do st' <- visit_children (succs eqb g v) st; visit_generation g r st' end.
  (** networkx.topological_generations and topological_sort: Kahn's algorithm, one
      generation after the other.  [fuel] bounds the number of generations; running out of
      it is an error of the model, shown impossible for the fuel used below. *)
  Fixpoint generations (fuel : nat) (g : digraph A) (im : list (A * nat)) (zero : list A) (out : list A) : res (list A) :=
    match zero with
    | [] => match im with [] => Ok out | _ :: _ => Err ValueError (* NetworkXUnfeasible *) end
    | _ :: _ =>
      match fuel with
      | 0 => Err NotImplementedError
      | S f => do st <- visit_generation g zero (im, []); generations f g (fst st) (snd st) (out ++ zero)
      end
    end.
  Definition in_degree (g : digraph A) (v : A) : nat := length (preds eqb g v).
  Definition topological_sort (g : digraph A) : res (list A) :=
    let im := filter (fun e => negb (Nat.eqb (snd e) 0)) (map (fun v => (v, in_degree g v)) (g_nodes g)) in
    let zero := filter (fun v => Nat.eqb (in_degree g v) 0) (g_nodes g) in
    generations (length (g_nodes g)) g im zero [].

  (** csdl/rep/sort_nodes_nx.py:41-58 with flat=True: any exception of topological_sort
      is replaced by KeyError; put_inputs_first (17-21) has no effect. *)
  Definition sort_nodes (g : digraph A) : res (list A) :=
    match topological_sort g with Ok l => Ok l | Err _ => Err KeyError end.

  (** csdl/rep/graph_representation.py:384-393 *)
  Definition flat_sorted_nodes (g : digraph A) : res (list A) :=
    do l <- sort_nodes g;
    raise_if (negb (Nat.eqb (length (g_nodes g)) (length l))) ValueError (Ok l).
End Topo.
