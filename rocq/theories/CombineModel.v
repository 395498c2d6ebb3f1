(** Model of csdl/opt/combine_operations.py and csdl/opt/remove_dead_code.py on flat graphs.
    Nodes of the graph are variables [V n] and operations [O n].  An operation carries
    the function it computes and the statements of its compute string; a statement
    [(y, f, xs)] is the assignment [y = f(xs)].  Function symbols are numbers,
    interpreted by [I]. *)
From Verif Require Import PyBase Digraph TopoModel.
Set Implicit Arguments.
Open Scope list_scope.

Inductive nd := V (n : nat) | O (n : nat).
Definition nd_eqb (a b : nd) : bool :=
  match a, b with V x, V y => Nat.eqb x y | O x, O y => Nat.eqb x y | _, _ => false end.

Definition stmt : Type := nat * nat * list nat.
Definition program := list stmt.

(** [Fn f p]: an ordinary operation computing [f], with compute string [p] (empty for
    passthrough, which does not define one, and for print_var); [Combined p]: an operation
    that executes its compute string (operations/combined.py). *)
Inductive body := Fn (f : nat) (p : program) | Combined (p : program).
Definition compute_string (b : body) : program := match b with Fn _ p => p | Combined p => p end.

(** [o_elementwise]: a StandardOperation whose property 'elementwise' is True. *)
Record opinfo := OpInfo { o_elementwise : bool; o_body : body }.

Record cstate := CState { c_graph : digraph nd; c_ops : nat -> opinfo; c_next : nat }.

Notation gpreds := (preds nd_eqb).
Notation gsuccs := (succs nd_eqb).

Section Combine.
  (** [isinstance(v.var, Output)] *)
  Variable is_output : nat -> bool.

  Definition nmem (x : nat) (l : list nat) : bool := existsb (Nat.eqb x) l.

  (** combinable (combine_operations.py:20-32) *)
  Definition combinable (st : cstate) (reg : list nat) (o : nat) : bool :=
    match gpreds (c_graph st) (O o), gsuccs (c_graph st) (O o) with
    | [V p], [_] => negb (nmem p reg) && o_elementwise (c_ops st o)
    | _, _ => false
    end.

  (** insert_new_op (combine_operations.py:35-80); the changes to the front end objects
      (58-68) are not modelled. *)
  Definition insert_new_op (st : cstate) (v01 o1 v12 o2 v23 : nat) : cstate :=
    let c := c_next st in
    let p := compute_string (o_body (c_ops st o1)) ++ compute_string (o_body (c_ops st o2)) in
    let g := remove_nodes nd_eqb (c_graph st) [O o1; V v12; O o2] in
    CState (add_edges nd_eqb g [(V v01, O c); (O c, V v23)])
           (fun o => if Nat.eqb o c then OpInfo true (Combined p) else c_ops st o) (S c).

  (** _combine_operations (combine_operations.py:137-183).  The loop of lines 178-183 runs
      over the live dictionary of predecessors: Python raises RuntimeError when its size
      has changed.  The last two cases of the matches on node kinds do not occur in
      graphs whose edges lead from variables to operations and back. *)
  Fixpoint combine (fuel : nat) (st : cstate) (reg : list nat) (v23 : nat) : res cstate :=
    match fuel with
    | 0 => Err RuntimeError
    | S fuel =>
      let copied_loop :=
        fix loop (st : cstate) (l : list nd) : res cstate :=
          match l with
          | [] => Ok st
          | V v :: r => do st' <- combine fuel st reg v; loop st' r
          | O _ :: r => Err AttributeError
          end in
      let live_loop o :=
        fix loop (st : cstate) (size : nat) (l : list nd) : res cstate :=
          match l with
          | [] => Ok st
          | V v :: r =>
            do st' <- combine fuel st reg v;
            raise_if (negb (Nat.eqb (length (gpreds (c_graph st') (O o))) size)) RuntimeError (loop st' size r)
          | O _ :: r => Err AttributeError
          end in
      if is_output v23 then
        match gpreds (c_graph st) (V v23) with
        | [] => Err IndexError
        | V _ :: _ => Err AttributeError
        | O o2 :: _ =>
          if combinable st reg o2 then
            match gpreds (c_graph st) (O o2) with
            | V v12 :: _ =>
              if is_output v12 then
                match gpreds (c_graph st) (V v12) with
                | [] => Err IndexError
                | V _ :: _ => Err AttributeError
                | O o1 :: _ =>
                  if combinable st reg o1 then
                    match gpreds (c_graph st) (O o1) with
                    | V v01 :: _ => combine fuel (insert_new_op st v01 o1 v12 o2 v23) reg v01
                    | _ => Err AttributeError
                    end
                  else copied_loop st (gpreds (c_graph st) (O o1))
                end
              else Ok st
            | _ => Err AttributeError
            end
          else let l := gpreds (c_graph st) (O o2) in live_loop o2 st (length l) l
        end
      else Ok st
    end.

  (** combine_operations.py:101-106: the registered outputs in the arbitrary order [reg] of the
      set. *)
  Fixpoint combine_all (fuel : nat) (st : cstate) (reg order : list nat) : res cstate :=
    match order with
    | [] => Ok st
    | r :: rest => do st' <- combine fuel st reg r; combine_all fuel st' reg rest
    end.

  (** get_registered_outputs_from_graph (rep/get_registered_outputs_from_graph.py:6-17): outputs
      that nothing depends on; [named] says whether the name is not the generated one. *)
  Definition registered (named : nat -> bool) (g : digraph nd) : list nat :=
    flat_map (fun x => match x with
                       | V n => if Nat.eqb (length (gsuccs g (V n))) 0 && is_output n && named n then [n] else []
                       | O _ => [] end) (g_nodes g).

  (** combine_operations (combine_operations.py:93-121).  The flat graph is copied before it
      is changed; then the attribute [unflat_graph] is read, which GraphRepresentation
      does not have ([rep_unflat] stands for it). *)
  Record rep := Rep { rep_flat : cstate; rep_unflat : option cstate }.
  Definition combine_operations (named : nat -> bool) (order : list nat -> list nat) (fuel : nat) (r : rep) : rep * res unit :=
    let reg := registered named (c_graph (rep_flat r)) in
    match combine_all fuel (rep_flat r) reg (order reg) with
    | Err e => (r, Err e)
    | Ok _ => match rep_unflat r with
              | None => (r, Err AttributeError)
              | Some _ => (r, Ok tt)          (* the copy made of the unflat graph is dropped too *)
              end
    end.

  (** remove_dead_code (remove_dead_code.py:11-61): sort the flat graph (sort_nodes_nx with
      flat=True, which raises KeyError on a cycle), remove the nodes that are not in the
      sorted list from the graph of the representation itself, then read the attribute
      [unflat_graph].  The pruning of the unflat graph is not modelled. *)
  Definition remove_dead_code (r : rep) : rep * res unit :=
    let g := c_graph (rep_flat r) in
    match sort_nodes nd_eqb g with
    | Err e => (r, Err e)
    | Ok sorted =>
      let dead := filter (fun x => negb (memA nd_eqb x sorted)) (g_nodes g) in
      let r' := Rep (CState (remove_nodes nd_eqb g dead) (c_ops (rep_flat r)) (c_next (rep_flat r))) (rep_unflat r) in
      match rep_unflat r with
      | None => (r', Err AttributeError)
      | Some _ => (r', Ok tt)
      end
    end.
End Combine.
