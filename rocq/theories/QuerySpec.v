(** Vocabulary for the queries on a representation. *)
From Verif Require Import PyBase NamesModel Digraph TopoModel QueryModel.
From Coq Require Import Relation_Operators.

(** A representation and, recursively, those of its implicit operations. *)
Fixpoint all_reps (r : rep) : list rep :=
  match r with
  | Rep nodes edges => Rep nodes edges :: flat_map (fun nk => match snd nk with QImp _ _ s => all_reps s | _ => [] end) nodes
  end.
(** The same with the product of the numbers of iterations of the implicit operations around it;
    None when one of them cannot be read. *)
Fixpoint weighted_reps (w : option nat) (r : rep) : list (option nat * rep) :=
  match r with
  | Rep nodes edges => (w, Rep nodes edges) ::
      flat_map (fun nk => match snd nk with
                          | QImp _ (Ok n) s => weighted_reps (option_map (fun w => w * n) w) s
                          | QImp _ (Err _) s => weighted_reps None s
                          | _ => [] end) nodes
  end.

Definition has_node (r : rep) (x : nat) (k : knd rep) : Prop := In (x, k) (rep_nodes r).
Definition well_formed (r : rep) : Prop := wf (graph r).
(** [path r x y]: a directed path with at least one edge; [walk]: with its number of edges. *)
Definition path (r : rep) : nat -> nat -> Prop := clos_trans nat (edge (graph r)).
Inductive walk (r : rep) : nat -> nat -> nat -> Prop :=
| walk_nil x : node (graph r) x -> walk r 0 x x
| walk_cons n x y z : edge (graph r) x y -> walk r n y z -> walk r (S n) x z.

(** A leaf: nothing points to it.  A final registered output: an output with a name given by the
    user that no operation uses. *)
Definition leaf (r : rep) (x : nat) : Prop := node (graph r) x /\ forall y, ~ edge (graph r) y x.
Definition final_output (r : rep) (x : nat) : Prop :=
  exists v, has_node r x (QVar v) /\ qv_output v = true /\ qv_auto v = false /\ forall y, ~ edge (graph r) x y.
(** Promoted name of a node. *)
Definition named (r : rep) (x : nat) (n : string) : Prop :=
  exists k, has_node r x k /\ n = match k with QVar v => prepend_namespace (qv_ns v) (qv_name v) | QOp m _ => m | QImp m _ _ => m end.

Definition variables (r : rep) : list qvar := flat_map (fun nk => match snd nk with QVar v => [v] | _ => [] end) (rep_nodes r).
Definition explicit_operations (r : rep) : nat :=
  length (filter (fun nk => match snd nk with QOp _ _ => true | _ => false end) (rep_nodes r)).
(** A node that is an operation, and the number of its arguments. *)
Definition operation (r : rep) (x : nat) : Prop := exists k, has_node r x k /\ match k with QVar _ => False | _ => True end.
Definition arguments (s : rep) (x n : nat) : Prop :=
  exists l, NoDup l /\ (forall y, In y l <-> edge (graph s) y x) /\ length l = n.
(** Number of variables, or of scalars in them. *)
Definition measure (vectorized : bool) (l : list (nat * qvar)) : nat :=
  if vectorized then length l else list_sum (map (fun xv => prod (qv_shape (snd xv))) l).
