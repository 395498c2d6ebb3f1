(** Specification vocabulary for sorting: cycles, and positions in a list. *)
From Verif Require Import PyBase Digraph.
From Coq Require Import Relations.

(** A non-empty chain of edges from a node to itself. *)
Definition has_cycle {A} (g : digraph A) : Prop := exists v, clos_trans A (edge g) v v.

(** [a] occurs somewhere before [b]. *)
Definition precedes {A} (l : list A) (a b : A) : Prop := exists l1 l2 l3, l = l1 ++ a :: l2 ++ b :: l3.
