(** Meaning of einsum subscripts, independently of how csdl reads them. *)
From Verif Require Import PyBase PromotionsModel EinsumModel.
Set Implicit Arguments.
Open Scope list_scope.

(** Index letter [c] labels an axis of length [d] of some operand. *)
Definition labels (terms : list chars) (shapes : list shape) (c : ascii) (d : nat) : Prop :=
  exists i t sh k, nth_error terms i = Some t /\ nth_error shapes i = Some sh /\
                   nth_error t k = Some c /\ nth_error sh k = Some d.

(** The operands agree on the length of every index. *)
Definition consistent (terms : list chars) (shapes : list shape) : Prop :=
  forall c d d', labels terms shapes c d -> labels terms shapes c d' -> d = d'.

(** One letter per axis, for every operand. *)
Definition fits (terms : list chars) (shapes : list shape) : Prop :=
  Forall2 (fun t sh => length t = length sh) terms shapes.

(** Subscripts made of the letters a to z and A to Z. *)
Definition letters (t : chars) : Prop :=
  incl t (list_ascii_of_string "abcdefghijklmnopqrstuvwxyzABCDEFGHIJKLMNOPQRSTUVWXYZ").

(** [t1,...,tn->out] *)
Definition explicit (terms : list chars) (out : chars) : chars := join_commas terms ++ arrow ++ out.

(** The shape einsum must have: the lengths of the output indices, (1,) for a scalar. *)
Inductive right_shape (terms : list chars) (shapes : list shape) : chars -> shape -> Prop :=
| rs_scalar : right_shape terms shapes [] [1]
| rs_tensor out sh : out <> [] -> Forall2 (labels terms shapes) out sh -> right_shape terms shapes out sh.

(** A naming of index objects by letters, different for different objects. *)
Definition injective_on (l : list axis) (f : axis -> ascii) : Prop :=
  forall a b, In a l -> In b l -> f a = f b -> a = b.
