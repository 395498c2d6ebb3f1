(** Vocabulary for the array operations: which axes an index list denotes, and what it
    means to remove, permute and expand axes; independent of how csdl computes it. *)
From Coq Require Import Sorting.Sorted Sorting.Permutation.
From Verif Require Import PyBase PromotionsModel EinsumModel EinsumSpec.
Set Implicit Arguments.
Open Scope list_scope.

(** [z] denotes axis [k] of an array of rank [n], negative numbers counting from the
    last axis. *)
Definition axis_at (n : nat) (z : Z) (k : nat) : Prop :=
  k < n /\ (z = Z.of_nat k \/ z = Z.of_nat k - Z.of_nat n)%Z.

(** [axes] denotes the axes [ks], in this order. *)
Definition denotes (n : nat) (axes : list Z) (ks : list nat) : Prop := Forall2 (axis_at n) axes ks.

(** [sh'] lists, in order, the lengths of the axes of [sh] that are not in [ks]. *)
Definition remaining (ks : list nat) (sh sh' : shape) : Prop :=
  exists kept, StronglySorted lt kept /\
    (forall k, In k kept <-> k < length sh /\ ~ In k ks) /\
    Forall2 (fun k d => nth_error sh k = Some d) kept sh'.

(** The documented shape of a reduction over the axes [ks]: what remains, or (1,) when
    nothing remains. *)
Definition reduced (ks : list nat) (sh sh' : shape) : Prop :=
  (sh' = [1] /\ forall k, k < length sh -> In k ks) \/
  ((exists k, k < length sh /\ ~ In k ks) /\ remaining ks sh sh').

(** [sh'] is [sh] with the axes moved as the index letters say: the axis labelled [c] in
    [inp] is labelled [c] in [out]. *)
Definition relabelled (inp out : chars) (sh sh' : shape) : Prop :=
  length sh' = length out /\
  forall j k c, nth_error out j = Some c -> nth_error inp k = Some c -> nth_error sh' j = nth_error sh k.

(** No spaces and no dashes: an index letter list. *)
Definition plain (t : chars) : Prop := forall c, In c t -> c <> " "%char /\ c <> "-"%char.
