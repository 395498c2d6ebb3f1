(** Vocabulary for the definition of model hierarchies. *)
From Verif Require Import PyBase DefineModel.
Set Implicit Arguments.
Open Scope list_scope.

(** [c] is [a] followed by [d]. *)
Definition joined (a d c : contents) : Prop :=
  k_inputs c = k_inputs a ++ k_inputs d /\ k_dvs c = k_dvs a ++ k_dvs d /\
  k_outs c = k_outs a ++ k_outs d /\ k_subs c = k_subs a ++ k_subs d.

(** [a] is to be defined, its define method succeeds, and then its contents are [c]: what it
    held before, followed by what the method added. *)
Definition defined_contents (defs : nat -> res contents) (h : heap) (a : nat) (c : contents) : Prop :=
  snd (h a) = false /\ exists d, defs a = Ok d /\ joined (fst (h a)) d c.

(** The models that building [root] has to define: [root] and, recursively, the
    submodels, as far as they are not marked as defined. *)
Inductive needed (defs : nat -> res contents) (h : heap) (root : nat) : nat -> Prop :=
| needed_root : snd (h root) = false -> needed defs h root root
| needed_sub a b c : needed defs h root a -> defined_contents defs h a c -> In b (k_subs c) ->
                     snd (h b) = false -> needed defs h root b.

(** A model that passes the checks: it contains something, its design variables are
    inputs of it, every output has been assigned. *)
Definition sound (c : contents) : Prop :=
  (k_outs c <> [] \/ k_subs c <> [] \/ k_inputs c <> []) /\
  incl (k_dvs c) (k_inputs c) /\
  Forall (fun o => snd o = true) (k_outs c).

(** No model contains itself, directly or indirectly: submodels have a smaller [rank],
    which the recursion limit exceeds. *)
Definition hierarchy (defs : nat -> res contents) (h : heap) (rank : nat -> nat) : Prop :=
  forall a b, In b (k_subs (fst (h a))) \/ (exists c, defs a = Ok c /\ In b (k_subs c)) -> rank b < rank a.
