(** Vocabulary of the properties of the graph of a model: what an expression graph is, and
    which objects the outputs of a model depend on. *)
From Verif Require Import PyBase Digraph ExprModel UnflatModel.

(** [reads h x y]: object [x] lists [y] as a dependency. *)
Definition reads (h : list obj) (x y : nat) : Prop :=
  exists ob, nth_error h x = Some ob /\ In y (ob_deps ob).
(** [writes h x y]: [x] is an operation and [y] one of its outputs. *)
Definition writes (h : list obj) (x y : nat) : Prop :=
  exists ob, nth_error h x = Some ob /\ is_op ob = true /\ In y (ob_outs ob).
(** Data flows from [a] to [b]. *)
Definition flows (h : list obj) (a b : nat) : Prop := reads h b a \/ writes h a b.

(** Everything the objects in [l] transitively depend on, with all the outputs of the
    operations met. *)
Inductive needed (h : list obj) (l : list nat) : nat -> Prop :=
| needed_leaf x : In x l -> needed h l x
| needed_dep x y : needed h l x -> reads h x y -> needed h l y
| needed_out x y : needed h l x -> writes h x y -> needed h l y.

Definition named (h : list obj) (o : nat) (n : string) : Prop :=
  exists ob, nth_error h o = Some ob /\ ob_name ob = n.
Definition operation (h : list obj) (o : nat) : Prop :=
  exists ob, nth_error h o = Some ob /\ is_op ob = true.
Definition variable (h : list obj) (o : nat) : Prop :=
  exists ob, nth_error h o = Some ob /\ is_op ob = false.

(** References are to existing objects. *)
Definition no_dangling (h : list obj) : Prop :=
  forall x y, reads h x y \/ writes h x y -> y < length h.
(** No two objects of [P], and no object of [P] and submodel, share a name. *)
Definition names_apart (h : list obj) (P : nat -> Prop) (subs : list string) : Prop :=
  (forall a b n, P a -> P b -> named h a n -> named h b n -> a = b) /\
  (forall a n, P a -> named h a n -> ~ In n subs).

(** The objects a model brings into its graph: its inputs, and what its outputs and
    declared variables need. *)
Definition scope (h : list obj) (ins leaves : list nat) (o : nat) : Prop := In o ins \/ needed h leaves o.

(** A weaker condition: a variable may share its name only with other variables, and with a
    submodel only when an input has that name. *)
Definition names_compatible (h : list obj) (P : nat -> Prop) (ins : list nat) (subs : list string) : Prop :=
  (forall a b n, P a -> P b -> named h a n -> named h b n -> variable h a -> variable h b) /\
  (forall a n, P a -> variable h a -> named h a n -> In n subs -> exists i, In i ins /\ named h i n).

(** Names are compatible in every model of the hierarchy. *)
Inductive buildable (h : list obj) : umodel -> Prop :=
| Buildable ins outs decls subs :
    (forall i, In i (ins ++ outs ++ decls) -> i < length h) ->
    names_compatible h (scope h ins (outs ++ decls)) ins (map fst subs) ->
    (forall s sm, In (s, sm) subs -> buildable h sm) ->
    buildable h (UM ins outs decls subs).
