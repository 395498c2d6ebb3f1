(** Hierarchies that do the same work, organised in another way. *)
From Verif Require Import PyBase PromotionsModel PromotionsSpec HierSpec ExprModel UnflatModel UnflatSpec FlattenSpec CompileModel CompileSpec DependSpec LinkSpec.
Local Open Scope list_scope.

(** The value of variable [o] of the model at path [p] is the one supplied for the name [n]: it is
    an input, or nothing in the model supplies it. *)
Definition given (h : list obj) (um : umodel) (m : model) (p : list string) (o : nat) (n : string) : Prop :=
  called h um m p KInput o n \/ (occurs h um p o /\ called h um m p KDeclared o n /\ unsupplied h um m n).

(** [R p o p' o']: variable [o] of the model at path [p] in the first hierarchy has variable [o'] of
    the model at [p'] in the second one as a counterpart.  Every variable has a counterpart, linked
    variables have linked counterparts, and for every operation there is one that does the same
    with counterparts of its arguments and results.  Several variables may have the same
    counterpart, one may have several, and the second hierarchy may contain more. *)
Record restructured (h : list obj) (um : umodel) (m : model) (h' : list obj) (um' : umodel) (m' : model)
    (same_operation : nat -> nat -> Prop) (R : list string -> nat -> list string -> nat -> Prop) : Prop := {
  r_all : forall p o, occurs h um p o -> variable h o -> exists p' o', R p o p' o';
  r_links : forall p o p' o' q u q' u', R p o p' o' -> R q u q' u' -> linked h um m p o q u -> linked h' um' m' p' o' q' u';
  r_operations : forall p a ob, occurs h um p a -> nth_error h a = Some ob -> is_op ob = true ->
    exists q a' ob', occurs h' um' q a' /\ nth_error h' a' = Some ob' /\ is_op ob' = true /\ same_operation a a' /\
      Forall2 (fun d d' => R p d q d') (ob_deps ob) (ob_deps ob') /\ Forall2 (fun v v' => R p v q v') (ob_outs ob) (ob_outs ob')
}.
