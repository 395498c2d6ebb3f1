(** When the value of a variable of the model that defines the residuals is given from outside. *)
From Verif Require Import PyBase NamesModel PromotionsModel PromotionsSpec HierSpec ExprModel UnflatModel UnflatSpec FlattenSpec CompileSpec.

(** Variable [o] of the main model gets its value from outside: no model of the hierarchy
    computes a variable with its promoted name, and no connection leads to it. *)
Definition supplied (h : list obj) (um : umodel) (m : model) (o : nat) : Prop :=
  exists n, named h o n /\ (forall p k o', called h um m p k o' n -> k = KDeclared) /\ ~ connection_target m n.

