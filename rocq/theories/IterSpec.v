(** Vocabulary of the property about iteration orders. *)
From Verif Require Import PyBase NamesModel PromotionsModel PromotionsSpec HierSpec Digraph ExprModel UnflatModel UnflatSpec FlatModel FlattenModel FlattenSpec CompileModel CompileSpec.

(** The variable object of the node that holds variable [o] of the model at path [p]: a back
    end starts from the value given when this object was created. *)
Definition provider (h : list obj) (c : compiled) (p : list string) (o : nat) : nat :=
  match node_of h c p o with NObj _ o' => o' | NModel _ _ => o end.

(** Distance from the main model as the compiler measures it: dots in the path, so that the
    main model and its submodels are equally close. *)
Definition level (p : list string) : nat := pred (length p).

(** The promoted name [pn] has no source: only declared variables have it, and no connection
    leads to it. *)
Definition sourceless (h : list obj) (um : umodel) (m : model) (pn : string) : Prop :=
  (forall p k o, occurs h um p o -> called h um m p k o pn -> k = KDeclared) /\ ~ connection_target m pn.

(** Among the declared variables with promoted name [pn] at equal levels, those with a value
    given by the user have the same value, and so have those without ([dflt]). *)
Definition values_agree {V} (h : list obj) (um : umodel) (m : model) (dflt : nat -> bool) (value : nat -> V) (pn : string) : Prop :=
  forall p o p' o', occurs h um p o -> occurs h um p' o' -> called h um m p KDeclared o pn -> called h um m p' KDeclared o' pn ->
    level p = level p' -> dflt o = dflt o' -> value o = value o'.
