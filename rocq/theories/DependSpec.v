(** On which supplied values a variable depends, read off the model. *)
From Verif Require Import PyBase PromotionsModel PromotionsSpec HierSpec ExprModel UnflatModel UnflatSpec FlattenSpec CompileSpec.

Section Depends.
  Context (h : list obj) (um : umodel) (m : model).
  (** Nothing in the model supplies the declared variables with promoted name [pn]. *)
  Definition unsupplied (pn : string) : Prop :=
    (forall p k o, called h um m p k o pn -> k = KDeclared) /\ ~ connection_target m pn.
  (** [depends p o pn]: the value of variable [o] of the model at path [p] is made from the
      value supplied for the promoted name [pn], directly, through operations, through a
      shared promoted name, or through a connection. *)
  Inductive depends : list string -> nat -> string -> Prop :=
  | dep_input p o pn : called h um m p KInput o pn -> depends p o pn
  | dep_free p o pn : occurs h um p o -> called h um m p KDeclared o pn -> unsupplied pn -> depends p o pn
  | dep_operation p o d v pn : occurs h um p o -> reads h o d -> writes h o v -> depends p d pn -> depends p v pn
  | dep_promoted p k o p' k' o' n pn : occurs h um p o -> occurs h um p' o' -> called h um m p k o n -> called h um m p' k' o' n ->
      depends p o pn -> depends p' o' pn
  | dep_connected p0 a b pa pb p k o p' k' o' pn : declared_conn m p0 a b -> resolves_to m (dotted p0 a) pa -> resolves_to m (dotted p0 b) pb ->
      occurs h um p o -> occurs h um p' o' -> called h um m p k o pa -> called h um m p' k' o' pb ->
      depends p o pn -> depends p' o' pn.
End Depends.
(** No operation uses the value of variable [o] of the model at path [p]. *)
Definition unused (h : list obj) (um : umodel) (m : model) (p : list string) (o : nat) : Prop :=
  forall p' a d, occurs h um p' a -> operation h a -> reads h a d -> ~ feeds h um m p o p' d.
