(** Specification vocabulary for building the representation of a model object twice. *)
From Verif Require Import PyBase NamesModel PromotionsModel.

(** A hierarchy without its objectives: two hierarchies that agree in everything but the names of
    objectives have the same [without_objective]. *)
Fixpoint without_objective (m : model) : model :=
  match m with
  | Mdl i o d c v k _ subs => Mdl i o d c v k None (map (fun t => (fst t, without_objective (snd t))) subs)
  end.
