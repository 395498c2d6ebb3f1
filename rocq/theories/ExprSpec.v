(** Vocabulary for histories of expression building. *)
From Verif Require Import PyBase NamesModel ExprModel.

(** A name that is not the generated id of one of the first [used] nodes of the process. *)
Definition chosen_name (used : N) (n : string) : Prop := forall k, (k < used)%N -> hex_id k <> n.

(** The names the user supplies in one call. *)
Definition chosen_names (e : event) : list string :=
  match e with
  | EInput n | EDeclare n | ECreateOut n | ERegister n _ | EAdd (Some n) => [n]
  | EImplicit _ os | ECustom _ _ os => os
  | _ => []
  end.

(** In a program that creates [used] nodes: the user does not pick one of their generated ids
    as a name, names its submodels, and does not call the internal add_dependency_node. *)
Definition clean_event (used : N) (e : event) : Prop :=
  (forall n, In n (chosen_names e) -> chosen_name used n) /\
  match e with EDepend _ _ | EAdd None => False | _ => True end.

(** No operation names its own results. *)
Definition unnamed_results (e : event) : Prop :=
  match e with EImplicit _ os | ECustom _ _ os => os = [] | _ => True end.
