(** Which variables of a hierarchy are linked. *)
From Verif Require Import PyBase NamesModel PromotionsModel PromotionsSpec HierModel HierSpec ExprModel UnflatModel UnflatSpec FlattenSpec CompileModel CompileSpec WorldModel.
Local Open Scope list_scope.

(** The variables (path of the model, object) that promotions and connections make one and the
    same: a variable itself, those with a common promoted name, and the two ends of a connection. *)
Inductive linked (h : list obj) (um : umodel) (m : model) : list string -> nat -> list string -> nat -> Prop :=
| l_self : forall p o, occurs h um p o -> variable h o -> linked h um m p o p o
| l_name : forall p k o p' k' o' n, occurs h um p o -> occurs h um p' o' -> called h um m p k o n -> called h um m p' k' o' n -> linked h um m p o p' o'
| l_conn : forall p0 a b na nb p k o p' k' o', declared_conn m p0 a b -> resolves_to m (dotted p0 a) na -> resolves_to m (dotted p0 b) nb ->
    occurs h um p o -> occurs h um p' o' -> called h um m p k o na -> called h um m p' k' o' nb -> linked h um m p o p' o'
| l_sym : forall p o p' o', linked h um m p o p' o' -> linked h um m p' o' p o
| l_trans : forall p o p' o' p'' o'', linked h um m p o p' o' -> linked h um m p' o' p'' o'' -> linked h um m p o p'' o''.

(** The program without its connections, what the calls to add promote, and the optimization
    problem it states. *)
Definition unlinked (l : list wevent) : list wevent :=
  flat_map (fun e => match e with
                     | WConnect _ _ _ | WDesign _ _ | WConstraint _ _ | WObjective _ _ => []
                     | WAdd k n _ c => [WAdd k n None c]
                     | _ => [e]
                     end) l.
