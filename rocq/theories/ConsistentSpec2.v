(** Renaming variables and submodels consistently in a program. *)
From Verif Require Import PyBase NamesModel ExprModel WorldModel.
From Coq Require Import Ascii String.
Local Open Scope char_scope.
Local Open Scope list_scope.

(** The program with all names replaced: those given to variables and submodels, and those
    promoted, connected, or used in the optimization problem. *)
Definition rename_call (r : string -> string) (e : event) : event :=
  match e with
  | EInput n => EInput (r n) | EDeclare n => EDeclare (r n) | ECreateOut n => ECreateOut (r n) | ERegister n v => ERegister (r n) v
  | EImplicit args outs => EImplicit args (map r outs) | ECustom op args outs => ECustom op args (map r outs)
  | EAdd n => EAdd (option_map r n)
  | _ => e
  end.
Definition rename_event (r : string -> string) (e : wevent) : wevent :=
  match e with
  | WNew => WNew
  | WOn k ev => WOn k (rename_call r ev)
  | WAdd k n pr c => WAdd k (option_map r n) (option_map (map r) pr) c
  | WConnect k a b => WConnect k (r a) (r b)
  | WDesign k n => WDesign k (r n) | WConstraint k n => WConstraint k (r n) | WObjective k n => WObjective k (r n)
  end.
Definition rename_program (r : string -> string) (l : list wevent) : list wevent := map (rename_event r) l.
(** Every submodel is given a name by the program. *)
Definition all_named (l : list wevent) : Prop := forall k pr c, ~ In (WAdd k None pr c) l.
(** Names that create_input, create_output, register_output and add accept: letters, digits, underscores. *)
Definition legal (n : string) : Prop := forall c, In c (list_ascii_of_string n) -> is_alnum c = true \/ c = "_"%char.
