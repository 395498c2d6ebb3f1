(** Renaming variables and submodels consistently. *)
From Verif Require Import PyBase PromotionsModel PromotionsSpec HierSpec ExprModel UnflatModel UnflatSpec FlattenSpec RenameSpec.
Local Open Scope list_scope.

(** [r] renames names one to one ([s] takes it back), and a dotted name part by part. *)
Record renaming (r s : string -> string) : Prop := {
  rn_back : forall x, s (r x) = x;
  rn_forth : forall x, r (s x) = x;
  rn_parts : forall p x, r (dotted p x) = dotted (map r p) (r x)
}.
(** The hierarchy with all names replaced: those of variables and submodels, and wherever names
    are promoted, connected, or used in the optimization problem. *)
Fixpoint rename_model (r : string -> string) (m : model) : model :=
  match m with
  | Mdl ins outs decls conns dvs csts obj subs =>
    let entries := map (fun xs : string * shape => (r (fst xs), snd xs)) in
    Mdl (entries ins) (entries outs) (entries decls) (map (fun ab => (r (fst ab), r (snd ab))) conns) (map r dvs) (map r csts) (option_map r obj)
      (map (fun t => (r (fst (fst t)), option_map (map r) (snd (fst t)), rename_model r (snd t))) subs)
  end.
Fixpoint rename_um (r : string -> string) (um : umodel) : umodel :=
  match um with UM ins outs decls subs => UM ins outs decls (map (fun t => (r (fst t), rename_um r (snd t))) subs) end.
(** The same objects, with the variables of the models renamed. *)
Definition renamed_objects (r : string -> string) (h h' : list obj) (um : umodel) : Prop :=
  same_objects h h' /\ forall p k o x, member h um p k o x -> named h' o (r x).
