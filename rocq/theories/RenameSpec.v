(** Hierarchies that differ in the names of variables and submodels. *)
From Verif Require Import PyBase ExprModel UnflatModel WorldModel.
Local Open Scope list_scope.

(** The same objects, up to their names: the same kinds of objects with the same dependences. *)
Definition same_object (a b : obj) : Prop := ob_kind a = ob_kind b /\ ob_deps a = ob_deps b /\ ob_outs a = ob_outs b.
Definition same_objects (h h' : list obj) : Prop := Forall2 same_object h h'.
(** The same models, up to the names of submodels: with the same inputs, registered outputs and
    declared variables, and the same submodels in the same order. *)
Inductive same_models : umodel -> umodel -> Prop :=
| SameModels : forall ins outs decls subs subs', length subs = length subs' ->
    (forall i a b, nth_error subs i = Some a -> nth_error subs' i = Some b -> same_models (snd a) (snd b)) ->
    same_models (UM ins outs decls subs) (UM ins outs decls subs').
(** [p] in the first hierarchy and [p'] in the second one lead to the same submodel. *)
Inductive same_place : umodel -> umodel -> list string -> list string -> Prop :=
| sp_here : forall um um', same_place um um' [] []
| sp_sub : forall ins outs decls subs ins' outs' decls' subs' i n n' um um' p p',
    nth_error subs i = Some (n, um) -> nth_error subs' i = Some (n', um') -> same_place um um' p p' ->
    same_place (UM ins outs decls subs) (UM ins' outs' decls' subs') (n :: p) (n' :: p').

(** Two states of the process that differ in names, node numbers, promotions, connections and the
    optimization problem. *)
Definition same_model (a b : wmodel) : Prop :=
  wm_ins a = wm_ins b /\ wm_outs a = wm_outs b /\ wm_decls a = wm_decls b /\ map snd (wm_subs a) = map snd (wm_subs b).
Definition same_worlds (w w' : world) : Prop := same_objects (w_heap w) (w_heap w') /\ Forall2 same_model (w_models w) (w_models w').

(** The program without names, connections and the optimization problem. *)
Definition anonymous (e : event) : event :=
  match e with
  | EInput _ => EInput "" | EDeclare _ => EDeclare "" | ECreateOut _ => ECreateOut "" | ERegister _ v => ERegister "" v
  | EImplicit args outs => EImplicit args (map (fun _ => ""%string) outs) | ECustom op args outs => ECustom op args (map (fun _ => ""%string) outs)
  | EAdd _ => EAdd None
  | _ => e
  end.
Definition nameless (l : list wevent) : list wevent :=
  flat_map (fun e => match e with
                     | WConnect _ _ _ | WDesign _ _ | WConstraint _ _ | WObjective _ _ => []
                     | WAdd k n _ c => [WAdd k (option_map (fun _ => ""%string) n) None c]
                     | WOn k ev => [WOn k (anonymous ev)]
                     | WNew => [WNew]
                     end) l.
(** No call that gives a name to something is rejected: each makes an entry in its model. *)
Definition gives_name (e : wevent) : bool :=
  match e with WOn _ (EInput _) | WOn _ (ECreateOut _) | WOn _ (ERegister _ _) | WAdd _ _ _ _ => true | _ => false end.
Definition called_on (e : wevent) : nat := match e with WOn k _ | WAdd k _ _ _ => k | _ => 0 end.
Definition entries (w : world) (k : nat) : nat :=
  match nth_error (w_models w) k with Some m => length (wm_ins m) + length (wm_outs m) + length (wm_subs m) | None => 0 end.
Definition names_accepted (l : list wevent) : Prop := forall before e after, l = before ++ e :: after -> gives_name e = true ->
  entries (whistory (before ++ [e])) (called_on e) <> entries (whistory before) (called_on e).
