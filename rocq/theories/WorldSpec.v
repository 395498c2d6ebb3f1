(** Rules for programs that build models. *)
From Verif Require Import PyBase NamesModel PromotionsModel PromotionsSpec ExprModel ExprSpec UnflatModel UnflatSpec WorldModel.
Local Open Scope list_scope.

(** The model a call is made on. *)
Definition actor (e : wevent) : nat :=
  match e with WNew => 0 | WOn k _ | WAdd k _ _ _ | WConnect k _ _ | WDesign k _ | WConstraint k _ | WObjective k _ => k end.

(** For each node object, in the order of creation, the model whose call created it. *)
Definition owners_step (ws : world * list nat) (e : wevent) : world * list nat :=
  let w' := wstep (fst ws) e in
  (w', snd ws ++ repeat (actor e) (length (w_heap w') - length (w_heap (fst ws)))).
Definition owners (l : list wevent) : list nat := snd (fold_left owners_step l (world0, [])).

(** The existing objects a call uses. *)
Definition mentions (e : event) : list nat :=
  match e with
  | EApply args _ | EImplicit args _ => args
  | ECustom op args _ => op :: args
  | EGetitem x _ => [x]
  | ESetitem y x => [y; x]
  | EDepend v op => [v; op]
  | ERegister _ v => [v]
  | _ => []
  end.

(** Call [e], made after the calls [before] of a program that creates [used] nodes, follows
    the rules:
    - names the user picks are not the generated ids of these nodes, names of declared variables
      have no dots, submodels get a non-empty name; add_dependency_node is not called directly;
    - a model only uses objects it created itself;
    - a CustomOperation object is applied once. *)
Definition rule (used : N) (before : list wevent) (e : wevent) : Prop :=
  match e with
  | WOn k ev =>
    clean_event used ev /\
    (forall n, ev = EDeclare n -> has_dot n = false) /\
    (forall o, In o (mentions ev) -> nth_error (owners before) o = Some k) /\
    (forall op args outs, ev = ECustom op args outs -> forall k' args' outs', ~ In (WOn k' (ECustom op args' outs')) before)
  | WAdd _ on _ _ => exists n, on = Some n /\ chosen_name used n /\ n <> EmptyString
  | _ => True
  end.
Definition follows (used : N) (l : list wevent) : Prop := forall before e after, l = before ++ e :: after -> rule used before e.
Definition follows_rules (l : list wevent) : Prop := follows (w_count (whistory l)) l.

(** At the end:
    - every output made by create_output has been assigned to;
    - an output with a name given by the user is registered, in the model that created it;
    - within a model, inputs, outputs, declared variables and submodels have different names;
    - less than 62 * 63^4 nodes have been created (C02). *)
Record finished (l : list wevent) : Prop := {
  fin_assigned : forall o ob, nth_error (w_heap (whistory l)) o = Some ob -> ob_kind ob = KConcat -> ob_defined ob = true;
  fin_registered : forall o ob k, nth_error (w_heap (whistory l)) o = Some ob -> ob_kind ob = KOut -> chosen_name (w_count (whistory l)) (ob_name ob) ->
    nth_error (owners l) o = Some k -> exists m, nth_error (w_models (whistory l)) k = Some m /\ In o (wm_outs m);
  fin_names : forall k m, nth_error (w_models (whistory l)) k = Some m ->
    NoDup (map (name_in (w_heap (whistory l))) (wm_ins m ++ wm_outs m ++ wm_decls m) ++ sub_names m);
  fin_few : (w_count (whistory l) <= 62 * 63 ^ 4)%N
}.

(** Model [c] is a submodel of model [k]. *)
Definition contains (w : world) (k c : nat) : Prop := exists m n pr, nth_error (w_models w) k = Some m /\ In (n, pr, c) (wm_subs m).
