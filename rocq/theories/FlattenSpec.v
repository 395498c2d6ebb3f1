(** Vocabulary of the properties of the flattened graph. *)
From Coq Require Import Permutation.
From Verif Require Import PyBase NamesModel PromotionsModel PromotionsSpec HierSpec Digraph ExprModel UnflatModel UnflatSpec FlattenModel.

(** [graph_at u p g]: [g] is the graph of the model at path [p] below the one [u] was built for. *)
Inductive graph_at : ugraph -> list string -> digraph irnode -> Prop :=
| ga_here g subs : graph_at (UG g subs) [] g
| ga_sub g subs s su p g' : In (s, su) subs -> graph_at su p g' -> graph_at (UG g subs) (s :: p) g'.

(** graph.model_nodes is a Python set (csdl/rep/construct_unflat_graph.py:216-230), over
    which merge_graphs iterates (csdl/rep/construct_flat_graph.py:124-129): the submodels of
    each model are visited in any order.  [reordered u u']: [u'] is [u] with the submodels of
    each model listed in another order. *)
Inductive reordered : ugraph -> ugraph -> Prop :=
| Reordered g subs subs1 subs' : Permutation subs subs1 ->
    Forall2 (fun a b => fst a = fst b) subs1 subs' ->
    (forall k a b, nth_error subs1 k = Some a -> nth_error subs' k = Some b -> reordered (snd a) (snd b)) ->
    reordered (UG g subs) (UG g subs').
(** The graphs built for a hierarchy, in some order. *)
Definition built (h : list obj) (um : umodel) (u : ugraph) : Prop :=
  exists u0, construct_all h [] um = Ok u0 /\ reordered u0 u.

Definition model_node (x : irnode) : Prop := exists p s, x = NModel p s.
(** The node of a variable. *)
Definition is_varnode (h : list obj) (x : irnode) : Prop := exists p o, x = NObj p o /\ variable h o.

Definition input_object (h : list obj) (o : nat) : Prop := exists ob, nth_error h o = Some ob /\ ob_kind ob = KIn.
Definition output_object (h : list obj) (o : nat) : Prop :=
  exists ob, nth_error h o = Some ob /\ (ob_kind ob = KOut \/ ob_kind ob = KConcat).
Definition declared_object (h : list obj) (o : nat) : Prop := exists ob, nth_error h o = Some ob /\ ob_kind ob = KDecl.

(** [hierarchy h shp um m]: the objects of the models of [um] are the variables listed in
    the hierarchy [m] (kinds, names and shapes), with the same submodels. *)
Inductive hierarchy (h : list obj) (shp : nat -> shape) : umodel -> model -> Prop :=
| Hierarchy ins outs decls subs m :
    Forall2 (fun o xs => input_object h o /\ named h o (fst xs) /\ shp o = snd xs) ins (m_inputs m) ->
    Forall2 (fun o xs => output_object h o /\ named h o (fst xs) /\ shp o = snd xs) outs (m_outputs m) ->
    Forall2 (fun o xs => declared_object h o /\ named h o (fst xs) /\ shp o = snd xs) decls (m_declared m) ->
    Forall2 (fun a b => fst a = fst (fst b)) subs (m_subs m) ->
    (forall k a b, nth_error subs k = Some a -> nth_error (m_subs m) k = Some b -> hierarchy h shp (snd a) (snd b)) ->
    hierarchy h shp (UM ins outs decls subs) m.

(** [um_at um p um']: the model at path [p]. *)
Inductive um_at : umodel -> list string -> umodel -> Prop :=
| um_here m : um_at m [] m
| um_step ins outs decls subs s sm p m' : In (s, sm) subs -> um_at sm p m' -> um_at (UM ins outs decls subs) (s :: p) m'.

(** Object [o] is an input, output or declared variable (according to [k]) with name [x] of
    the model at path [p]. *)
Definition member (h : list obj) (um : umodel) (p : list string) (k : vkind) (o : nat) (x : string) : Prop :=
  named h o x /\ exists ins outs decls subs, um_at um p (UM ins outs decls subs) /\
    In o (match k with KInput => ins | KOutput => outs | KDeclared => decls end).

(** The name of object [o] was generated. *)
Definition auto_named (h : list obj) (o : nat) : Prop :=
  exists ob, nth_error h o = Some ob /\ ob_name ob = hex_id (ob_num ob).
Definition custom_operation (h : list obj) (o : nat) : Prop :=
  exists ob, nth_error h o = Some ob /\ ob_kind ob = KOp true.

(** Inputs refer to existing objects, in every model. *)
Definition inputs_exist (h : list obj) (um : umodel) : Prop :=
  forall p ins outs decls subs i, um_at um p (UM ins outs decls subs) -> In i ins -> i < length h.
(** Every variable a model's graph mentions has a generated name (and is not a declared
    variable) or is one of the inputs, outputs and declared variables of that model: models
    do not use each other's variables, and named results of custom and implicit operations
    are registered. *)
Definition uses_own (h : list obj) (um : umodel) : Prop :=
  forall p ins outs decls subs o, um_at um p (UM ins outs decls subs) -> scope h ins (outs ++ decls) o -> variable h o ->
    (auto_named h o /\ ~ declared_object h o) \/ In o (ins ++ outs ++ decls).
(** Data flows between variables and operations only; they never share a name. *)
Definition alternates (h : list obj) : Prop :=
  forall a b, flows h a b -> (variable h a /\ operation h b) \/ (operation h a /\ variable h b).
Definition op_names_apart (h : list obj) : Prop :=
  forall a b n, operation h a -> variable h b -> named h a n -> named h b n -> False.
(** No variable of the hierarchy has the generated id of an object as name. *)
Definition chosen_names_only (h : list obj) (m : model) : Prop :=
  forall p k x s, has_var m p k x s -> forall i ob, nth_error h i = Some ob -> hex_id (ob_num ob) <> x.
