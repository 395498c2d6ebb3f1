(** Specification vocabulary for promotions: written from the documentation, it
    mentions the model tree but none of the functions of PromotionsModel.v. *)
From Verif Require Import PyBase NamesModel PromotionsModel.

(** [sub_at m p m']: following the submodel names [p] from [m] leads to [m']. *)
Inductive sub_at : model -> list string -> model -> Prop :=
| sub_here m : sub_at m [] m
| sub_step m nm pr sm p m' :
    In (nm, pr, sm) (m_subs m) -> sub_at sm p m' -> sub_at m (nm :: p) m'.

Inductive vkind := KInput | KOutput | KDeclared.
Definition vars (k : vkind) (m : model) : list (string * shape) :=
  match k with KInput => m_inputs m | KOutput => m_outputs m | KDeclared => m_declared m end.

(** The model at path [p] owns a variable [x] of kind [k] and shape [s]. *)
Definition has_var (m : model) (p : list string) (k : vkind) (x : string) (s : shape) : Prop :=
  exists m', sub_at m p m' /\ In (x, s) (vars k m').

(** Inputs and outputs are sources, declared variables are targets. *)
Definition is_source (k : vkind) : Prop := k <> KDeclared.
Definition has_source m p x s := exists k, is_source k /\ has_var m p k x s.
Definition has_target m p x s := has_var m p KDeclared x s.

(** A submodel added with [promotes=pr] lifts the name [x]. *)
Definition lifts (pr : promotes_t) (x : string) : Prop :=
  match pr with None => True | Some l => In x l end.

(** The promotion rule: [promoted_ns m p x q] says that variable [x] of the model
    at path [p] is known in [m] under the namespace [q]. *)
Inductive promoted_ns : model -> list string -> string -> list string -> Prop :=
| pn_local m x : promoted_ns m [] x []
| pn_lifted m nm pr sm p x :
    In (nm, pr, sm) (m_subs m) -> promoted_ns sm p x [] -> lifts pr x ->
    promoted_ns m (nm :: p) x []
| pn_prefixed m nm pr sm p x q :
    In (nm, pr, sm) (m_subs m) -> promoted_ns sm p x q -> (q <> [] \/ ~ lifts pr x) ->
    promoted_ns m (nm :: p) x (nm :: q).

(** The dotted rendering of a path. *)
Definition dotted (p : list string) (x : string) : string := String.concat "." (p ++ [x]).

(** Names are as the API enforces them (declare_variable does not check, so this
    is an assumption for declared variables): no '.', submodel names non-empty
    and distinct within a model. *)
Definition well_named (m : model) : Prop :=
  forall p m', sub_at m p m' ->
    NoDup (map (fun t => fst (fst t)) (m_subs m')) /\
    (forall nm pr sm, In (nm, pr, sm) (m_subs m') -> has_dot nm = false /\ nm <> ""%string) /\
    (forall k x s, In (x, s) (vars k m') -> has_dot x = false).

(** Entry of a dictionary of sets. *)
Definition maps_to (d : dict (list string)) (pn un : string) : Prop :=
  exists l, dget d pn = Some l /\ In un l.

(** Conditions on a hierarchy used in the statements about sizes and acceptance. *)
(** Two sources with the same promoted name belong to the same (sub)model. *)
Definition unique_sources (m : model) : Prop :=
  forall p1 p2 x s1 s2 q, has_source m p1 x s1 -> has_source m p2 x s2 ->
    promoted_ns m p1 x q -> promoted_ns m p2 x q -> p1 = p2.

(** Variables with the same promoted name have the same number of elements. *)
Definition sizes_agree (m : model) : Prop :=
  forall p1 p2 k1 k2 x s1 s2 q, has_var m p1 k1 x s1 -> has_var m p2 k2 x s2 ->
    promoted_ns m p1 x q -> promoted_ns m p2 x q -> prod s1 = prod s2.

(** A promotes list only contains names visible, without namespace, in the submodel. *)
Definition valid_promotes (m : model) : Prop :=
  forall p m' nm l sm x, sub_at m p m' -> In (nm, Some l, sm) (m_subs m') -> In x l ->
    exists pv k s, has_var sm pv k x s /\ promoted_ns sm pv x [].

(** Within each single (sub)model, variables with the same name have equal sizes. *)
Definition locally_consistent (m : model) : Prop :=
  forall p m', sub_at m p m' ->
    forall k1 k2 x s1 s2, In (x, s1) (vars k1 m') -> In (x, s2) (vars k2 m') -> prod s1 = prod s2.

(** [p1] is a prefix of [p2]: the first model contains the second. *)
Definition prefix (p1 p2 : list string) : Prop := exists t, p2 = p1 ++ t.

