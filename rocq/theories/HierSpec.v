(** Specification vocabulary for the hierarchy-wide passes. *)
From Verif Require Import PyBase NamesModel PromotionsModel PromotionsSpec.

(** All models of a hierarchy with their paths: every model after (before) those it contains. *)
Fixpoint postorder (m : model) : list (list string * model) :=
  match m with
  | Mdl _ _ _ _ _ _ _ subs =>
    flat_map (fun t => map (fun pm => (fst (fst t) :: fst pm, snd pm)) (postorder (snd t))) subs ++ [([], m)]
  end.
Fixpoint preorder (m : model) : list (list string * model) :=
  match m with
  | Mdl _ _ _ _ _ _ _ subs =>
    ([], m) :: flat_map (fun t => map (fun pm => (fst (fst t) :: fst pm, snd pm)) (preorder (snd t))) subs
  end.

(** The namespace printed for a path. *)
Definition ns_of (p : list string) : string := String.concat "." p.

(** [before x y l]: some occurrence of [x] precedes some occurrence of [y]. *)
Definition before {A} (x y : A) (l : list A) : Prop := exists a b c, l = a ++ x :: b ++ y :: c.

(** The name [n], used inside the model at path [p], is the unpromoted name of a
    variable: the model owns it or it is owned by the submodel at [n]'s own path. *)
Definition names_var (m : model) (p : list string) (n : string) (pv : list string) (x : string) : Prop :=
  exists t k s, pv = p ++ t /\ n = dotted t x /\ has_var m pv k x s.

(** In the hierarchy [m], the dotted name [full] (relative to the main model) is the
    unpromoted or the promoted name of a variable whose promoted name is [pn]. *)
Definition resolves_to (m : model) (full pn : string) : Prop :=
  exists p k x s q, has_var m p k x s /\ promoted_ns m p x q /\ pn = dotted q x /\
    (full = dotted p x \/ full = dotted q x).

(** The connection (a, b) was declared in the model at path [p]. *)
Definition declared_conn (m : model) (p : list string) (a b : string) : Prop :=
  exists m', sub_at m p m' /\ In (a, b) (m_conns m').

(** design variables (or constraints) of the whole hierarchy with the path and the model of their declaration *)
Definition opts_declared (sel : model -> list string) (m : model) : list (list string * model * string) :=
  flat_map (fun pm => map (fun k => (fst pm, snd pm, k)) (sel (snd pm))) (preorder m).
