(** What the documentation of Parameters (parameters.py:316-344) promises, stated on
    calls and values only. *)
From Coq Require Import QArith.
From Verif Require Import PyBase ParamModel.
Set Implicit Arguments.
Close Scope Q_scope.
Open Scope list_scope.

(** Two values are the same for Python: same object or [==]. *)
Inductive same_value : pv -> pv -> Prop :=
| same_number a b x y : num a = Some x -> num b = Some y -> (x == y)%Q -> same_value a b
| same_object a : same_value a a.

(** A value belongs to a class. *)
Inductive has_type : pv -> pty -> Prop :=
| ht_object v : has_type v TyObject
| ht_none : has_type PNone TyNone
| ht_bool b : has_type (PBool b) TyBool
| ht_int z : has_type (PInt z) TyInt
| ht_bool_int b : has_type (PBool b) TyInt
| ht_float q : has_type (PFloat q) TyFloat
| ht_nan i : has_type (PNan i) TyFloat
| ht_str s : has_type (PStr s) TyStr
| ht_class i c : has_type (PObj i c) (TyClass c).

(** [v] does not exceed [u] (respectively is not below [l]).  A value that is not a
    number never exceeds a numeric bound; things that cannot be ordered are not in
    any relation. *)
Inductive not_above : pv -> pv -> Prop :=
| na_num v u x y : num v = Some x -> num u = Some y -> (x <= y)%Q -> not_above v u
| na_nan_l i u : is_num u = true -> not_above (PNan i) u
| na_nan_r i v : is_num v = true -> not_above v (PNan i)
| na_str s t : String.ltb t s = false -> not_above (PStr s) (PStr t).

(** The types that are allowed by a [types] argument: only a type or a tuple of
    types can ever be satisfied. *)
Inductive type_allowed : types_arg -> pv -> Prop :=
| ta_type t v : has_type v t -> type_allowed (TsType t) v
| ta_tuple ts t v : In t ts -> has_type v t -> type_allowed (TsTuple ts) v.

(** "specifying default=None implies allow_none" *)
Definition none_allowed (d : decl) : Prop :=
  d_allow_none d = true \/ d_default d = Some PNone.

(** The restrictions a declaration puts on values other than an allowed None. *)
Record within (d : decl) (v : pv) : Prop := {
  w_values : forall vs, d_values d = VsColl vs -> exists w, In w vs /\ same_value v w;
  w_types : d_types d <> TsNone -> d_types d <> TsType TyBool -> type_allowed (d_types d) v;
  w_bool : d_types d = TsType TyBool -> exists b, same_value v (PBool b);
  w_upper : forall u, d_upper d = Some u -> not_above v u;
  w_lower : forall l, d_lower d = Some l -> not_above l v }.

(** [v] is a legal value of parameter [n] declared by [d]. *)
Definition satisfies (n : string) (d : decl) (v : pv) : Prop :=
  ((v = PNone /\ none_allowed d) \/ within d v) /\
  (forall f, d_check d = Some f -> f n v = None).

(** The arguments of a declaration are acceptable at all. *)
Definition well_formed (d : decl) : Prop :=
  d_values d <> VsOther /\ d_types d <> TsOther /\
  (d_values d = VsNone \/ d_types d = TsNone).
Definition well_formedb (d : decl) : bool :=
  match d_values d, d_types d with
  | VsOther, _ => false
  | _, TsOther => false
  | VsNone, _ => true
  | VsColl _, TsNone => true
  | VsColl _, _ => false
  end.

(** The declaration in force for [n] after a history: the last acceptable one that
    was not taken back.  [start] is the one in force before. *)
Fixpoint declared_from (start : option decl) (h : list call) (n : string) : option decl :=
  match h with
  | [] => start
  | CDeclare m d :: r =>
      declared_from (if String.eqb n m && well_formedb d then Some d else start) r n
  | CUndeclare m :: r => declared_from (if String.eqb n m then None else start) r n
  | _ :: r => declared_from start r n
  end.
Definition declared (h : list call) (n : string) : option decl := declared_from None h n.

(** No declaration of the history was rejected. *)
Definition declarations_accepted (h : list call) (st : params) : Prop :=
  forall h1 n d h2, h = h1 ++ CDeclare n d :: h2 ->
    snd (declare (exec_all st h1) n d) = None.
