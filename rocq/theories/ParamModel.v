(** Model of csdl/utils/parameters.py (class Parameters): declaration, validation,
    assignment, update and lookup of the parameters of models and operations.

    Python values are rendered by a small universe: None, booleans, integers,
    finite floats (exact rationals), NaN objects, strings, and opaque objects with
    an identity and a class.  Infinite floats, containers, user classes with their
    own [__eq__], [__lt__] or with base classes are not modelled.  The descriptive
    field [desc], the error texts and [__repr__] are not modelled: none of them
    influences which call raises. *)
From Coq Require Import QArith.
From Verif Require Import PyBase.
Set Implicit Arguments.
Close Scope Q_scope.
Open Scope list_scope.

(** Python objects that may be values of a parameter. *)
Inductive pv :=
| PNone
| PBool (b : bool)
| PInt (z : Z)
| PFloat (q : Q)
| PNan (id : nat)            (* a float object that is not a number *)
| PStr (s : string)
| PObj (id : nat) (cls : nat).

(** Types that may be given as [types]. *)
Inductive pty := TyNone | TyBool | TyInt | TyFloat | TyStr | TyObject | TyClass (c : nat).

(** The number a value stands for in Python arithmetic ([bool] is a subclass of [int]). *)
Definition num (v : pv) : option Q :=
  match v with
  | PBool b => Some (if b then 1 else 0)%Q
  | PInt z => Some (inject_Z z)
  | PFloat q => Some q
  | _ => None
  end.

(** [a is b or a == b], the test made by [a in values] (parameters.py:255). *)
Definition peq (a b : pv) : bool :=
  match num a, num b with
  | Some x, Some y => Qeq_bool x y
  | _, _ =>
    match a, b with
    | PNone, PNone => true
    | PNan i, PNan j => Nat.eqb i j
    | PStr s, PStr t => String.eqb s t
    | PObj i c, PObj j d => Nat.eqb i j && Nat.eqb c d
    | _, _ => false
    end
  end.

(** [value in values] *)
Definition pin (v : pv) (vs : list pv) : bool := existsb (peq v) vs.

Definition is_num (v : pv) : bool :=
  match v with PBool _ | PInt _ | PFloat _ | PNan _ => true | _ => false end.

(** [a < b] on Python objects; [a > b] is [plt b a]. *)
Definition plt (a b : pv) : res bool :=
  match num a, num b with
  | Some x, Some y => Ok (negb (Qle_bool y x))
  | _, _ =>
    if is_num a && is_num b then Ok false      (* a NaN is involved *)
    else match a, b with
         | PStr s, PStr t => Ok (String.ltb s t)
         | _, _ => Err TypeError
         end
  end.

(** [isinstance(v, t)] for a single type. *)
Definition isinst1 (v : pv) (t : pty) : bool :=
  match t, v with
  | TyObject, _ => true
  | TyNone, PNone => true
  | TyBool, PBool _ => true
  | TyInt, PInt _ => true
  | TyInt, PBool _ => true
  | TyFloat, PFloat _ => true
  | TyFloat, PNan _ => true
  | TyStr, PStr _ => true
  | TyClass c, PObj _ d => Nat.eqb c d
  | _, _ => false
  end.

(** The [values] argument of [declare] (default [None]). *)
Inductive values_arg :=
| VsNone
| VsColl (vs : list pv)      (* a set, list or tuple *)
| VsOther.                   (* any other object *)

(** The [types] argument of [declare]. *)
Inductive types_arg :=
| TsNone
| TsType (t : pty)
| TsTuple (ts : list pty)
| TsListOrSet (ts : list pty)
| TsOther.

(** [isinstance(value, types)]: Python accepts a type or a tuple of types; a list
    or a set as second argument raises TypeError. *)
Definition isinst (v : pv) (ts : types_arg) : res bool :=
  match ts with
  | TsType t => Ok (isinst1 v t)
  | TsTuple l => Ok (existsb (isinst1 v) l)
  | _ => Err TypeError
  end.

(** Arguments of a [declare] call (parameters.py:303-315).  [d_check name value]
    is the exception raised by the user's [check_valid], [None] when it returns;
    a stateful check is not modelled. *)
Record decl := {
  d_default : option pv;               (* None: _UNDEFINED *)
  d_values : values_arg;
  d_types : types_arg;
  d_upper : option pv;                 (* None: the object None *)
  d_lower : option pv;
  d_check : option (string -> pv -> option exn);
  d_allow_none : bool;
  d_recordable : bool }.

(** An entry of [_dict] (parameters.py:379-390). *)
Record meta := {
  m_val : option pv;                   (* None: _UNDEFINED *)
  m_values : option (list pv);
  m_types : types_arg;
  m_upper : option pv;
  m_lower : option pv;
  m_check : option (string -> pv -> option exn);
  m_set : bool;
  m_allow_none : bool;
  m_recordable : bool }.

(** A Parameters object. *)
Record params := { p_dict : dict meta; p_read_only : bool; p_all_recordable : bool }.

(** Parameters.__init__ (parameters.py:51-66) *)
Definition p_init (ro : bool) : params := {| p_dict := []; p_read_only := ro; p_all_recordable := true |}.

Definition is_pnone (v : pv) : bool := match v with PNone => true | _ => false end.

(** _assert_valid, values and types (parameters.py:253-280) *)
Definition check_values_types (m : meta) (v : pv) : res unit :=
  match m_values m with
  | Some vs => raise_if (negb (pin v vs)) ValueError (Ok tt)
  | None =>
    match m_types m with
    | TsNone => Ok tt
    | ts => do b <- isinst v ts; raise_if (negb b) TypeError (Ok tt)
    end
  end.

(** _assert_valid, upper (282-288) and lower (289-296) *)
Definition check_upper (m : meta) (v : pv) : res unit :=
  match m_upper m with
  | None => Ok tt
  | Some u => do b <- plt u v; raise_if b ValueError (Ok tt)
  end.
Definition check_lower (m : meta) (v : pv) : res unit :=
  match m_lower m with
  | None => Ok tt
  | Some l => do b <- plt v l; raise_if b ValueError (Ok tt)
  end.

(** _assert_valid, check_valid (298-300) *)
Definition check_user (n : string) (m : meta) (v : pv) : res unit :=
  match m_check m with
  | None => Ok tt
  | Some f => match f n v with None => Ok tt | Some e => Err e end
  end.

(** Parameters._assert_valid (parameters.py:231-300) *)
Definition assert_valid (n : string) (m : meta) (v : pv) : res unit :=
  do _ <- (if negb (is_pnone v && m_allow_none m)
           then do _ <- check_values_types m v;
                do _ <- check_upper m v;
                check_lower m v
           else Ok tt);
  check_user n m v.

(** A call that changes the object: the new state, kept even when it raises, and
    the exception if any. *)
Definition outcome := (params * option exn)%type.

Definition raised (st : params) (e : exn) : outcome := (st, Some e).

Definition set_dict (st : params) (d : dict meta) : params :=
  {| p_dict := d; p_read_only := p_read_only st; p_all_recordable := p_all_recordable st |}.

(** [if not recordable: self._all_recordable = False] (parameters.py:367-368) *)
Definition note_recordable (st : params) (r : bool) : params :=
  {| p_dict := p_dict st; p_read_only := p_read_only st;
     p_all_recordable := if negb r then false else p_all_recordable st |}.

(** Parameters.declare (parameters.py:303-394).  The entry is stored (379) before
    the default is validated (393). *)
Definition declare (st : params) (n : string) (d : decl) : outcome :=
  match d_values d, d_types d with
  | VsOther, _ => raised st TypeError                                  (* 345-350 *)
  | _, TsOther => raised st TypeError                                  (* 352-357 *)
  | VsColl _, TsType _ | VsColl _, TsTuple _ | VsColl _, TsListOrSet _ =>
      raised st RuntimeError                                           (* 359-362 *)
  | vs, ts =>
    let values := match ts, vs with
                  | TsType TyBool, _ => Some [PBool true; PBool false]  (* 364-365 *)
                  | _, VsColl l => Some l
                  | _, _ => None
                  end in
    let allow_none := match d_default d with
                      | Some PNone => true                             (* 373-375 *)
                      | _ => d_allow_none d
                      end in
    let provided := match d_default d with Some _ => true | None => false end in
    let m := {| m_val := d_default d; m_values := values; m_types := ts;
                m_upper := d_upper d; m_lower := d_lower d; m_check := d_check d;
                m_set := provided; m_allow_none := allow_none;
                m_recordable := d_recordable d |} in
    let st' := set_dict (note_recordable st (d_recordable d))
                 (dset (p_dict st) n m) in                             (* 367, 377-388 *)
    match d_default d with
    | None => (st', None)
    | Some v => match assert_valid n m v with                           (* 391-393 *)
                | Ok _ => (st', None)
                | Err e => (st', Some e)
                end
    end
  end.

(** Parameters.undeclare (parameters.py:395-406) *)
Definition undeclare (st : params) (n : string) : outcome :=
  (set_dict st (ddel (p_dict st) n), None).

(** Parameters.__setitem__ (parameters.py:448-474) *)
Definition setitem (st : params) (n : string) (v : pv) : outcome :=
  match dget (p_dict st) n with
  | None => raised st KeyError
  | Some m =>
    if p_read_only st then raised st KeyError
    else match assert_valid n m v with
         | Err e => raised st e
         | Ok _ =>
           (set_dict st (dset (p_dict st) n
              {| m_val := Some v; m_values := m_values m; m_types := m_types m;
                 m_upper := m_upper m; m_lower := m_lower m; m_check := m_check m;
                 m_set := true; m_allow_none := m_allow_none m;
                 m_recordable := m_recordable m |}), None)
         end
  end.

(** Parameters.update (parameters.py:408-418): a loop of assignments in the order
    of the dictionary; the first exception ends it. *)
Fixpoint update (st : params) (l : list (string * pv)) : outcome :=
  match l with
  | [] => (st, None)
  | (n, v) :: r =>
    match setitem st n v with
    | (st', None) => update st' r
    | (st', Some e) => (st', Some e)
    end
  end.

(** Parameters.__getitem__ (parameters.py:476-501); [_raise] without a class raises
    RuntimeError (line 214). *)
Definition getitem (st : params) (n : string) : res pv :=
  match dget (p_dict st) n with
  | None => Err KeyError
  | Some m => if m_set m then match m_val m with Some v => Ok v | None => Err RuntimeError end
              else Err RuntimeError
  end.

(** Parameters.__contains__ (parameters.py:431-446) *)
Definition contains (st : params) (n : string) : bool := dmem n (p_dict st).

(** Parameters.__iter__ (parameters.py:420-429) *)
Definition names (st : params) : list string := dkeys (p_dict st).

(** Parameters.items (parameters.py:503-511): every entry has a key 'val', so the
    second branch is never taken; [None] stands for the sentinel [_UNDEFINED]. *)
Definition items (st : params) : list (string * option pv) :=
  map (fun e => (fst e, m_val (snd e))) (p_dict st).

(** Parameters.__getstate__ (parameters.py:70-87): what [copy] and [pickle] take for the
    state of a copy.  The object created from it has that state (the class has no
    [__setstate__]).  That the copy shares or duplicates the values is not modelled. *)
Definition copied (st : params) : params :=
  if p_all_recordable st then st
  else set_dict st (filter (fun e => m_recordable (snd e)) (p_dict st)).

(** A history of calls on one object.  A caller may catch exceptions, so the
    history goes on after a call that raised. *)
Inductive call :=
| CDeclare (n : string) (d : decl)
| CUndeclare (n : string)
| CSet (n : string) (v : pv)
| CUpdate (l : list (string * pv)).

Definition exec (st : params) (c : call) : outcome :=
  match c with
  | CDeclare n d => declare st n d
  | CUndeclare n => undeclare st n
  | CSet n v => setitem st n v
  | CUpdate l => update st l
  end.

Fixpoint exec_all (st : params) (h : list call) : params :=
  match h with [] => st | c :: r => exec_all (fst (exec st c)) r end.
