(** Specification vocabulary: when a call of the model-building API is accepted and what
    an accepted call records. *)
From Verif Require Import PyBase NamesModel PromotionsModel ApiModel ApiSpec.

(** Letters, digits and underscores only. *)
Definition name_ok (n : string) : Prop :=
  forall i c, String.get i n = Some c ->
    let k := N_of_ascii c in (48 <= k <= 57 \/ 65 <= k <= 90 \/ 97 <= k <= 122)%N \/ c = "_"%char.

(** A number always fits a shape; a list or array fits when it has that shape or when the
    shape is the default (1,). *)
Definition value_fits (sh : shape) (v : pyval) : Prop :=
  match v with
  | VNum _ => True
  | VList a | VArr a => sh = [1] \/ a_shape a = sh
  | VOther => False
  end.

(** No variable of the model has the name [n]. *)
Definition fresh (s : mst) (n : string) : Prop :=
  ~ In n (map (out_name s) (s_outs s)) /\ ~ In n (map v_name (s_inputs s)) /\ ~ In n (map v_name (s_decls s)).

(** Bounds that can be compared entry by entry: a number or a one-element array against
    anything, otherwise arrays of the same length. *)
Definition comparable (lo hi : bound) : Prop :=
  match lo, hi with
  | BOther, _ | _, BOther => False
  | BArr l, BArr l' => length l = 1 \/ length l' = 1 \/ length l = length l'
  | _, _ => True
  end.

Definition numeric (b : option bound) : Prop := b <> Some BOther.

(** The calls that must be accepted. *)
Definition valid (s : mst) (c : call) : Prop :=
  match c with
  | CreateInput n sh v => name_ok n /\ value_fits sh v
  | DeclareVariable n sh ov => match ov with None => True | Some v => value_fits sh v end
  | CreateOutput n sh v => name_ok n /\ value_fits sh v /\ fresh s n
  | NewOutput _ _ => True
  | RegisterOutput n o =>
    name_ok n /\ fresh s n /\ exists i, o = Some i /\ i < length (s_heap s) /\ ~ In i (s_outs s)
  | PrintVar o => o < length (s_heap s) /\
    let n := (out_name s o ++ "_print")%string in name_ok n /\ fresh s n
  | Add n is_model _ _ => is_model = true /\
    match n with None => True | Some x => name_ok x /\ ~ In x (map sb_name (s_subs s)) end
  | Connect a b => a <> b
  | AddObjective n => s_obj s = None
  | AddDesignVariable n _ _ => In n (map v_name (s_inputs s)) /\ ~ In n (dkeys (s_dvs s))
  | AddConstraint n lo hi eq => ~ In n (dkeys (s_cons s)) /\ numeric lo /\ numeric hi /\ numeric eq /\
    forall l h, lo = Some l -> hi = Some h -> comparable l h /\ nowhere_above l h
  end.

(** What a model holds after an accepted call, component by component. *)
Definition want_inputs (s : mst) (c : call) : list string :=
  map v_name (s_inputs s) ++ match c with CreateInput n _ _ => [n] | _ => [] end.
Definition want_decls (s : mst) (c : call) : list string :=
  map v_name (s_decls s) ++ match c with DeclareVariable n _ _ => [n] | _ => [] end.
(** the object a call registers, and its name *)
Definition registers (s : mst) (c : call) : option (nat * string) :=
  match c with
  | RegisterOutput n (Some i) => Some (i, n)
  | CreateOutput n _ _ => Some (length (s_heap s), n)
  | PrintVar o => Some (length (s_heap s), (out_name s o ++ "_print")%string)
  | _ => None
  end.
Definition want_obj (s : mst) (c : call) : option string :=
  match c with AddObjective n => Some n | _ => s_obj s end.
Definition want_cons (s : mst) (c : call) : dict cons :=
  s_cons s ++ match c with AddConstraint n lo hi eq => [(n, Cons lo hi eq)] | _ => [] end.
Definition want_dvs (s : mst) (c : call) : dict (option bound * option bound) :=
  s_dvs s ++ match c with AddDesignVariable n lo hi => [(n, (lo, hi))] | _ => [] end.
Definition want_conn (s : mst) (c : call) (p : string * string) : Prop :=
  In p (s_conns s) \/ match c with Connect a b => p = (a, b) | _ => False end.
(** Output objects created before the call keep their shape, value and size; only the one that
    the call registers changes its name. *)
Definition same_objects (s s' : mst) (renamed : option (nat * string)) : Prop :=
  forall i v, nth_error (s_heap s) i = Some v ->
    exists v', nth_error (s_heap s') i = Some v' /\ v_shape v' = v_shape v /\ v_val v' = v_val v /\ v_size v' = v_size v /\
      v_name v' = match renamed with Some (j, n) => if Nat.eqb j i then n else v_name v | None => v_name v end.

