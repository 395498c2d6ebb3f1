(** Model of the model-building API: csdl/lang/model.py, csdl/lang/variable.py,
    csdl/lang/input.py, csdl/lang/declared_variable.py, csdl/lang/concatenation.py
    (constructors), csdl/utils/get_shape_val.py, csdl/utils/check_default_val_type.py. *)
From Verif Require Import PyBase NamesModel PromotionsModel.

(** ** Values *)
(** A numpy array: shape and row-major data.  Floats are rendered by [Z]; only
    equality and order of entries matter here (NaN is not modelled). *)
Record arr := Arr { a_shape : shape; a_data : list Z }.
(** The [val] argument: a number, a list (already in the form of the array
    [np.array] makes of it), an array, or anything else. *)
Inductive pyval := VNum (z : Z) | VList (a : arr) | VArr (a : arr) | VOther.

(** csdl/utils/check_default_val_type.py:5-14 *)
Definition check_default_val_type (v : pyval) : res pyval :=
  match v with
  | VList a => Ok (VArr a)
  | VOther => Err TypeError
  | _ => Ok v
  end.

(** [z * np.ones(shape)] *)
Definition full (sh : shape) (z : Z) : arr := Arr sh (repeat z (prod sh)).

(** csdl/utils/get_shape_val.py:5-46.  [shape] is already a tuple (an int [n] is
    [(n,)], lines 26-27).  The returned value is [None] when the code returns None or
    a value that is not an array. *)
Definition get_shape_val (sh : shape) (v : pyval) (no_val : bool) : res (shape * option arr) :=
  let v1 := match v with
            | VNum z => if no_val then None else Some (full sh z)
            | VList a => if no_val then None else Some a
            | VArr a => Some a
            | VOther => None
            end in
  match v1 with
  | None => Ok (sh, None)
  | Some a =>
    if shape_eqb sh [1] then Ok (a_shape a, Some a)
    else if no_val then Ok (sh, Some a)
    else if shape_eqb (a_shape a) sh then Ok (sh, Some a) else Err ValueError
  end.

Record vinfo := VInfo {
  v_name : string; v_shape : shape; v_val : option arr; v_size : nat;
  v_default : bool
}.

(** csdl/lang/variable.py:32-66 followed by csdl/lang/input.py:30 or
    csdl/lang/declared_variable.py:29. *)
Definition new_variable (n : string) (sh : shape) (v : pyval) (default : bool) : res vinfo :=
  do s1 <- get_shape_val sh v true;
  do s2 <- get_shape_val sh v false;
  Ok (VInfo n (fst s2) (snd s2) (prod (fst s1)) default).

(** csdl/lang/concatenation.py:18-52: the parent constructor is called with the default
    shape, so [size] is computed for shape (1,). *)
Definition new_concatenation (n : string) (sh : shape) (v : pyval) : res vinfo :=
  do v' <- check_default_val_type v;
  do s2 <- get_shape_val sh v' false;
  Ok (VInfo n (fst s2) (snd s2) (prod [1]) false).

(** ** Model state *)
(** Bounds of a constraint or design variable: scalars or one-dimensional arrays
    (higher ranks are not modelled), or a value of another type. *)
Inductive bound := BNum (z : Z) | BArr (l : list Z) | BOther.

(** [np.greater(lower, upper).any()] with one-dimensional broadcasting. *)
Definition any_greater (lo hi : bound) : res bool :=
  match lo, hi with
  | BNum a, BNum b => Ok (Z.ltb b a)
  | BNum a, BArr l => Ok (existsb (fun b => Z.ltb b a) l)
  | BArr l, BNum b => Ok (existsb (fun a => Z.ltb b a) l)
  | BArr [a], BArr l => Ok (existsb (fun b => Z.ltb b a) l)
  | BArr l, BArr [b] => Ok (existsb (fun a => Z.ltb b a) l)
  | BArr l, BArr l' =>
    if Nat.eqb (length l) (length l')
    then Ok (existsb (fun ab => Z.ltb (snd ab) (fst ab)) (combine l l')) else Err ValueError
  | _, _ => Err TypeError
  end.

(** csdl/utils/check_constraint_value_type.py:4-9 *)
Definition check_constraint_value_type (b : option bound) : res unit :=
  match b with Some BOther => Err TypeError | _ => Ok tt end.

Record cons := Cons { k_lower : option bound; k_upper : option bound; k_equals : option bound }.

Record subm := Subm { sb_name : string; sb_auto : bool; sb_prom : promotes_t; sb_model : nat }.

(** csdl/lang/model.py:49-98, one model.  Output objects live in a heap shared by the
    process: object [i] has name [nth i (h_names)]; [s_outs] lists the registered ones. *)
Record mst := Mst {
  s_inputs : list vinfo;
  s_decls : list vinfo;
  s_outs : list nat;
  s_out_names : list string;        (* registered_output_names_set *)
  s_obj : option string;
  s_cons : dict cons;
  s_dvs : dict (option bound * option bound);
  s_conns : list (string * string);
  s_subs : list subm;
  s_heap : list vinfo;              (* Output objects created so far *)
  s_count : N                       (* Node._count + 1 *)
}.
Definition mst0 : mst := Mst [] [] [] [] None [] [] [] [] [] 0%N.

Definition out_name (s : mst) (o : nat) : string :=
  match nth_error (s_heap s) o with Some v => v_name v | None => EmptyString end.

Fixpoint set_nth {A} (l : list A) (i : nat) (x : A) : list A :=
  match l, i with
  | [], _ => []
  | _ :: r, O => x :: r
  | y :: r, S j => y :: set_nth r j x
  end.

Definition tick (s : mst) (k : N) : mst :=
  Mst (s_inputs s) (s_decls s) (s_outs s) (s_out_names s) (s_obj s) (s_cons s) (s_dvs s)
      (s_conns s) (s_subs s) (s_heap s) (s_count s + k)%N.
Definition with_heap (s : mst) (h : list vinfo) : mst :=
  Mst (s_inputs s) (s_decls s) (s_outs s) (s_out_names s) (s_obj s) (s_cons s) (s_dvs s)
      (s_conns s) (s_subs s) h (s_count s).

Inductive call :=
| CreateInput (n : string) (sh : shape) (v : pyval)
| DeclareVariable (n : string) (sh : shape) (v : option pyval)
| CreateOutput (n : string) (sh : shape) (v : pyval)
| NewOutput (sh : shape) (k : N)       (* an expression creates an unregistered output (and k other nodes) *)
| RegisterOutput (n : string) (o : option nat) (* [None]: not an Output object *)
| PrintVar (o : nat)
| Add (n : option string) (is_model : bool) (m : nat) (pr : promotes_t)
| Connect (a b : string)
| AddObjective (n : string)
| AddDesignVariable (n : string) (lo hi : option bound)
| AddConstraint (n : string) (lo hi eq : option bound).

Definition nmem (x : nat) (l : list nat) : bool := existsb (Nat.eqb x) l.

(** csdl/lang/model.py:430-485 *)
Definition register_output (s : mst) (n : string) (o : option nat) : mst * res unit :=
  match check_banned_chars n with
  | Err e => (s, Err e)
  | Ok _ =>
    match o with
    | None => (s, Err TypeError)
    | Some i =>
      match nth_error (s_heap s) i with
      | None => (s, Err TypeError)
      | Some v =>
        if nmem i (s_outs s) then (s, Err ValueError)
        else if smem n (s_out_names s) then (s, Err ValueError)
        else if smem n (map v_name (s_inputs s)) then (s, Err ValueError)
        else if smem n (map v_name (s_decls s)) then (s, Err ValueError)
        else (Mst (s_inputs s) (s_decls s) (s_outs s ++ [i]) (s_out_names s ++ [n]) (s_obj s)
                  (s_cons s) (s_dvs s) (s_conns s) (s_subs s)
                  (set_nth (s_heap s) i (VInfo n (v_shape v) (v_val v) (v_size v) (v_default v)))
                  (s_count s), Ok tt)
      end
    end
  end.

Definition auto_name (k : N) : string :=
  match subgraph_auto_name k with Some x => x | None => EmptyString end.

(** One call: csdl/lang/model.py:207-542.  Warnings are not modelled.  Each created
    variable, operation or subgraph advances the node counter, also when its
    construction raises later. *)
Definition step (s : mst) (c : call) : mst * res unit :=
  match c with
  | CreateInput n sh v => (* 348-384 *)
    match check_banned_chars n with
    | Err e => (s, Err e)
    | Ok _ =>
      match check_default_val_type v with
      | Err e => (s, Err e)
      | Ok v' =>
        match new_variable n sh v' false with
        | Err e => (tick s 1, Err e)
        | Ok vi => (Mst (s_inputs s ++ [vi]) (s_decls s) (s_outs s) (s_out_names s) (s_obj s) (s_cons s)
                        (s_dvs s) (s_conns s) (s_subs s) (s_heap s) (s_count s + 1)%N, Ok tt)
        end
      end
    end
  | DeclareVariable n sh ov => (* 297-346 *)
    let v := match ov with None => VNum 1 | Some v => v end in
    let d := match ov with None => true | Some _ => false end in
    match check_default_val_type v with
    | Err e => (s, Err e)
    | Ok v' =>
      match new_variable n sh v' d with
      | Err e => (tick s 1, Err e)
      | Ok vi => (Mst (s_inputs s) (s_decls s ++ [vi]) (s_outs s) (s_out_names s) (s_obj s) (s_cons s)
                      (s_dvs s) (s_conns s) (s_subs s) (s_heap s) (s_count s + 1)%N, Ok tt)
      end
    end
  | CreateOutput n sh v => (* 386-428 *)
    match check_banned_chars n with
    | Err e => (s, Err e)
    | Ok _ =>
      match check_default_val_type v with
      | Err e => (s, Err e)
      | Ok v' =>
        match new_concatenation n sh v' with
        | Err e => (tick s 1, Err e)
        | Ok vi =>
          let s1 := tick (with_heap s (s_heap s ++ [vi])) 1 in
          register_output s1 n (Some (length (s_heap s)))
        end
      end
    end
  | NewOutput sh k => (* e.g. csdl/lang/variable.py:86-304: an operation and its Output, named by its id *)
    let id := match gen_hex_name (s_count s + k)%N with Some x => x | None => EmptyString end in
    (tick (with_heap s (s_heap s ++ [VInfo id sh None (prod sh) false])) (k + 1), Ok tt)
  | RegisterOutput n o => register_output s n o
  | PrintVar o => (* 176-205 *)
    match nth_error (s_heap s) o with
    | None => (s, Err TypeError)
    | Some v =>
      let n := (v_name v ++ "_print")%string in
      let s1 := tick (with_heap s (s_heap s ++ [VInfo n (v_shape v) None (prod (v_shape v)) false])) 2 in
      register_output s1 n (Some (length (s_heap s)))
    end
  | Add on is_model m pr => (* 487-542; csdl/lang/subgraph.py:11-31 *)
    match match on with None => Ok tt | Some n => check_banned_chars n end with
    | Err e => (s, Err e)
    | Ok _ =>
      if negb is_model then (s, Err TypeError)
      else if match on with None => false | Some n => smem n (map sb_name (s_subs s)) end
      then (s, Err KeyError)
      else
        let sb := match on with
                  | None => Subm (auto_name (s_count s)) true pr m
                  | Some n => Subm n false pr m
                  end in
        (Mst (s_inputs s) (s_decls s) (s_outs s) (s_out_names s) (s_obj s) (s_cons s)
             (s_dvs s) (s_conns s) (s_subs s ++ [sb]) (s_heap s) (s_count s + 1)%N, Ok tt)
    end
  | Connect a b => (* 287-295 *)
    if String.eqb a b then (s, Err KeyError)
    else if existsb (fun p => String.eqb a (fst p) && String.eqb b (snd p)) (s_conns s) then (s, Ok tt)
    else (Mst (s_inputs s) (s_decls s) (s_outs s) (s_out_names s) (s_obj s) (s_cons s)
              (s_dvs s) (s_conns s ++ [(a, b)]) (s_subs s) (s_heap s) (s_count s), Ok tt)
  | AddObjective n => (* 207-225 *)
    match s_obj s with
    | Some _ => (s, Err ValueError)
    | None => (Mst (s_inputs s) (s_decls s) (s_outs s) (s_out_names s) (Some n) (s_cons s)
                   (s_dvs s) (s_conns s) (s_subs s) (s_heap s) (s_count s), Ok tt)
    end
  | AddDesignVariable n lo hi => (* 227-252 *)
    if negb (smem n (map v_name (s_inputs s))) then (s, Err KeyError)
    else if dmem n (s_dvs s) then (s, Err KeyError)
    else (Mst (s_inputs s) (s_decls s) (s_outs s) (s_out_names s) (s_obj s) (s_cons s)
              (dset (s_dvs s) n (lo, hi)) (s_conns s) (s_subs s) (s_heap s) (s_count s), Ok tt)
  | AddConstraint n lo hi eq => (* 254-285 *)
    if dmem n (s_cons s) then (s, Err ValueError)
    else
      let r :=
        do _ <- check_constraint_value_type lo;
        do _ <- check_constraint_value_type hi;
        do _ <- check_constraint_value_type eq;
        match lo, hi with
        | Some l, Some h => do g <- any_greater l h; if g then Err ValueError else Ok tt
        | _, _ => Ok tt
        end in
      match r with
      | Err e => (s, Err e)
      | Ok _ => (Mst (s_inputs s) (s_decls s) (s_outs s) (s_out_names s) (s_obj s)
                     (dset (s_cons s) n (Cons lo hi eq)) (s_dvs s) (s_conns s) (s_subs s)
                     (s_heap s) (s_count s), Ok tt)
      end
  end.

(** The state after a history of calls; a raised exception is caught by the user. *)
Definition build (l : list call) : mst := fold_left (fun s c => fst (step s c)) l mst0.
