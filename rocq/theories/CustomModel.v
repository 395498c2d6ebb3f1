(** Model of csdl/lang/custom_operation.py (class CustomOperation) and of
    csdl/std/custom.py (function custom).

    Arrays are objects with an identity: a [heap] lists the arrays in existence and a
    reference is a position in it, because [custom] changes arrays in place.
    Not modelled here: units, descriptions, the data attached to a declared derivative
    (rows, cols, val, method, step, ...; see DerivModel), and the dtype of
    arrays (an in-place addition of floats to an integer array raises in numpy). *)
From Verif Require Import PyBase PromotionsModel ApiModel.
Set Implicit Arguments.
Open Scope list_scope.

Definition heap := list arr.
Definition ref := nat.
Definition hget (h : heap) (r : ref) : arr := nth r h (Arr [] []).
Fixpoint hset (h : heap) (r : ref) (a : arr) : heap :=
  match h, r with
  | [], _ => []
  | _ :: t, 0 => a :: t
  | x :: t, S r' => x :: hset t r' a
  end.

(** The [val] argument of add_input/add_output: a number, a list, an array object, or
    anything else. *)
Inductive cval := CNum (z : Z) | CList (a : arr) | CRef (r : ref) | COther.

(** csdl/utils/get_shape_val.py:5-46 with array identities: a number or list makes a
    new array, an array is passed on as the same object. *)
Definition shape_val (h : heap) (sh : shape) (v : cval) : res (heap * shape * option ref) :=
  let '(h', r) := match v with
                  | CNum z => (h ++ [full sh z], Some (length h))
                  | CList a => (h ++ [a], Some (length h))
                  | CRef r => (h, Some r)
                  | COther => (h, None)
                  end in
  match r with
  | None => Ok (h', sh, None)
  | Some r =>
    let s := a_shape (hget h' r) in
    if shape_eqb sh [1] then Ok (h', s, Some r)
    else if shape_eqb s sh then Ok (h', sh, Some r) else Err ValueError
  end.

(** An entry of input_meta/output_meta; [None] is the empty dict() left behind when
    get_shape_val raises (custom_operation.py:125-127, 173-175). *)
Definition cmeta := option (shape * option ref).

(** A CustomOperation (custom_operation.py:8-17, operation.py:16-31). *)
Record cop := {
  c_in : dict cmeta; c_out : dict cmeta;
  c_nargs : nat; c_nouts : nat;
  c_derivs : list (string * string);      (* keys of derivatives_meta *)
  c_deps : list nat;                      (* identities of the dependencies *)
  c_outs : list (string * shape) }.       (* op.outs *)

Definition cop_new : cop :=
  {| c_in := []; c_out := []; c_nargs := 0; c_nouts := 0; c_derivs := []; c_deps := []; c_outs := [] |}.

(** State of the world and the exception that ended the call, if any. *)
Record world := { w_heap : heap; w_op : cop }.
Definition cres := (world * option exn)%type.

Definition with_in (w : world) h d k :=
  {| w_heap := h;
     w_op := {| c_in := d; c_out := c_out (w_op w); c_nargs := k; c_nouts := c_nouts (w_op w);
                c_derivs := c_derivs (w_op w); c_deps := c_deps (w_op w); c_outs := c_outs (w_op w) |} |}.
Definition with_out (w : world) h d k :=
  {| w_heap := h;
     w_op := {| c_in := c_in (w_op w); c_out := d; c_nargs := c_nargs (w_op w); c_nouts := k;
                c_derivs := c_derivs (w_op w); c_deps := c_deps (w_op w); c_outs := c_outs (w_op w) |} |}.
Definition with_derivs (w : world) l :=
  {| w_heap := w_heap w;
     w_op := {| c_in := c_in (w_op w); c_out := c_out (w_op w); c_nargs := c_nargs (w_op w);
                c_nouts := c_nouts (w_op w); c_derivs := l; c_deps := c_deps (w_op w);
                c_outs := c_outs (w_op w) |} |}.
Definition with_deps (w : world) h l :=
  {| w_heap := h;
     w_op := {| c_in := c_in (w_op w); c_out := c_out (w_op w); c_nargs := c_nargs (w_op w);
                c_nouts := c_nouts (w_op w); c_derivs := c_derivs (w_op w); c_deps := l;
                c_outs := c_outs (w_op w) |} |}.
Definition with_outs (w : world) l :=
  {| w_heap := w_heap w;
     w_op := {| c_in := c_in (w_op w); c_out := c_out (w_op w); c_nargs := c_nargs (w_op w);
                c_nouts := c_nouts (w_op w); c_derivs := c_derivs (w_op w); c_deps := c_deps (w_op w);
                c_outs := l |} |}.

(** CustomOperation.add_input (custom_operation.py:85-130): only the inputs are
    searched for the name. *)
Definition add_input (w : world) (n : string) (sh : shape) (v : cval) : cres :=
  let o := w_op w in
  if dmem n (c_in o) then (w, Some KeyError)
  else match shape_val (w_heap w) sh v with
       | Err e => (with_in w (w_heap w) (dset (c_in o) n None) (c_nargs o), Some e)
       | Ok (h, s, r) => (with_in w h (dset (c_in o) n (Some (s, r))) (S (c_nargs o)), None)
       end.

(** CustomOperation.add_output (custom_operation.py:132-178): only the inputs are
    searched for the name. *)
Definition add_output (w : world) (n : string) (sh : shape) (v : cval) : cres :=
  let o := w_op w in
  if dmem n (c_in o) then (w, Some KeyError)
  else match shape_val (w_heap w) sh v with
       | Err e => (with_out w (w_heap w) (dset (c_out o) n None) (c_nouts o), Some e)
       | Ok (h, s, r) => (with_out w h (dset (c_out o) n (Some (s, r))) (S (c_nouts o)), None)
       end.

(** The [of] and [wrt] arguments of declare_derivatives; list elements are strings. *)
Inductive darg := DStr (s : string) | DList (l : list string) | DOther.

(** custom_operation.py:244-262: the list an argument stands for ([[]] for a plain
    string).  [any(x == '*' for x in l)] is [smem "*" l]. *)
Definition dlist (a : darg) (all : list string) : list string :=
  match a with
  | DStr s => if String.eqb s "*" then all else []
  | DList l => if smem "*" l then all else l
  | DOther => []
  end.

Fixpoint pmem (p : string * string) (l : list (string * string)) : bool :=
  match l with
  | [] => false
  | q :: r => (String.eqb (fst p) (fst q) && String.eqb (snd p) (snd q)) || pmem p r
  end.

(** A sequence of calls, ended by the first exception. *)
Fixpoint seq_calls {A} (f : world -> A -> cres) (w : world) (l : list A) : cres :=
  match l with
  | [] => (w, None)
  | a :: r => match f w a with
              | (w', None) => seq_calls f w' r
              | (w', Some e) => (w', Some e)
              end
  end.

Definition is_dother (a : darg) := match a with DOther => true | _ => false end.

(** CustomOperation.declare_derivatives (custom_operation.py:180-321).  [fuel] is the
    number of nested calls Python allows; running out is RecursionError, a
    RuntimeError.  A key that contains a list is unhashable (TypeError, line 309). *)
Fixpoint declare_derivatives (fuel : nat) (w : world) (of_ wrt : darg) : cres :=
  match fuel with
  | 0 => (w, Some RuntimeError)
  | S fuel' =>
    if is_dother of_ || is_dother wrt then (w, Some TypeError)             (* 234-242 *)
    else
      let ofs := dlist of_ (dkeys (c_out (w_op w))) in
      let wrts := dlist wrt (dkeys (c_in (w_op w))) in
      match ofs, wrts with
      | _ :: _, _ :: _ =>                                                  (* 265-279 *)
          seq_calls (fun w a => seq_calls (fun w b => declare_derivatives fuel' w (DStr a) (DStr b)) w wrts) w ofs
      | _ :: _, [] =>                                                      (* 280-293 *)
          seq_calls (fun w a => declare_derivatives fuel' w (DStr a) wrt) w ofs
      | [], _ :: _ =>                                                      (* 294-307 *)
          seq_calls (fun w b => declare_derivatives fuel' w of_ (DStr b)) w wrts
      | [], [] =>                                                          (* 308-321 *)
          match of_, wrt with
          | DStr a, DStr b =>
            if pmem (a, b) (c_derivs (w_op w)) then (w, Some KeyError)
            else (with_derivs w (c_derivs (w_op w) ++ [(a, b)]), None)
          | _, _ => (w, Some TypeError)
          end
      end
  end.

(** Calls made by a user's [define]. *)
Inductive ccall :=
| AddInput (n : string) (sh : shape) (v : cval)
| AddOutput (n : string) (sh : shape) (v : cval)
| DeclareDerivatives (of_ wrt : darg).

Definition ccexec (fuel : nat) (w : world) (c : ccall) : cres :=
  match c with
  | AddInput n sh v => add_input w n sh v
  | AddOutput n sh v => add_output w n sh v
  | DeclareDerivatives a b => declare_derivatives fuel w a b
  end.

(** A history of calls in which exceptions may be caught. *)
Fixpoint ccexec_all (fuel : nat) (w : world) (l : list ccall) : world :=
  match l with [] => w | c :: r => ccexec_all fuel (fst (ccexec fuel w c)) r end.

(** A user's [define] is modelled as a straight sequence of calls that lets exceptions
    through. *)
Definition define (fuel : nat) (w : world) (body : list ccall) : cres :=
  seq_calls (ccexec fuel) w body.

(** An argument of [custom]: a Variable with its identity, name, shape and the array
    that is its [val] ([None] when it has no [val]), or another object. *)
Inductive carg :=
| AVar (id : nat) (n : string) (sh : shape) (v : option ref)
| ANot.

(** std/custom.py:35-39: [input_meta[..]['val'] *= 0], [arg.val = np.ones(shape)] when
    the argument has none, [input_meta[..]['val'] += arg.val], all in place.  The new
    array of ones is not attached to the argument here. *)
Definition zero_arr (a : arr) : arr := Arr (a_shape a) (map (fun z => (z * 0)%Z) (a_data a)).
Definition add_arr (a b : arr) : arr :=
  Arr (a_shape a) (map (fun p => (fst p + snd p)%Z) (combine (a_data a) (a_data b))).
Definition refresh (h : heap) (dst : ref) (src : option ref) (sh : shape) : heap :=
  let h1 := hset h dst (zero_arr (hget h dst)) in
  let b := match src with Some r => hget h1 r | None => full sh 1 end in
  hset h1 dst (add_arr (hget h1 dst) b).

(** std/custom.py:19-39: the checks and effects for one argument. *)
Definition custom_arg (w : world) (ak : carg * string) : cres :=
  let (a, key) := ak in
  match a with
  | ANot => (w, Some AttributeError)               (* arg.name in the message, line 22 *)
  | AVar id n sh v =>
    if negb (String.eqb n key) then (w, Some ValueError)                   (* 24-27 *)
    else match dget (c_in (w_op w)) n with
         | Some (Some (s, r)) =>
           if negb (shape_eqb sh s) then (w, Some ValueError)              (* 28-32 *)
           else let deps := c_deps (w_op w) ++ [id] in                     (* 34 *)
                match r with
                | None => (with_deps w (w_heap w) deps, Some TypeError)    (* 35 *)
                | Some r => (with_deps w (refresh (w_heap w) r v sh) deps, None)
                end
         | _ => (w, Some KeyError)
         end
  end.

(** std/custom.py:40-49: one Output per declared output. *)
Fixpoint make_outs (l : dict cmeta) : res (list (string * shape)) :=
  match l with
  | [] => Ok []
  | (_, None) :: _ => Err KeyError
  | (n, Some (s, _)) :: r => do t <- make_outs r; Ok ((n, s) :: t)
  end.

(** csdl/std/custom.py:8-55.  The variables returned are [c_outs]. *)
Definition custom (fuel : nat) (w : world) (body : list ccall) (args : list carg) : cres :=
  match define fuel w body with                                            (* 9 *)
  | (w1, Some e) => (w1, Some e)
  | (w1, None) =>
    if negb (Nat.eqb (length args) (length (c_in (w_op w1)))) then (w1, Some TypeError)  (* 10-17 *)
    else match seq_calls custom_arg w1 (combine args (dkeys (c_in (w_op w1)))) with
         | (w2, Some e) => (w2, Some e)
         | (w2, None) =>
           match make_outs (c_out (w_op w2)) with
           | Err e => (w2, Some e)
           | Ok outs => (with_outs w2 outs, None)                          (* 51 *)
           end
         end
  end.
