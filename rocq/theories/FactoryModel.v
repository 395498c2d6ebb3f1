(** Model of ImplicitOperationFactory: csdl/lang/implicit_operation_factory.py, with the parts of
    csdl/lang/model.py (683-741, 883-933, 1137-1193), csdl/lang/implicit_operation.py and
    csdl/lang/bracketed_search_operation.py it runs through. *)
From Verif Require Import PyBase NamesModel PromotionsModel ExprModel ApiModel ImplicitModel.

(** The nonlinear solver assigned by the user: none, one that needs a linear solver
    (NewtonSolver, BroydenSolver) or another one. *)
Inductive nonlinear := NoSolver | NeedsLinear | OtherSolver.

(** implicit_operation_factory.py:20-32 *)
Record fac := Fac {
  fc_states : dict pyval;
  fc_residuals : list string;
  fc_brackets : dict (list ImplicitModel.bound);
  fc_nonlinear : nonlinear;
  fc_linear : bool               (* a linear solver is assigned *)
}.
Definition fac0 : fac := Fac [] [] [] NoSolver false.

(** implicit_operation_factory.py:34-53; the residual and the bracket are stored before the
    value is checked *)
Definition declare_state (f : fac) (s r : string) (b : option (list ImplicitModel.bound)) (v : pyval) : fac * option exn :=
  let f1 := Fac (fc_states f) (fc_residuals f ++ [r])
                (match b with Some b => dset (fc_brackets f) s b | None => fc_brackets f end) (fc_nonlinear f) (fc_linear f) in
  match check_default_val_type v with
  | Err e => (f1, Some e)
  | Ok v' => (Fac (dset (fc_states f1) s v') (fc_residuals f1) (fc_brackets f1) (fc_nonlinear f1) (fc_linear f1), None)
  end.

(** What the user does with the factory before calling it. *)
Inductive call :=
| DeclareState (s r : string) (b : option (list ImplicitModel.bound)) (v : pyval)
| SetNonlinear (k : nonlinear)
| SetLinear (b : bool).
Definition do_call (f : fac) (c : call) : fac :=
  match c with
  | DeclareState s r b v => fst (declare_state f s r b v)
  | SetNonlinear k => Fac (fc_states f) (fc_residuals f) (fc_brackets f) k (fc_linear f)
  | SetLinear b => Fac (fc_states f) (fc_residuals f) (fc_brackets f) (fc_nonlinear f) b
  end.

(** model.py:1150-1166: states become outputs of the parent one after the other; the parent is
    returned also when an exception is raised.  [zip] stops with the shorter list. *)
Fixpoint return_states (m : imodel) (p : parent) (sts : list (string * pyval)) (rs : list string) : parent * res (list (string * shape)) :=
  match sts, rs with
  | (s, v) :: sr, _ :: rr =>
    match find (fun d => String.eqb (name_of (im_heap m) d) s) (im_decls m) with
    | None => (p, Err IndexError)
    | Some d =>
      match get_shape_val (im_shape m d) v false with
      | Err e => (p, Err e)
      | Ok sv =>
        match register p s (fst sv) with
        | Err e => (p, Err e)
        | Ok p1 => let (p2, l) := return_states m p1 sr rr in
                   (p2, do t <- l; Ok ((s, fst sv) :: t))
        end
      end
    end
  | _, _ => (p, Ok [])
  end.
(** model.py:1168-1184 *)
Fixpoint return_exposed (p : parent) (l : list (string * shape)) : parent * res (list (string * shape)) :=
  match l with
  | [] => (p, Ok [])
  | (n, s) :: r =>
    match register p n s with
    | Err e => (p, Err e)
    | Ok p1 => let (p2, t) := return_exposed p1 r in (p2, do t <- t; Ok ((n, s) :: t))
    end
  end.
(** model.py:1137-1193; the last line raises IndexError when there is no output *)
Definition return_outputs (m : imodel) (p : parent) (f : fac) (expose : list string) : parent * res (list (string * shape)) :=
  match return_states m p (fc_states f) (fc_residuals f) with
  | (p1, Err e) => (p1, Err e)
  | (p1, Ok a) =>
    match return_exposed p1 (exposed_outputs m expose) with
    | (p2, Err e) => (p2, Err e)
    | (p2, Ok b) => (p2, match a ++ b with [] => Err IndexError | l => Ok l end)
    end
  end.

(** What is recorded on the operation besides the dictionaries. *)
Inductive settings :=
| Bracketed (brackets : dict (list ImplicitModel.bound))
| Solved (defaults : dict shape) (k : nonlinear) (linear : bool).

(** implicit_operation.py:44-52 *)
Definition check_solvers (k : nonlinear) (linear : bool) : res unit :=
  match k with NeedsLinear => if linear then Ok tt else Err ValueError | _ => Ok tt end.

(** implicit_operation_factory.py:71-99, model.py:544-933 *)
Definition prepare (m : imodel) (f : fac) (args : list (string * shape)) (expose : list string) (defaults : list (string * default)) :
  res (maps * settings) :=
  do mp <- generate_maps m args (dkeys (fc_states f)) (fc_residuals f) expose;
  match fc_brackets f with
  | [] =>
    do d <- store_defaults m (dkeys (fc_states f)) defaults [];
    do _ <- check_solvers (fc_nonlinear f) (fc_linear f);
    Ok (mp, Solved d (fc_nonlinear f) (fc_linear f))
  | bs =>
    do _ <- brackets_ok (dkeys (fc_states f)) bs;
    Ok (mp, Bracketed bs)
  end.
Definition apply (m : imodel) (p : parent) (f : fac) (args : list (string * shape)) (expose : list string) (defaults : list (string * default)) :
  parent * res (maps * settings * list (string * shape)) :=
  match prepare m f args expose defaults with
  | Err e => (p, Err e)
  | Ok (mp, st) => let (p', l) := return_outputs m p f expose in (p', do outs <- l; Ok (mp, st, outs))
  end.
