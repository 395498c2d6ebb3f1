(** The options of the solvers, flattened. *)
From Coq Require Import QArith.
From Verif Require Import PyBase ParamModel SolverModel.
Close Scope Q_scope.
Local Open Scope string_scope.
Local Open Scope list_scope.

Inductive kind :=
| Anything                              (* not checked *)
| TrueOrFalse                           (* True, False, or a number equal to one of them *)
| Integer                               (* an int (or bool) *)
| OneOf (l : list string)
| Between (lo : Q) (up : option Q).     (* numbers; NaN is not checked *)
(** The exception raised for a value, if any. *)
Definition rejection (k : kind) (v : pv) : option exn :=
  match k with
  | Anything => None
  | TrueOrFalse => match num v with
                   | Some x => if Qeq_bool x 0 || Qeq_bool x 1 then None else Some ValueError
                   | None => Some ValueError
                   end
  | Integer => match v with PInt _ | PBool _ => None | _ => Some TypeError end
  | OneOf l => match v with PStr s => if existsb (String.eqb s) l then None else Some ValueError | _ => Some ValueError end
  | Between lo up =>
    match num v with
    | Some x => if Qle_bool lo x && match up with Some u => Qle_bool x u | None => true end then None else Some ValueError
    | None => match v with PNan _ => None | _ => Some TypeError end
    end
  end.
(** An option: what it accepts, and its default ([None]: must be set before it is read). *)
Definition option_table := list (string * (kind * option pv)).
Definition e (n : string) (k : kind) (d : pv) := (n, (k, Some d)).
Definition small (digits : positive) : pv := PFloat (1 # digits).
Definition iteration (maxiter : Z) (atol : pv) : option_table := [
  e "maxiter" Integer (PInt maxiter); e "atol" Anything atol; e "rtol" Anything (small 10000000000);
  e "err_on_non_converge" TrueOrFalse (PBool false)].
Definition common : option_table := [e "iprint" Integer (PInt 1)].
Definition nonlinear : option_table := [
  e "debug_print" TrueOrFalse (PBool false); e "stall_limit" Anything (PInt 0); e "stall_tol" Anything (small 1000000000000)].
Definition jac (b : bool) : option_table := [e "assemble_jac" TrueOrFalse (PBool b)].
Definition relaxation : option_table := [
  e "use_aitken" TrueOrFalse (PBool false); e "aitken_min_factor" Anything (PFloat (1 # 10));
  e "aitken_max_factor" Anything (PFloat (3 # 2)); e "aitken_initial_factor" Anything (PFloat 1)].
Definition sub_solve : option_table := [
  e "cs_reconverge" TrueOrFalse (PBool true); e "reraise_child_analysiserror" TrueOrFalse (PBool false)].
Definition bounds : option_table := [
  e "bound_enforcement" (OneOf ["vector"; "scalar"; "wall"]) (PStr "scalar"); e "print_bound_enforce" Anything (PBool false)].
Definition iterating : option_table := iteration 10 (small 10000000000).
(** Names of the methods of PETSc's KSP. *)
Definition ksp_methods : list string := [
  "richardson"; "chebyshev"; "cg"; "groppcg"; "pipecg"; "pipecgrr";
  "cgne"; "nash"; "stcg"; "gltr"; "fcg"; "pipefcg"; "gmres";
  "pipefgmres"; "fgmres"; "lgmres"; "dgmres"; "pgmres"; "tcqmr";
  "bcgs"; "ibcgs"; "fbcgs"; "fbcgsr"; "bcgsl"; "cgs"; "tfqmr"; "cr";
  "pipecr"; "lsqr"; "preonly"; "qcg"; "bicg"; "minres"; "symmlq";
  "lcd"; "python"; "gcr"; "pipegcr"; "tsirm"; "cgls"].
Definition options (c : solver) : option_table :=
  common ++
  match c with
  | DirectSolver => jac true ++ [e "err_on_singular" TrueOrFalse (PBool true)]
  | LinearBlockGS => iterating ++ jac false ++ relaxation
  | LinearBlockJac => iterating ++ jac false
  | LinearRunOnce => jac false ++ relaxation
  | PETScKrylov => iteration 100 (small 10000000000) ++ jac false ++
      [e "ksp_type" (OneOf ksp_methods) (PStr "fgmres"); e "restart" Integer (PInt 1000); e "precon_side" (OneOf ["left"; "right"]) (PStr "right")]
  | ScipyKrylov => iteration 1000 (small 1000000000000) ++ jac false ++ [e "solver" (OneOf ["gmres"]) (PStr "gmres"); e "restart" Integer (PInt 20)]
  | LinearUserDefined => iterating ++ jac false
  | BroydenSolver => iterating ++ nonlinear ++ sub_solve ++
      [e "alpha" Anything (PFloat (2 # 5)); e "compute_jacobian" TrueOrFalse (PBool true); e "converge_limit" Anything (PFloat 1);
       e "diverge_limit" Anything (PFloat 2); e "max_converge_failures" Anything (PInt 3); e "max_jacobians" Anything (PInt 10);
       e "state_vars" Anything (PObj 0 0); e "update_broyden" Anything (PBool true)]
  | NewtonSolver => iterating ++ nonlinear ++ sub_solve ++ [("solve_subsystems", (TrueOrFalse, None)); e "max_sub_solves" Integer (PInt 10)]
  | NonlinearBlockGS => iterating ++ nonlinear ++ sub_solve ++ relaxation ++ [e "use_apply_nonlinear" TrueOrFalse (PBool false)]
  | NonlinearBlockJac => iterating ++ nonlinear
  | NonlinearRunOnce => []
  | BoundsEnforceLS => nonlinear ++ bounds
  | ArmijoGoldsteinLS => iteration 5 (small 10000000000) ++ nonlinear ++ bounds ++
      [e "c" (Between 0 (Some 1%Q)) (PFloat (1 # 10)); e "rho" (Between 0 (Some 1%Q)) (PFloat (1 # 2)); e "alpha" (Between 0 None) (PFloat 1);
       e "retry_on_analysis_error" Anything (PBool true); e "method" (OneOf ["Armijo"; "Goldstein"]) (PStr "Armijo")]
  end.
(** The first keyword argument that cannot be accepted, in the order given. *)
Fixpoint first_rejection (t : option_table) (kwargs : list (string * pv)) : option exn :=
  match kwargs with
  | [] => None
  | (n, v) :: r =>
    match find (fun o => String.eqb n (fst o)) t with
    | None => Some KeyError
    | Some (_, (k, _)) => match rejection k v with Some x => Some x | None => first_rejection t r end
    end
  end.
(** The value given last for a name. *)
Fixpoint given (kwargs : list (string * pv)) (n : string) : option pv :=
  match kwargs with
  | [] => None
  | (m, v) :: r => match given r n with Some w => Some w | None => if String.eqb n m then Some v else None end
  end.
