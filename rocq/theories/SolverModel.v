(** Model of csdl/solvers: the options of a solver object. *)
From Coq Require Import QArith.
From Verif Require Import PyBase ParamModel.
Set Implicit Arguments.
Close Scope Q_scope.
Local Open Scope string_scope.
Local Open Scope list_scope.

(** Arguments of a call of [declare]; all others have their default values.  Descriptions are not
    modelled. *)
Definition declare_ (n : string) (default : option pv) (vs : values_arg) (ts : types_arg) (lower upper : option pv) : call :=
  CDeclare n {| d_default := default; d_values := vs; d_types := ts; d_upper := upper; d_lower := lower; d_check := None; d_allow_none := false; d_recordable := true |}.
Definition plain_option n d := declare_ n (Some d) VsNone TsNone None None.
Definition typed_option n t d := declare_ n (Some d) VsNone (TsType t) None None.
Definition choice_option n l d := declare_ n (Some d) (VsColl (map PStr l)) TsNone None None.
Definition ranged_option n lo up d := declare_ n (Some d) VsNone TsNone lo up.
Definition fl (n : Z) (d : positive) : pv := PFloat (n # d).

(** csdl/solvers/solver.py:65-87 *)
Definition solver_base : list call := [
  typed_option "maxiter" TyInt (PInt 10);
  plain_option "atol" (fl 1 10000000000);
  plain_option "rtol" (fl 1 10000000000);
  typed_option "iprint" TyInt (PInt 1);
  typed_option "err_on_non_converge" TyBool (PBool false)
].
(** csdl/solvers/nonlinear_solver.py:29-55 *)
Definition nonlinear_base : list call := [
  typed_option "debug_print" TyBool (PBool false);
  plain_option "stall_limit" (PInt 0);
  plain_option "stall_tol" (fl 1 1000000000000)
].
(** csdl/solvers/linear_solver.py:30-40 *)
Definition linear_base : list call := [typed_option "assemble_jac" TyBool (PBool false)].
(** csdl/solvers/linear/linear_block_gs.py:42-58 *)
Definition aitken : list call := [
  typed_option "use_aitken" TyBool (PBool false);
  plain_option "aitken_min_factor" (fl 1 10);
  plain_option "aitken_max_factor" (fl 3 2);
  plain_option "aitken_initial_factor" (fl 1 1)
].
(** csdl/solvers/linesearch/backtracking.py:41-67 *)
Definition linesearch_base : list call := [
  choice_option "bound_enforcement" ["vector"; "scalar"; "wall"] (PStr "scalar");
  plain_option "print_bound_enforce" (PBool false)
].
(** csdl/solvers/linear/petsc_ksp.py:5-12 *)
Definition KSP_TYPES : list string := [
  "richardson"; "chebyshev"; "cg"; "groppcg"; "pipecg"; "pipecgrr";
  "cgne"; "nash"; "stcg"; "gltr"; "fcg"; "pipefcg"; "gmres";
  "pipefgmres"; "fgmres"; "lgmres"; "dgmres"; "pgmres"; "tcqmr";
  "bcgs"; "ibcgs"; "fbcgs"; "fbcgsr"; "bcgsl"; "cgs"; "tfqmr"; "cr";
  "pipecr"; "lsqr"; "preonly"; "qcg"; "bicg"; "minres"; "symmlq";
  "lcd"; "python"; "gcr"; "pipegcr"; "tsirm"; "cgls"].
Definition cs_reconverge := typed_option "cs_reconverge" TyBool (PBool true).
Definition reraise := typed_option "reraise_child_analysiserror" TyBool (PBool false).

Inductive solver :=
| DirectSolver | LinearBlockGS | LinearBlockJac | LinearRunOnce | PETScKrylov | ScipyKrylov | LinearUserDefined
| BroydenSolver | NewtonSolver | NonlinearBlockGS | NonlinearBlockJac | NonlinearRunOnce
| BoundsEnforceLS | ArmijoGoldsteinLS.

(** [_declare_options] of the classes. *)
Definition declare_options (c : solver) : list call :=
  match c with
  (* csdl/solvers/linear/direct.py:13-33 *)
  | DirectSolver => linear_base ++ [typed_option "err_on_singular" TyBool (PBool true);
      CUndeclare "maxiter"; CUndeclare "err_on_non_converge"; CUndeclare "atol"; CUndeclare "rtol"; CSet "assemble_jac" (PBool true)]
  (* csdl/solvers/linear/linear_block_gs.py:36-58, csdl/solvers/block_linear_solver.py:10-16 *)
  | LinearBlockGS => linear_base ++ aitken
  (* csdl/solvers/linear/linear_block_jac.py:6-11 *)
  | LinearBlockJac => linear_base
  (* csdl/solvers/linear/linear_runonce.py:15-28 *)
  | LinearRunOnce => (linear_base ++ aitken) ++ [CUndeclare "atol"; CUndeclare "rtol"; CUndeclare "maxiter"; CUndeclare "err_on_non_converge"]
  (* csdl/solvers/linear/petsc_ksp.py:33-60 *)
  | PETScKrylov => linear_base ++ [choice_option "ksp_type" KSP_TYPES (PStr "fgmres"); typed_option "restart" TyInt (PInt 1000);
      choice_option "precon_side" ["left"; "right"] (PStr "right"); CSet "maxiter" (PInt 100)]
  (* csdl/solvers/linear/scipy_iter_solver.py:39-61 *)
  | ScipyKrylov => linear_base ++ [choice_option "solver" ["gmres"] (PStr "gmres"); typed_option "restart" TyInt (PInt 20);
      CSet "maxiter" (PInt 1000); CSet "atol" (fl 1 1000000000000)]
  (* csdl/solvers/linear/user_defined.py:6-36 *)
  | LinearUserDefined => linear_base
  (* csdl/solvers/nonlinear/broyden.py:76-148; the default [] of state_vars is a list object *)
  | BroydenSolver => nonlinear_base ++ [plain_option "alpha" (fl 2 5); typed_option "compute_jacobian" TyBool (PBool true);
      plain_option "converge_limit" (fl 1 1); cs_reconverge; plain_option "diverge_limit" (fl 2 1); plain_option "max_converge_failures" (PInt 3);
      plain_option "max_jacobians" (PInt 10); plain_option "state_vars" (PObj 0 0); plain_option "update_broyden" (PBool true); reraise]
  (* csdl/solvers/nonlinear/newton.py:43-72 *)
  | NewtonSolver => nonlinear_base ++ [declare_ "solve_subsystems" None VsNone (TsType TyBool) None None; typed_option "max_sub_solves" TyInt (PInt 10); cs_reconverge; reraise]
  (* csdl/solvers/nonlinear/nonlinear_block_gs.py:36-81 *)
  | NonlinearBlockGS => nonlinear_base ++ aitken ++ [cs_reconverge; typed_option "use_apply_nonlinear" TyBool (PBool false); reraise]
  (* csdl/solvers/nonlinear/nonlinear_block_jac.py:6-11 *)
  | NonlinearBlockJac => nonlinear_base
  (* csdl/solvers/nonlinear/nonlinear_runonce.py:19-30: no call of the method of the base class *)
  | NonlinearRunOnce => [CUndeclare "atol"; CUndeclare "rtol"; CUndeclare "maxiter"; CUndeclare "err_on_non_converge"]
  (* csdl/solvers/linesearch/backtracking.py:80-91 *)
  | BoundsEnforceLS => (nonlinear_base ++ linesearch_base) ++ map CUndeclare ["atol"; "rtol"; "maxiter"; "err_on_non_converge"]
  (* csdl/solvers/linesearch/backtracking.py:119-150 *)
  | ArmijoGoldsteinLS => (nonlinear_base ++ linesearch_base) ++ [CSet "maxiter" (PInt 5);
      ranged_option "c" (Some (fl 0 1)) (Some (fl 1 1)) (fl 1 10); ranged_option "rho" (Some (fl 0 1)) (Some (fl 1 1)) (fl 1 2);
      ranged_option "alpha" (Some (fl 0 1)) None (fl 1 1); plain_option "retry_on_analysis_error" (PBool true);
      choice_option "method" ["Armijo"; "Goldstein"] (PStr "Armijo")]
  end.
(** Calls until the first exception. *)
Fixpoint perform (st : params) (h : list call) : res params :=
  match h with
  | [] => Ok st
  | c :: r => match exec st c with (st', None) => perform st' r | (_, Some e) => Err e end
  end.
(** csdl/solvers/solver.py:47-148 and the constructors of the classes: the options of the object
    created by calling the class with keyword arguments.  The line search created by Newton and Broyden solvers has default
    options. *)
Definition construct (c : solver) (kwargs : list (string * pv)) : res params :=
  perform (p_init false) (solver_base ++ declare_options c ++ [CUpdate kwargs]).
