(** When a call of an implicit operation factory is accepted, what it returns and what it leaves
    in the parent model. *)
From Verif Require Import PyBase NamesModel PromotionsModel ExprModel ApiModel ApiSpec2 ImplicitModel ImplicitSpec FactoryModel.

(** The declarations of states the user made, in order. *)
Record declaration := Decl {
  d_state : string; d_residual : string; d_bracket : option (list ImplicitModel.bound); d_value : pyval }.
Fixpoint declarations (l : list call) : list declaration :=
  match l with
  | [] => []
  | DeclareState s r b v :: t => Decl s r b v :: declarations t
  | _ :: t => declarations t
  end.
(** The solvers assigned last. *)
Fixpoint last_nonlinear (l : list call) (k : nonlinear) : nonlinear :=
  match l with [] => k | SetNonlinear k' :: t => last_nonlinear t k' | _ :: t => last_nonlinear t k end.
Fixpoint last_linear (l : list call) (b : bool) : bool :=
  match l with [] => b | SetLinear b' :: t => last_linear t b' | _ :: t => last_linear t b end.

(** The first variable of a list with a given name. *)
Definition first_named (m : imodel) (vs : list nat) (n : string) (v : nat) : Prop :=
  exists a b, vs = a ++ v :: b /\ name_of (im_heap m) v = n /\ forall w, In w a -> name_of (im_heap m) w <> n.

(** The result for one declared state: its name; its shape is that of the variable, or that of
    the given array when the variable has the default shape (1,). *)
Definition result_for (m : imodel) (d : declaration) (r : string * shape) : Prop :=
  fst r = d_state d /\ exists x, first_named m (im_decls m) (d_state d) x /\ value_fits (im_shape m x) (d_value d) /\
    snd r = match d_value d with
            | VArr a | VList a => if shape_eqb (im_shape m x) [1] then a_shape a else im_shape m x
            | _ => im_shape m x
            end.
(** The exposed variables, in the order in which the internal model registered them. *)
Definition exposed_results (m : imodel) (expose : list string) : list (string * shape) :=
  map (fun v => (name_of (im_heap m) v, im_shape m v)) (filter (fun v => smem (name_of (im_heap m) v) expose) (im_regs m)).
Definition results (m : imodel) (ds : list declaration) (expose : list string) (outs : list (string * shape)) : Prop :=
  exists a, Forall2 (result_for m) ds a /\ outs = a ++ exposed_results m expose.

(** No variable of the parent has this name. *)
Definition free (p : parent) (n : string) : Prop :=
  ~ In n (p_inputs p) /\ ~ In n (p_decls p) /\ ~ In n (map fst (p_outs p)).
Definition registrable (p : parent) (l : list (string * shape)) : Prop :=
  NoDup (map fst l) /\ forall n, In n (map fst l) -> name_ok n /\ free p n.

Definition defaults_fit (m : imodel) (states : list string) (defaults : list (string * default)) : Prop :=
  forall k d, In (k, d) defaults -> In k states /\
    match d with
    | DScalar => True
    | DArray s => exists v, first_named m (im_regs m) k v /\ im_shape m v = s
    | DOther => False
    end.
Definition solvers_fit (k : nonlinear) (linear : bool) : Prop := k = NeedsLinear -> linear = true.

(** Everything that is checked before the first result is made. *)
Record prepared (m : imodel) (cs : list call) (args : list (string * shape)) (expose : list string) (defaults : list (string * default)) : Prop := {
  pr_values : forall d, In d (declarations cs) -> d_value d <> VOther;
  pr_maps : acceptable m args (map d_state (declarations cs)) (map d_residual (declarations cs)) expose;
  pr_brackets : (exists d, In d (declarations cs) /\ d_bracket d <> None) ->
    forall d, In d (declarations cs) -> exists a b, d_bracket d = Some [a; b] /\ bound_shape a = bound_shape b;
  pr_solved : (forall d, In d (declarations cs) -> d_bracket d = None) ->
    defaults_fit m (map d_state (declarations cs)) defaults /\ solvers_fit (last_nonlinear cs NoSolver) (last_linear cs false)
}.

(** What is stored besides the maps: brackets in the order of the states, or the array defaults
    and the solvers. *)
Definition stored (cs : list call) (m : imodel) (defaults : list (string * default)) (st : settings) : Prop :=
  match st with
  | Bracketed bs => (exists d, In d (declarations cs) /\ d_bracket d <> None) /\
      map (fun d => (d_state d, d_bracket d)) (declarations cs) = map (fun kb => (fst kb, Some (snd kb))) bs
  | Solved ds k lin => (forall d, In d (declarations cs) -> d_bracket d = None) /\
      k = last_nonlinear cs NoSolver /\ lin = last_linear cs false /\
      forall n s, NoDup (map fst defaults) -> (dget ds n = Some s <-> In (n, DArray s) defaults)
  end.
