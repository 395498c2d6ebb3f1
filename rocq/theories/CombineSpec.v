(** What a flat graph computes. *)
From Verif Require Import PyBase Digraph CombineModel.
Set Implicit Arguments.
Open Scope list_scope.

Section Values.
  Variable D : Type.
  (** meaning of the function symbols, values of the variables without predecessor *)
  Variable I : nat -> list D -> D.
  Variable inp : nat -> D.

  (** Execution of a compute string: values of names *)
  Definition env := nat -> option D.
  Definition eset (e : env) (n : nat) (d : D) : env := fun m => if Nat.eqb m n then Some d else e m.
  Fixpoint args (e : env) (xs : list nat) : option (list D) :=
    match xs with
    | [] => Some []
    | x :: r => match e x, args e r with Some d, Some ds => Some (d :: ds) | _, _ => None end
    end.
  Fixpoint run (e : env) (p : program) : option env :=
    match p with
    | [] => Some e
    | (y, f, xs) :: r => match args e xs with Some ds => run (eset e y (I f ds)) r | None => None end
    end.
  Fixpoint bind_all (xs : list nat) (ds : list D) : env :=
    match xs, ds with x :: xs, d :: ds => eset (bind_all xs ds) x d | _, _ => fun _ => None end.

  (** [value st n d]: evaluating the graph gives variable [n] the value [d]. *)
  Inductive value (st : cstate) : nat -> D -> Prop :=
  | value_source n : gpreds (c_graph st) (V n) = [] -> value st n (inp n)
  | value_fn n o f p xs ds :
      gpreds (c_graph st) (V n) = [O o] -> o_body (c_ops st o) = Fn f p ->
      gpreds (c_graph st) (O o) = map V xs -> Forall2 (value st) xs ds -> value st n (I f ds)
  | value_combined n o p xs ds e d :
      gpreds (c_graph st) (V n) = [O o] -> o_body (c_ops st o) = Combined p ->
      gpreds (c_graph st) (O o) = map V xs -> Forall2 (value st) xs ds ->
      run (bind_all xs ds) p = Some e -> e n = Some d -> value st n d.
End Values.

(** A graph as the compiler builds it: edges between variables and operations, at most one
    operation per variable, and elementwise operations with one result whose compute
    string says what they compute. *)
Record built (st : cstate) : Prop := {
  b_wf : Digraph.wf (c_graph st);
  b_bipartite : forall a b, edge (c_graph st) a b -> match a, b with V _, O _ => True | O _, V _ => True | _, _ => False end;
  b_one_pred : forall n a b, edge (c_graph st) a (V n) -> edge (c_graph st) b (V n) -> a = b;
  b_strings : forall o, node (c_graph st) (O o) -> o_elementwise (c_ops st o) = true ->
    exists n f xs, o_body (c_ops st o) = Fn f [(n, f, xs)] /\ gpreds (c_graph st) (O o) = map V xs /\
                   edge (c_graph st) (O o) (V n) /\ ~ In n xs;
  b_no_combined : forall o p, node (c_graph st) (O o) -> o_body (c_ops st o) <> Combined p;
  b_fresh : forall o, node (c_graph st) (O o) -> o < c_next st;
  b_acyclic : exists rank : nd -> nat, forall a b, edge (c_graph st) a b -> rank a < rank b
}.

(** No variable is used by more than one operation. *)
Definition unshared (g : digraph nd) : Prop :=
  forall n a b, edge g (V n) a -> edge g (V n) b -> a = b.
