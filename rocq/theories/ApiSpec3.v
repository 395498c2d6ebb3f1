(** Specification vocabulary: how many graph objects (variables, operations, submodels) a call
    of the model-building API constructs.  Automatic names are derived from that number. *)
From Verif Require Import PyBase NamesModel PromotionsModel ApiModel ApiSpec ApiSpec2.

Definition one_if (P : Prop) (k : N) : Prop := (P -> k = 1%N) /\ (~ P -> k = 0%N).

(** A variable is constructed as soon as its name and the type of its value are acceptable,
    even if the value then turns out not to fit the shape, or the name to be taken;
    [print_var] constructs an operation and an output; a submodel is constructed only when
    [add] accepts it; an expression constructs its result and [k] other objects. *)
Definition constructs (s : mst) (c : call) (k : N) : Prop :=
  match c with
  | CreateInput n _ v | CreateOutput n _ v => one_if (name_ok n /\ v <> VOther) k
  | DeclareVariable _ _ v => one_if (v <> Some VOther) k
  | NewOutput _ j => k = (j + 1)%N
  | PrintVar o => exists b, one_if (o < length (s_heap s)) b /\ k = (2 * b)%N
  | Add n m i p => one_if (valid s (Add n m i p)) k
  | _ => k = 0%N
  end.

(** Number of objects constructed by a history of calls. *)
Inductive constructed : list call -> N -> Prop :=
| constructed_nil : constructed [] 0
| constructed_snoc l c n k : constructed l n -> constructs (build l) c k -> constructed (l ++ [c]) (n + k).
