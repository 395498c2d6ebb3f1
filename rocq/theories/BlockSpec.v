(** Specification vocabulary: programs written with create_submodel blocks and the same
    programs written with Model() and add. *)
From Verif Require Import PyBase NamesModel PromotionsModel ExprModel WorldModel BlockModel.
Local Open Scope list_scope.

(** No statement of the program raises or catches on its own. *)
Fixpoint plain (p : prog) : Prop :=
  match p with
  | PCall _ => True
  | PRaise _ | PTry _ => False
  | PBlock _ _ _ body => (fix all l := match l with [] => True | q :: r => plain q /\ all r end) body
  end.

(** The program without blocks: a block is [m = Model()], its body, [parent.add(m, name,
    promotes)].  [n]: the number of models created before. *)
Fixpoint models_made (p : prog) : nat :=
  match p with
  | PCall WNew => 1
  | PBlock _ _ _ body => S ((fix sum l := match l with [] => 0 | q :: r => models_made q + sum r end) body)
  | _ => 0
  end.
Fixpoint without_blocks (n : nat) (p : prog) : list wevent :=
  match p with
  | PCall e => [e]
  | PBlock k on pr body =>
    WNew :: (fix all n l := match l with [] => [] | q :: r => without_blocks n q ++ all (n + models_made q) r end) (S n) body
         ++ [WAdd k on pr n]
  | _ => []
  end.
Fixpoint calls_of (n : nat) (l : list prog) : list wevent :=
  match l with [] => [] | q :: r => without_blocks n q ++ calls_of (n + models_made q) r end.

(** [add] on model [k] accepts this name. *)
Definition name_free (w : world) (k : nat) (on : option string) : Prop :=
  forall n, on = Some n -> check_banned_chars n = Ok tt /\
    forall m, nth_error (w_models w) k = Some m -> ~ In n (sub_names m).
