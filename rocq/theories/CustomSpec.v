(** What declare_derivatives, add_input, add_output and custom are documented to do. *)
From Verif Require Import PyBase PromotionsModel ApiModel CustomModel.
Set Implicit Arguments.
Open Scope list_scope.

(** The variables an [of]/[wrt] argument asks for when [all] are the outputs/inputs. *)
Inductive asks_for (all : list string) : darg -> list string -> Prop :=
| asks_star : asks_for all (DStr "*") all
| asks_name s : s <> "*"%string -> asks_for all (DStr s) [s]
| asks_list_star l : In "*"%string l -> asks_for all (DList l) all
| asks_list l : ~ In "*"%string l -> asks_for all (DList l) l.

(** All pairs, outputs varying slowest. *)
Definition pairs (ofs wrts : list string) : list (string * string) := list_prod ofs wrts.

(** Names given to add_input (add_output) in a history. *)
Fixpoint input_names (h : list ccall) : list string :=
  match h with
  | [] => []
  | AddInput n _ _ :: r => n :: input_names r
  | _ :: r => input_names r
  end.
Fixpoint output_names (h : list ccall) : list string :=
  match h with
  | [] => []
  | AddOutput n _ _ :: r => n :: output_names r
  | _ :: r => output_names r
  end.
(** The same without repetitions, in order of first occurrence. *)
Definition distinct (l : list string) : list string := fold_left sadd l [].

(** Every call of the history returned normally. *)
Definition all_accepted (fuel : nat) (w : world) (h : list ccall) : Prop :=
  forall h1 c h2, h = h1 ++ c :: h2 -> snd (ccexec fuel (ccexec_all fuel w h1) c) = None.

(** The pairs requested by the declare_derivatives calls of a history; a wildcard
    stands for the variables added before the call. *)
Inductive requested : list ccall -> list (string * string) -> Prop :=
| req_nil : requested [] []
| req_in h n sh v r : requested h r -> requested (h ++ [AddInput n sh v]) r
| req_out h n sh v r : requested h r -> requested (h ++ [AddOutput n sh v]) r
| req_der h a b la lb r : requested h r ->
    asks_for (distinct (output_names h)) a la -> asks_for (distinct (input_names h)) b lb ->
    requested (h ++ [DeclareDerivatives a b]) (r ++ pairs la lb).

(** No variable is called "*". *)
Definition no_star (h : list ccall) : Prop :=
  ~ In "*"%string (input_names h) /\ ~ In "*"%string (output_names h).

(** Every wildcard or list of the history stands for at least one variable. *)
Definition no_empty_request (h : list ccall) : Prop :=
  forall h1 a b h2, h = h1 ++ DeclareDerivatives a b :: h2 ->
    ~ asks_for (distinct (output_names h1)) a [] /\ ~ asks_for (distinct (input_names h1)) b [].

(** The arguments of [custom] fit the inputs: as many, and each a variable of the name
    and shape of the input at its place. *)
Inductive args_fit : list carg -> dict cmeta -> Prop :=
| fit_nil : args_fit [] []
| fit_cons id n sh v r l ins : args_fit l ins ->
    args_fit (AVar id n sh v :: l) ((n, Some (sh, Some r)) :: ins).

Definition arg_ids (l : list carg) : list nat :=
  flat_map (fun a => match a with AVar id _ _ _ => [id] | ANot => [] end) l.

(** The declared outputs with their shapes. *)
Inductive outs_of : dict cmeta -> list (string * shape) -> Prop :=
| outs_nil : outs_of [] []
| outs_cons n s r l o : outs_of l o -> outs_of ((n, Some (s, r)) :: l) ((n, s) :: o).

(** Arrays have as many entries as their shape says. *)
Definition good_arr (a : arr) : Prop := length (a_data a) = prod (a_shape a).
Definition good_heap (h : heap) : Prop := Forall good_arr h.
(** The arrays held by the arguments exist and have the shapes of the arguments. *)
Definition args_in_heap (h : heap) (l : list carg) : Prop :=
  Forall (fun a => match a with
                   | AVar _ _ sh (Some r) => r < length h /\ a_shape (hget h r) = sh
                   | _ => True
                   end) l.
(** Default values of inputs are written as numbers or (well formed) lists, not as
    array objects. *)
Definition plain_values (body : list ccall) : Prop :=
  Forall (fun c => match c with
                   | AddInput _ _ v => match v with CNum _ => True | CList a => good_arr a | _ => False end
                   | AddOutput _ _ (CList a) => good_arr a
                   | _ => True
                   end) body.
(** The value of an argument: its array, or ones. *)
Definition arg_value (h : heap) (sh : shape) (v : option ref) : arr :=
  match v with Some r => hget h r | None => full sh 1 end.
