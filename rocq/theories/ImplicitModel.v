(** Model of implicit operations: csdl/lang/model.py:544-1193 (without the solvers),
    csdl/utils/collect_terminals.py, csdl/lang/implicit_operation_factory.py. *)
From Verif Require Import PyBase NamesModel PromotionsModel ExprModel ApiModel.
Set Implicit Arguments.

(** ** collect_terminals *)
Definition deps_of (h : list obj) (v : nat) : list nat := match nth_error h v with Some o => ob_deps o | None => [] end.
Definition name_of (h : list obj) (v : nat) : string := match nth_error h v with Some o => ob_name o | None => EmptyString end.
(** csdl/utils/collect_terminals.py:9-11; every node reached here is a variable *)
Definition isterminal (h : list obj) (v : nat) : bool := match deps_of h v with [] => true | _ => false end.
Definition nadd (l : list nat) (x : nat) : list nat := if nmem x l then l else l ++ [x].

(** csdl/utils/collect_terminals.py:14-49.  The state is [(terminals, visited_set)]; None when
    the bound on the recursion depth is exceeded (there is none in Python, up to its stack). *)
Fixpoint collect (fuel : nat) (h : list obj) (res_name : string) (v : nat) (tv : list nat * list nat) : option (list nat * list nat) :=
  match fuel with
  | 0 => None
  | S n =>
    let visit acc u :=
      match acc with
      | None => None
      | Some (ts, vis) =>
        if nmem u vis then Some (ts, vis)
        else if String.eqb (name_of h u) res_name then Some (ts, u :: vis)
        else collect n h res_name u (if isterminal h u then nadd ts u else ts, u :: vis)
      end in
    fold_left (fun acc op => fold_left visit (deps_of h op) acc) (deps_of h v) (Some tv)
  end.
Definition collect_terminals (h : list obj) (r : nat) : option (list nat) :=
  option_map fst (collect (S (S (length h))) h (name_of h r) r ([], [])).

(** ** The model that defines the residuals *)
Record imodel := IModel {
  im_heap : list obj;
  im_shape : nat -> shape;
  im_inputs : list nat;
  im_decls : list nat;
  im_regs : list nat
}.
(** [{x.name: x for x in vs}] *)
Definition by_name (m : imodel) (vs : list nat) : dict nat := dict_of (map (fun v => (name_of (im_heap m) v, v)) vs).
Fixpoint dupb (l : list string) : bool := match l with [] => false | x :: r => smem x r || dupb r end.

Record maps := Maps {
  out_res : dict nat;           (* state -> residual *)
  res_out : dict nat;           (* residual -> state *)
  out_in : dict (list nat);     (* state -> variables its residual depends on *)
  exp_in : dict (list nat);     (* exposed -> variables it depends on *)
  exposed_residuals : list string
}.

(** model.py:1004-1019, arguments by name and shape; copying the value of the argument is
    not modelled *)
Fixpoint check_arguments (m : imodel) (dm : dict nat) (args : list (string * shape)) : res unit :=
  match args with
  | [] => Ok tt
  | (n, s) :: r =>
    match dget dm n with
    | None => Err ValueError
    | Some v => if shape_eqb s (im_shape m v) then check_arguments m dm r else Err ValueError
    end
  end.
(** model.py:1023-1027, 1035-1039, 1047-1051 *)
Definition all_known (dm : dict nat) (names : list string) : bool := forallb (fun n => dmem n dm) names.
(** model.py:1056-1065 *)
Fixpoint pair_maps (m : imodel) (dm rm : dict nat) (srs : list (string * string)) (acc : dict nat * dict nat) : res (dict nat * dict nat) :=
  match srs with
  | [] => Ok acc
  | (s, r) :: rest =>
    match dget rm r, dget dm s with
    | Some rv, Some sv =>
      if shape_eqb (im_shape m rv) (im_shape m sv) then pair_maps m dm rm rest (dset (fst acc) s rv, dset (snd acc) r sv)
      else Err ValueError
    | _, _ => Err KeyError
    end
  end.
(** model.py:1076-1101 *)
Fixpoint input_map (m : imodel) (known : list string) (ors : dict nat) (acc : dict (list nat)) : res (dict (list nat)) :=
  match ors with
  | [] => Ok acc
  | (s, r) :: rest =>
    match collect_terminals (im_heap m) r with
    | None => Err RuntimeError
    | Some ts =>
      if smem s (map (name_of (im_heap m)) ts)
      then input_map m known rest (dset acc s (filter (fun v => smem (name_of (im_heap m) v) known) ts))
      else Err ValueError
    end
  end.
(** model.py:1104-1123 *)
Fixpoint exposed_map (m : imodel) (known : list string) (rm : dict nat) (expose : list string) (acc : dict (list nat)) : res (dict (list nat)) :=
  match expose with
  | [] => Ok acc
  | e :: rest =>
    match dget rm e with
    | None => Err KeyError
    | Some r =>
      match collect_terminals (im_heap m) r with
      | None => Err RuntimeError
      | Some ts => exposed_map m known rm rest (dset acc e (filter (fun v => smem (name_of (im_heap m) v) known) ts))
      end
    end
  end.

(** model.py:935-1135, after the representation of the internal model has been built *)
Definition generate_maps (m : imodel) (args : list (string * shape)) (states residuals expose : list string) : res maps :=
  raise_if (negb (length (im_inputs m) =? 0)) ValueError (
  raise_if (dupb (map fst args)) ValueError (
  raise_if (dupb states) ValueError (
  raise_if (dupb residuals) ValueError (
  raise_if (negb (length states =? length residuals)) ValueError (
  let dm := by_name m (im_decls m) in
  let rm := by_name m (im_regs m) in
  do _ <- check_arguments m dm args;
  raise_if (negb (all_known dm states)) ValueError (
  raise_if (negb (all_known rm residuals)) ValueError (
  raise_if (negb (all_known rm expose)) ValueError (
  do p <- pair_maps m dm rm (combine states residuals) ([], []);
  let known := map fst args ++ states in
  do oi <- input_map m known (fst p) [];
  do ei <- exposed_map m known rm expose [];
  Ok (Maps (fst p) (snd p) oi ei (filter (fun e => smem e residuals) expose)))))))))).

(** ** Results *)
(** The parent model: names of inputs, declared variables, registered outputs (with shapes). *)
Record parent := Parent { p_inputs : list string; p_decls : list string; p_outs : list (string * shape) }.
(** model.py:430-485 for a new Output *)
Definition register (p : parent) (n : string) (s : shape) : res parent :=
  do _ <- check_banned_chars n;
  if smem n (map fst (p_outs p)) || smem n (p_inputs p) || smem n (p_decls p) then Err ValueError
  else Ok (Parent (p_inputs p) (p_decls p) (p_outs p ++ [(n, s)])).
(** model.py:1168-1184: registered outputs of the internal model that are exposed *)
Definition exposed_outputs (m : imodel) (expose : list string) : list (string * shape) :=
  map (fun v => (name_of (im_heap m) v, im_shape m v))
      (filter (fun v => smem (name_of (im_heap m) v) expose) (im_regs m)).

(** ** Default values (model.py:883-906) *)
(** A number, an array, anything else. *)
Inductive default := DScalar | DArray (s : shape) | DOther.
Fixpoint store_defaults (m : imodel) (states : list string) (ds : list (string * default)) (acc : dict shape) : res (dict shape) :=
  match ds with
  | [] => Ok acc
  | (k, d) :: r =>
    if negb (smem k states) then Err ValueError
    else match d with
         | DScalar => store_defaults m states r acc
         | DOther => Err ValueError
         | DArray s =>
           match find (fun v => String.eqb (name_of (im_heap m) v) k) (im_regs m) with
           | Some v => if shape_eqb (im_shape m v) s then store_defaults m states r (dset acc k (im_shape m v)) else Err ValueError
           | None => Err IndexError
           end
         end
  end.

(** ** Brackets (model.py:683-717) *)
(** A bound: a number, whose array has shape (), or an array or variable with a shape. *)
Inductive bound := BNumber | BShape (s : shape).
Definition bound_shape (b : bound) : shape := match b with BNumber => [] | BShape s => s end.
Fixpoint check_brackets (states : list string) (brackets : list (string * list bound)) (without : list string) : res (list string) :=
  match brackets with
  | [] => Ok without
  | (k, v) :: r =>
    if negb (smem k states) then Err ValueError
    else let without' := filter (fun s => negb (String.eqb s k)) without in
         match v with
         | [a; b] => if shape_eqb (bound_shape a) (bound_shape b) then check_brackets states r without' else Err ValueError
         | _ => Err ValueError
         end
  end.
Definition brackets_ok (states : list string) (brackets : list (string * list bound)) : res unit :=
  do w <- check_brackets states brackets states;
  match w with [] => Ok tt | _ => Err ValueError end.
