(** Model of the two merging passes on the flattened graph:
    csdl/rep/construct_flat_graph.py (merge_automatically_connected_nodes) and
    csdl/rep/merge_connections.py. *)
From Coq Require Import Permutation.
From Verif Require Import PyBase NamesModel Digraph.

(** Class of the variable of a VariableNode: Input, Output, DeclaredVariable, or another
    subclass of Variable. *)
Inductive vclass := CInput | COutput | CDeclared | COther.

(** The attributes of a VariableNode and of its variable that the two passes read
    (csdl/rep/variable_node.py:8-22, csdl/lang/variable.py:20-60).  They do not change
    during the passes. *)
Record vattr := VA {
  va_name : string;        (* node.name = node.var.name *)
  va_auto : bool;          (* node.var.name == node.var._id *)
  va_ns : string;          (* node.namespace: the promoted namespace *)
  va_uns : string;         (* node.unpromoted_namespace *)
  va_shape : list nat;     (* node.var.shape *)
  va_class : vclass;
  va_default : bool        (* node.var.default_val *)
}.

(** A node of the flattened graph is a VariableNode or an OperationNode; of the latter
    only whether [op] is a CustomOperation is read. *)
Inductive nattr := NVar (v : vattr) | NOp (custom : bool).

(** Two dictionaries of sets with the same keys in the same order and the same sets; a set
    is represented by the list of its elements in the order of an iteration over it. *)
Definition same_sets {B} (d d' : dict (list B)) : Prop :=
  Forall2 (fun a b => fst a = fst b /\ Permutation (snd a) (snd b)) d d'.

(** str.count('.') *)
Fixpoint count_dots (s : string) : nat :=
  match s with
  | EmptyString => 0
  | String c r => (if Ascii.eqb c "."%char then 1 else 0) + count_dots r
  end.

(** prepend_namespace(x.namespace, x.name) *)
Definition va_pname (v : vattr) : string := prepend_namespace (va_ns v) (va_name v).

Section Passes.
  Context {A : Type} (eqb : A -> A -> bool) (attr : A -> nattr).

  Definition is_var (x : A) : bool := match attr x with NVar _ => true | NOp _ => false end.
  (** isinstance(x.var, (Input, Output)), isinstance(x.var, DeclaredVariable):
      csdl/rep/get_nodes.py:25-60 *)
  Definition is_src (x : A) : bool :=
    match attr x with
    | NVar v => match va_class v with CInput | COutput => true | _ => false end
    | NOp _ => false
    end.
  Definition is_tgt (x : A) : bool :=
    match attr x with
    | NVar v => match va_class v with CDeclared => true | _ => false end
    | NOp _ => false
    end.
  (** The attributes of a variable node (a dummy for operations, never used for them). *)
  Definition vat (x : A) : vattr :=
    match attr x with NVar v => v | NOp _ => VA "" true "" "" [] COther true end.
  Definition pname (x : A) : string := va_pname (vat x).

  (** ** construct_flat_graph.py:247-375 *)

  (** 290-315: choice of the declared variable that represents a promoted name. *)
  Definition choose_target (ut : dict A) (t : A) : dict A :=
    match dget ut (pname t) with
    | None => dset ut (pname t) t
    | Some cur =>
      let dn := count_dots (va_uns (vat t)) in
      let dc := count_dots (va_uns (vat cur)) in
      if Nat.ltb dn dc then dset ut (pname t) t
      else if Nat.eqb dc dn then
        (if negb (va_default (vat t)) then dset ut (pname t) t else ut)
      else ut
    end.
  Definition unique_targets (targets : list A) : dict A := fold_left choose_target targets [].

  (** 321-331: the remaining targets, grouped by name.  The sets of the code are lists here,
      in insertion order. *)
  Definition add_redundant (d : dict (list A)) (t : A) : dict (list A) :=
    match dget d (pname t) with
    | None => dset d (pname t) [t]
    | Some l => dset d (pname t) (l ++ [t])
    end.
  Definition redundant_targets (targets : list A) (ut : dict A) : dict (list A) :=
    fold_left add_redundant (filter (fun t => negb (memA eqb t (map snd ut))) targets) [].

  (** 350-362 and 364-375: the contractions, as a list of (kept node, removed node) in
      order.  The lookup unique_targets[k] of line 352 is guarded by line 351. *)
  Definition auto_steps (sources ut : dict A) (rt : dict (list A)) : list (A * A) :=
    flat_map (fun kt => match dget ut (fst kt) with
                        | Some u => map (fun t => (u, t)) (snd kt)
                        | None => [] end) rt
    ++ flat_map (fun ks => match dget ut (fst ks) with
                           | Some u => [(snd ks, u)]
                           | None => [] end) sources.
  Fixpoint contract_all (g : digraph A) (l : list (A * A)) : res (digraph A) :=
    match l with
    | [] => Ok g
    | (u, v) :: r => do g' <- contract eqb g u v; contract_all g' r
    end.
  (** The attributes [declared_to] (analytics only) are not modelled; the calls of
      add_IR_mapping are modelled by [auto_mapping] below. *)
  Definition merge_auto (g : digraph A) : res (digraph A) :=
    let vars := filter is_var (g_nodes g) in
    let sources := dict_of (map (fun x => (pname x, x)) (filter is_src vars)) in
    let targets := filter is_tgt vars in
    let ut := unique_targets targets in
    contract_all g (auto_steps sources ut (redundant_targets targets ut)).
  (** The values of redundant_targets are sets (317-331): Python may iterate over each of
      them in any order (352-362).  [merge_auto_any g g']: some such order gives [g']. *)
  Definition merge_auto_any (g g' : digraph A) : Prop :=
    let vars := filter is_var (g_nodes g) in
    let sources := dict_of (map (fun x => (pname x, x)) (filter is_src vars)) in
    let targets := filter is_tgt vars in
    let ut := unique_targets targets in
    exists rt, same_sets (redundant_targets targets ut) rt /\ contract_all g (auto_steps sources ut rt) = Ok g'.
  (** Variable.add_IR_mapping (csdl/lang/variable.py:67-80) calls made by the pass, in
      order: (node whose variable is re-mapped, new node). *)
  Definition auto_mapping (g : digraph A) : list (A * A) :=
    let vars := filter is_var (g_nodes g) in
    let sources := dict_of (map (fun x => (pname x, x)) (filter is_src vars)) in
    let targets := filter is_tgt vars in
    let ut := unique_targets targets in
    map (fun uv => (snd uv, fst uv)) (auto_steps sources ut (redundant_targets targets ut)).

  (** The attribute rep_node of a variable (csdl/lang/variable.py:67-80, set first to its
      own node by csdl/rep/variable_node.py:22) after these calls: the last one counts. *)
  Definition rep_node (log : list (A * A)) (x : A) : A :=
    fold_left (fun cur e => if eqb x (fst e) then snd e else cur) log x.

  (** ** merge_connections.py *)

  (** 116-131 *)
  Fixpoint scan_unpromoted (names : list string) (u2p : dict string) (x : A) (u2n : dict A) : res (dict A) :=
    match names with
    | [] => Ok u2n
    | un :: r =>
      if dmem un u2n then Err KeyError
      else if negb (dmem un u2p) then Err KeyError
      else scan_unpromoted r u2p x (dset u2n un x)
    end.
  (** 66-131: the maps from promoted and unpromoted names to nodes.  A variable node that
      has no entry must be the output of a custom operation: with no predecessor the
      indexing of line 105 raises IndexError, and a predecessor without attribute [op]
      raises AttributeError. *)
  Fixpoint scan_nodes (g : digraph A) (p2u : dict (list string)) (u2p : dict string)
      (l : list A) (p2n u2n : dict A) : res (dict A * dict A) :=
    match l with
    | [] => Ok (p2n, u2n)
    | x :: r =>
      match attr x with
      | NOp _ => scan_nodes g p2u u2p r p2n u2n
      | NVar v =>
        if Nat.ltb 1 (length (preds eqb g x)) then Err KeyError
        else if va_auto v then scan_nodes g p2u u2p r p2n u2n
        else match dget p2u (va_pname v) with
        | None =>
          match preds eqb g x with
          | [] => Err IndexError
          | p :: _ =>
            match attr p with
            | NOp true => scan_nodes g p2u u2p r p2n u2n
            | NOp false => Err KeyError
            | NVar _ => Err AttributeError
            end
          end
        | Some names =>
          do u2n' <- scan_unpromoted names u2p x u2n;
          scan_nodes g p2u u2p r (dset p2n (va_pname v) x) u2n'
        end
      end
    end.

  (** 18-39 *)
  Definition find_unique_node (p2n u2n : dict A) (name ns : string) : res A :=
    match dget p2n (prepend_namespace ns name) with
    | Some x => Ok x
    | None =>
      match dget u2n (prepend_namespace ns name) with
      | Some x => Ok x
      | None => Err KeyError
      end
    end.

  (** connected_tgt_nodes_to_source_nodes: pairs (target, source) in insertion order *)
  Definition cget (m : list (A * A)) (t : A) : option A := option_map snd (find (fun e => eqb t (fst e)) m).

  (** 142-218, body of the loop.  The type test of line 178 always succeeds, every variable
      being an instance of Variable; the warning of line 198 is not modelled. *)
  Definition connect_step (p2n u2n : dict A) (c : string * string * string) (st : digraph A * list (A * A))
    : res (digraph A * list (A * A)) :=
    let '(s, t, ns) := c in
    do sn <- find_unique_node p2n u2n s ns;
    do tn <- find_unique_node p2n u2n t ns;
    raise_if (match cget (snd st) tn with Some _ => true | None => false end) KeyError
    (raise_if (negb (is_src sn)) ValueError
    (raise_if (negb (Nat.eqb (length (preds eqb (fst st) tn)) 0)) ValueError
    (raise_if (negb (shape_eqb (va_shape (vat sn)) (va_shape (vat tn)))
               && negb (Nat.eqb (prod (va_shape (vat sn))) (prod (va_shape (vat tn))))) ValueError
    (do g' <- contract eqb (fst st) sn tn;
     Ok (g', snd st ++ [(tn, sn)]))))).
  Fixpoint connect_loop (p2n u2n : dict A) (cs : list (string * string * string)) (st : digraph A * list (A * A))
    : res (digraph A * list (A * A)) :=
    match cs with
    | [] => Ok st
    | c :: r => do st' <- connect_step p2n u2n c st; connect_loop p2n u2n r st'
    end.

  (** 42-220: the flat graph, the two maps and connected_tgt_nodes_to_source_nodes. *)
  Definition merge_connections (g : digraph A) (cs : list (string * string * string))
      (p2u : dict (list string)) (u2p : dict string)
    : res (digraph A * dict A * dict A * list (A * A)) :=
    do maps <- scan_nodes g p2u u2p (g_nodes g) [] [];
    do st <- connect_loop (fst maps) (snd maps) cs (g, []);
    Ok (fst st, fst maps, snd maps, snd st).
End Passes.
