(** Model of expression building: the Node objects created while a model is defined, their
    dependencies and outputs, and the names they get.
    csdl/lang/node.py, csdl/lang/variable.py, csdl/lang/output.py, csdl/lang/operation.py,
    csdl/lang/standard_operation.py, csdl/lang/concatenation.py, csdl/lang/subgraph.py,
    csdl/lang/model.py, csdl/std/custom.py.
    Shapes and values are left out here (see ApiModel, IndexModel): an event below is a call
    whose shape and index checks succeed. *)
From Verif Require Import PyBase NamesModel.

(** Class of a node object: Input, DeclaredVariable, Output, Concatenation, Operation (with
    a flag for CustomOperation). *)
Inductive okind := KIn | KDecl | KOut | KConcat | KOp (custom : bool).

(** csdl/lang/node.py:28-38 and the fields of the subclasses that matter here. *)
Record obj := Obj {
  ob_kind : okind;
  ob_num : N;               (* Node._count when it was created; its _id is gen_hex_name of it *)
  ob_name : string;
  ob_deps : list nat;       (* dependencies *)
  ob_outs : list nat;       (* outs, for operations *)
  ob_decomp : option nat;   (* _decomp, for variables *)
  ob_defined : bool         (* defined, for Concatenation *)
}.

Definition is_op (o : obj) : bool := match ob_kind o with KOp _ => true | _ => false end.
Definition is_variable (o : obj) : bool := negb (is_op o).
Definition is_output (o : obj) : bool := match ob_kind o with KOut | KConcat => true | _ => false end.

Fixpoint upd {A} (l : list A) (i : nat) (f : A -> A) : list A :=
  match l, i with
  | [], _ => []
  | x :: r, O => f x :: r
  | x :: r, S j => x :: upd r j f
  end.

(** [_id] of the node created when [Node._count] is [k]: csdl/lang/node.py:29-32 *)
Definition hex_id (k : N) : string := match gen_hex_name k with Some x => x | None => EmptyString end.

(** One model under construction, together with the objects of the process. *)
Record bst := Bst {
  b_heap : list obj;
  b_count : N;                 (* Node._count + 1: the number of the next node *)
  b_ins : list nat;            (* inputs *)
  b_outs : list nat;           (* registered_outputs *)
  b_decls : list nat;          (* declared_variables *)
  b_subs : list string         (* names of the subgraphs *)
}.
Definition bst0 : bst := Bst [] 0%N [] [] [] [].

Definition with_objs (s : bst) (h : list obj) : bst :=
  Bst h (b_count s) (b_ins s) (b_outs s) (b_decls s) (b_subs s).
Definition bump (s : bst) (k : N) : bst :=
  Bst (b_heap s) (b_count s + k)%N (b_ins s) (b_outs s) (b_decls s) (b_subs s).
Definition add_in (s : bst) (i : nat) : bst :=
  Bst (b_heap s) (b_count s) (b_ins s ++ [i]) (b_outs s) (b_decls s) (b_subs s).
Definition add_out (s : bst) (i : nat) : bst :=
  Bst (b_heap s) (b_count s) (b_ins s) (b_outs s ++ [i]) (b_decls s) (b_subs s).
Definition add_decl (s : bst) (i : nat) : bst :=
  Bst (b_heap s) (b_count s) (b_ins s) (b_outs s) (b_decls s ++ [i]) (b_subs s).
Definition add_sub (s : bst) (n : string) : bst :=
  Bst (b_heap s) (b_count s) (b_ins s) (b_outs s) (b_decls s) (b_subs s ++ [n]).

(** Creation of a Node: the next number, and the id as name unless one is given
    (csdl/lang/node.py:28-33, csdl/lang/variable.py:40-44). *)
Definition alloc (s : bst) (k : okind) (n : option string) (deps : list nat) : bst * nat :=
  let name := match n with Some x => x | None => hex_id (b_count s) end in
  (bump (with_objs s (b_heap s ++ [Obj k (b_count s) name deps [] None false])) 1, length (b_heap s)).

Definition set_outs (outs : list nat) (o : obj) : obj :=
  Obj (ob_kind o) (ob_num o) (ob_name o) (ob_deps o) outs (ob_decomp o) (ob_defined o).
Definition add_outs (v : nat) (o : obj) : obj :=
  Obj (ob_kind o) (ob_num o) (ob_name o) (ob_deps o) (ob_outs o ++ [v]) (ob_decomp o) (ob_defined o).
Definition set_name (n : string) (o : obj) : obj :=
  Obj (ob_kind o) (ob_num o) n (ob_deps o) (ob_outs o) (ob_decomp o) (ob_defined o).
Definition app_deps (l : list nat) (o : obj) : obj :=
  Obj (ob_kind o) (ob_num o) (ob_name o) (ob_deps o ++ l) (ob_outs o) (ob_decomp o) (ob_defined o).
Definition set_decomp (d : nat) (o : obj) : obj :=
  Obj (ob_kind o) (ob_num o) (ob_name o) (ob_deps o) (ob_outs o) (Some d) (ob_defined o).
(** concatenation.py:131-137: [defined = True; dependencies = [op]] *)
Definition set_defined (op : nat) (o : obj) : obj :=
  Obj (ob_kind o) (ob_num o) (ob_name o) [op] (ob_outs o) (ob_decomp o) true.

Definition kind_is (f : obj -> bool) (s : bst) (i : nat) : bool :=
  match nth_error (b_heap s) i with Some o => f o | None => false end.

Definition memn (x : nat) (l : list nat) : bool := existsb (Nat.eqb x) l.

(** [Output(name, op=op)] for each name, in order (csdl/lang/output.py:9-40: the output
    depends on [op]). *)
Fixpoint new_outputs (s : bst) (op : nat) (names : list (option string)) : bst * list nat :=
  match names with
  | [] => (s, [])
  | n :: r => let (s1, v) := alloc s KOut n [op] in
              let (s2, vs) := new_outputs s1 op r in (s2, v :: vs)
  end.

(** An Operation with the given dependencies, and its outputs stored in [outs]
    (csdl/lang/operation.py:16-31; the assignment of [op.outs] as in csdl/lang/variable.py:86-98). *)
Definition new_op (s : bst) (args : list nat) (names : list (option string)) : bst * list nat :=
  let (s1, op) := alloc s (KOp false) None args in
  let (s2, vs) := new_outputs s1 op names in
  (with_objs s2 (upd (b_heap s2) op (set_outs vs)), vs).

(** csdl/lang/standard_operation.py:11-24: a repeated argument is replaced by [arg * 1],
    i.e. by the output of a new operation applied to it (csdl/lang/variable.py:174-199). *)
Fixpoint dedup_args (s : bst) (seen : list nat) (args : list nat) : bst * list nat :=
  match args with
  | [] => (s, [])
  | a :: r =>
    if memn a seen then
      let (s1, vs) := new_op s [a] [None] in
      let a' := match vs with v :: _ => v | [] => a end in
      let (s2, l) := dedup_args s1 (a' :: seen) r in (s2, a' :: l)
    else let (s2, l) := dedup_args s (a :: seen) r in (s2, a :: l)
  end.

Inductive event :=
| ETick (k : N)                                  (* nodes created elsewhere, e.g. in other models *)
| EInput (n : string)                            (* create_input *)
| EDeclare (n : string)                          (* declare_variable *)
| ECreateOut (n : string)                        (* create_output *)
| EApply (args : list nat) (nouts : nat)         (* a standard operation *)
| EImplicit (args : list nat) (outs : list string) (* an implicit operation *)
| ENewCustom                                     (* construction of a CustomOperation *)
| ECustom (op : nat) (args : list nat) (outs : list string) (* csdl.custom *)
| EGetitem (x : nat) (fresh : bool)              (* x[key]; [fresh]: key not seen before *)
| ESetitem (y x : nat)                           (* y[key] = x *)
| EDepend (v op : nat)                           (* v.add_dependency_node(op) *)
| ERegister (n : string) (v : nat)               (* register_output *)
| EAdd (n : option string).                      (* add *)

(** csdl/lang/model.py:430-485 *)
Definition register (s : bst) (n : string) (v : nat) : bst :=
  let names l := map (fun i => match nth_error (b_heap s) i with Some o => ob_name o | None => EmptyString end) l in
  if negb (is_ok (check_banned_chars n)) then s
  else if negb (kind_is is_output s v) then s
  else if memn v (b_outs s) then s
  else if smem n (names (b_outs s)) then s
  else if smem n (names (b_ins s)) then s
  else if smem n (names (b_decls s)) then s
  else add_out (with_objs s (upd (b_heap s) v (set_name n))) v.

(** One event.  An ill-typed call raises before it changes an existing object; the nodes it
    may have created by then are not linked to anything and are covered by [ETick]. *)
Definition bstep (s : bst) (e : event) : bst :=
  match e with
  | ETick k => bump s k
  | EInput n => (* model.py:348-384 *)
    if is_ok (check_banned_chars n) then let (s1, v) := alloc s KIn (Some n) [] in add_in s1 v else s
  | EDeclare n => (* model.py:297-346 *)
    let (s1, v) := alloc s KDecl (Some n) [] in add_decl s1 v
  | ECreateOut n => (* model.py:386-428 *)
    (* when the registration raises, the new object is unreachable *)
    if is_ok (check_banned_chars n) then
      let (s1, v) := alloc s KConcat (Some n) [] in
      let s2 := register s1 n v in
      if memn v (b_outs s2) then s2 else bump s 1
    else s
  | EApply args nouts =>
    if forallb (kind_is is_variable s) args then
      let (s1, l) := dedup_args s [] args in fst (new_op s1 l (repeat None nouts))
    else s
  | EImplicit args outs => (* model.py:1137-1193; csdl/lang/implicit_operation.py *)
    if forallb (kind_is is_variable s) args then fst (new_op s args (map Some outs)) else s
  | ENewCustom => fst (alloc s (KOp true) None [])
  | ECustom op args outs => (* csdl/std/custom.py:8-57 *)
    if kind_is (fun o => match ob_kind o with KOp true => true | _ => false end) s op
       && forallb (kind_is is_variable s) args then
      let s1 := with_objs s (upd (b_heap s) op (app_deps args)) in
      let (s2, vs) := new_outputs s1 op (map Some outs) in
      with_objs s2 (upd (b_heap s2) op (set_outs vs))
    else s
  | EGetitem x fresh => (* variable.py:306-395 *)
    match nth_error (b_heap s) x with
    | Some o =>
      if is_variable o then
        let (s1, d) := match ob_decomp o with
                       | Some d => (s, d)
                       | None => let (s', d) := alloc s (KOp false) None [x] in
                                 (with_objs s' (upd (b_heap s') x (set_decomp d)), d)
                       end in
        if fresh then let (s2, v) := alloc s1 KOut None [d] in
                      with_objs s2 (upd (b_heap s2) d (add_outs v))
        else s1
      else s
    | None => s
    end
  | ESetitem y x => (* concatenation.py:58-137; operations/indexed_passthrough.py *)
    match nth_error (b_heap s) y with
    | Some o =>
      match ob_kind o with
      | KConcat =>
        if kind_is is_variable s x then
          if ob_defined o then
            match ob_deps o with
            | op :: _ => with_objs s (upd (b_heap s) op (app_deps [x]))
            | [] => s
            end
          else let (s1, op) := alloc s (KOp false) None [x] in
               with_objs s1 (upd (upd (b_heap s1) op (set_outs [y])) y (set_defined op))
        else s
      | _ => s
      end
    | None => s
    end
  | EDepend v op => (* variable.py:398-407 *)
    match nth_error (b_heap s) v with
    | Some o =>
      if is_variable o && kind_is is_op s op && match ob_deps o with [] => true | _ => false end
      then with_objs s (upd (b_heap s) v (app_deps [op])) else s
    | None => s
    end
  | ERegister n v => register s n v
  | EAdd on => (* model.py:487-542; subgraph.py:11-31 *)
    match on with
    | None => bump (add_sub s (match subgraph_auto_name (b_count s) with Some x => x | None => EmptyString end)) 1
    | Some n => if is_ok (check_banned_chars n) && negb (smem n (b_subs s)) then bump (add_sub s n) 1 else s
    end
  end.

Definition history (l : list event) : bst := fold_left bstep l bst0.
