(** Model of the flattening of the graphs of all models into one:
    csdl/rep/construct_flat_graph.py:107-245 (merge_graphs), with the first assignment of
    namespaces in csdl/rep/graph_representation.py:352-360. *)
From Verif Require Import PyBase NamesModel Digraph ExprModel UnflatModel FlatModel.

(** str.rsplit('.') without limit, i.e. all components. *)
Fixpoint split_dots (s : string) : list string :=
  match s with
  | EmptyString => [EmptyString]
  | String c r =>
    if Ascii.eqb c "."%char then EmptyString :: split_dots r
    else match split_dots r with
         | x :: l => String c x :: l
         | [] => [String c EmptyString]
         end
  end.
(** construct_flat_graph.py:208-209: ['.'.join(promoted_name.rsplit('.')[:-1])] *)
Definition namespace_part (s : string) : string := String.concat "." (removelast (split_dots s)).

(** The attributes namespace and unpromoted_namespace of the variable nodes: a log of
    assignments (node, (namespace, unpromoted_namespace)), the last one counts; a new
    VariableNode has two empty strings (csdl/rep/ir_node.py:10, csdl/rep/variable_node.py:12). *)
Definition nslog := list (irnode * (string * string)).
Definition spaces (log : nslog) (x : irnode) : string * string :=
  fold_left (fun cur e => if irnode_eqb x (fst e) then snd e else cur) log (EmptyString, EmptyString).

(** get_var_nodes (csdl/rep/get_nodes.py:25-33) on the graph of one model. *)
Definition is_var_node (h : list obj) (x : irnode) : bool :=
  match x with
  | NModel _ _ => false
  | NObj _ o => match nth_error h o with Some ob => is_variable ob | None => false end
  end.

Section Flatten.
  Context (h : list obj) (p2u : dict (list string)) (u2p : dict string).

  (** graph_representation.py:353-360: variables of the main model, whose
      unpromoted_namespace is empty. *)
  Definition main_assign (x : irnode) : nslog :=
    match x with
    | NModel _ _ => []
    | NObj _ o =>
      match nth_error h o with
      | None => []
      | Some ob =>
        let name := prepend_namespace EmptyString (ob_name ob) in
        if dmem name p2u then [(x, (EmptyString, EmptyString))]
        else match dget u2p name with
             | Some pn => [(x, (namespace_part pn, EmptyString))]
             | None => []
             end
      end
    end.

  (** construct_flat_graph.py:191-223, for one variable node of a submodel with the
      unpromoted namespace [uns].  [g] is the graph under construction.  The last branch
      reads [pred.op], an AttributeError unless pred is an OperationNode. *)
  Definition child_assign (g : digraph irnode) (uns : string) (log : nslog) (x : irnode) : res nslog :=
    match x with
    | NModel _ _ => Ok log
    | NObj _ o =>
      match nth_error h o with
      | None => Err RuntimeError
      | Some ob =>
        let un := prepend_namespace uns (ob_name ob) in
        if dmem un p2u then Ok (log ++ [(x, (uns, uns))])
        else match dget u2p un with
        | Some pn => Ok (log ++ [(x, (namespace_part pn, uns))])
        | None =>
          if String.eqb (ob_name ob) (hex_id (ob_num ob)) then Ok (log ++ [(x, (fst (spaces log x), uns))])
          else match preds irnode_eqb g x with
          | [] => Err KeyError
          | NModel _ _ :: _ => Err AttributeError
          | NObj _ o' :: _ =>
            match nth_error h o' with
            | None => Err RuntimeError
            | Some ob' => match ob_kind ob' with
                          | KOp true => Ok (log ++ [(x, (fst (spaces log x), uns))])
                          | KOp false => Err KeyError
                          | _ => Err AttributeError
                          end
            end
          end
        end
      end
    end.
  Fixpoint assign_all (g : digraph irnode) (uns : string) (log : nslog) (l : list irnode) : res nslog :=
    match l with
    | [] => Ok log
    | x :: r => do log1 <- child_assign g uns log x; assign_all g uns log1 r
    end.

  (** merge_graphs, 107-245, without the analytics file.  [p] is the path of the model, [ns]
      the argument namespace.  child_model_nodes is a set: its order is that of the list
      here, which is arbitrary in the theorems.  Emptying the graph of the ModelNode at the
      end (241-242) has no effect on the result. *)
  Fixpoint merge_graphs (p : list string) (ns : string) (u : ugraph) (st : digraph irnode * nslog) {struct u}
    : res (digraph irnode * nslog) :=
    match u with
    | UG _ subs =>
      (fix go (l : list (string * ugraph)) (st : digraph irnode * nslog) : res (digraph irnode * nslog) :=
         match l with
         | [] => Ok st
         | (s, su) :: r =>
           let g1 := add_nodes irnode_eqb (add_edges irnode_eqb (fst st) (g_edges (ug_graph su))) (g_nodes (ug_graph su)) in
           let ns1 := prepend_namespace ns s in
           do log1 <- assign_all g1 ns1 (snd st) (filter (is_var_node h) (g_nodes (ug_graph su)));
           do st2 <- merge_graphs (p ++ [s]) ns1 su (g1, log1);
           go r st2
         end) subs (remove_nodes irnode_eqb (fst st) (map (fun sg => NModel p (fst sg)) subs), snd st)
    end.

  (** graph_representation.py:352-371 and construct_flat_graph.py:497-509: the main model. *)
  Definition flatten (u : ugraph) : res (digraph irnode * nslog) :=
    merge_graphs [] EmptyString u
      (ug_graph u, flat_map main_assign (filter (is_var_node h) (g_nodes (ug_graph u)))).

  (** What the later passes read of a node.  Shapes and default flags of the variables are
      given by [shp] and [dflt]; Concatenation is a subclass of Output. *)
  Definition node_attr (shp : nat -> list nat) (dflt : nat -> bool) (log : nslog) (x : irnode) : nattr :=
    match x with
    | NModel _ _ => NOp false
    | NObj _ o =>
      match nth_error h o with
      | None => NOp false
      | Some ob =>
        match ob_kind ob with
        | KOp c => NOp c
        | k => NVar (VA (ob_name ob) (String.eqb (ob_name ob) (hex_id (ob_num ob)))
                        (fst (spaces log x)) (snd (spaces log x)) (shp o)
                        (match k with KIn => CInput | KDecl => CDeclared | _ => COutput end) (dflt o))
        end
      end
    end.
End Flatten.
