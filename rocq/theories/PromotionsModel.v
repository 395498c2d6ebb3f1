(** Model of promotion resolution (csdl/rep/resolve_promotions.py) on model trees. *)
From Verif Require Import PyBase NamesModel.

Definition shape := list nat.
(** [promotes] argument of [Model.add]: [None] or a list of names. *)
Definition promotes_t := option (list string).

(** A model after [define] ran: the fields of csdl/lang/model.py:52-98 read by
    the compiler passes.  A model object added in two places is represented by
    two equal subtrees. *)
Inductive model := Mdl {
  m_inputs    : list (string * shape);      (* Model.inputs *)
  m_outputs   : list (string * shape);      (* Model.registered_outputs *)
  m_declared  : list (string * shape);      (* Model.declared_variables *)
  m_conns     : list (string * string);     (* Model.user_declared_connections *)
  m_dvs       : list string;                (* keys of Model.design_variables *)
  m_cons      : list string;                (* keys of Model.constraints *)
  m_obj       : option string;              (* Model.objective['name'] *)
  m_subs      : list (string * promotes_t * model) (* Model.subgraphs *)
}.

(** csdl/utils/check_duplicate_keys.py:7-21 *)
Definition check_duplicate_keys {V} (a b : dict V) : res unit :=
  if existsb (fun k => dmem k a) (dkeys b) then Err KeyError else Ok tt.

(** csdl/utils/find_keys_with_matching_values.py:9-41 with the error of
    csdl/utils/find_names_with_matching_shapes.py:7-20; the returned set of
    names is not used by [resolve_promotions] and is not modelled, nor is the
    warning for different shapes of equal size. *)
Fixpoint find_names_with_matching_shapes (a b : dict shape) : res unit :=
  match a with
  | [] => Ok tt
  | (k, v1) :: r =>
    match dget b k with
    | None => find_names_with_matching_shapes r b
    | Some v2 =>
      if shape_eqb v1 v2 then find_names_with_matching_shapes r b
      else if Nat.eqb (prod v1) (prod v2) then find_names_with_matching_shapes r b
      else Err ValueError
    end
  end.

(** Result of [resolve_promotions] on one model: the two shape dictionaries it
    returns and the [promoted_to_unpromoted] attribute it stores. *)
Record rp := RP {
  rp_src : dict shape;
  rp_tgt : dict shape;
  rp_p2u : dict (list string)
}.

(** What the loops over subgraphs keep about one subgraph. *)
Record child := Child { c_name : string; c_prom : promotes_t; c_p2u : dict (list string) }.

(** csdl/rep/resolve_promotions.py:69-120, first loop over the subgraphs;
    [f] is the recursive call.  The name-to-variable dictionaries (c, d) parallel
    the shape dictionaries and are not modelled. *)
Definition resolve_children (f : model -> promotes_t -> res rp) :=
  fix go (l : list (string * promotes_t * model)) (accs acct : dict shape)
    : res (dict shape * dict shape * list child) :=
    match l with
    | [] => Ok (accs, acct, [])
    | (nm, pr, sm) :: r =>
      do c <- f sm pr;
      do _ <- check_duplicate_keys (rp_src c) accs;
      do _ <- find_names_with_matching_shapes (rp_tgt c) acct;
      do t <- go r (dupdate accs (rp_src c)) (dupdate acct (rp_tgt c));
      Ok (fst (fst t), snd (fst t), Child nm pr (rp_p2u c) :: snd t)
    end.

(** csdl/rep/resolve_promotions.py:334-345: merging one dictionary of
    name -> set of unpromoted names into [promoted_to_unpromoted]. *)
Definition merge_names (p2u items : dict (list string)) : dict (list string) :=
  fold_left (fun acc kv =>
    match dget acc (fst kv) with
    | Some old => dset acc (fst kv) (sunion old (snd kv))
    | None => dset acc (fst kv) (snd kv)
    end) items p2u.

(** csdl/rep/resolve_promotions.py:241-345, body of the second loop.
    [ns] is the list of names in [local_namespace_source_shapes.keys() |
    local_namespace_target_shapes.keys()]. *)
Definition merge_child (ns : list string) (p2u : dict (list string)) (c : child)
  : res (dict (list string)) :=
  let s := c_name c in
  (* 254-258 *)
  let pfc := map (fun kv => (fst kv, map (prepend_namespace s) (snd kv))) (c_p2u c) in
  (* 266-271 *)
  let npfc := dict_of (map (fun kv => (prepend_namespace s (fst kv),
                                       map (prepend_namespace s) (snd kv))) (c_p2u c)) in
  (* 273-276 *)
  raise_if (negb (Nat.eqb (length npfc) (length pfc))) ValueError
  (do pn <-
     match c_prom c with
     | None => (* 278-290 *)
       let keep := filter (fun kv => negb (has_dot (fst kv))) pfc in
       Ok (keep, fold_left (fun d kv => ddel d (prepend_namespace s (fst kv))) keep npfc)
     | Some [] => Ok ([], npfc) (* 292-296 *)
     | Some l => (* 297-328 *)
       if existsb (fun k => negb (smem k ns)) l then Err KeyError
       else
         let keep := filter (fun kv => smem (fst kv) l) pfc in
         Ok (keep, fold_left (fun d kv => ddel d (prepend_namespace s (fst kv))) keep npfc)
     end;
   (* 330-332 *)
   raise_if (negb (Nat.eqb (length (fst pn) + length (snd pn)) (length pfc))) ValueError
   (* 334-345 *)
   (Ok (merge_names (merge_names p2u (fst pn)) (snd pn)))).

Fixpoint merge_children (ns : list string) (p2u : dict (list string)) (cs : list child)
  : res (dict (list string)) :=
  match cs with
  | [] => Ok p2u
  | c :: r => do p <- merge_child ns p2u c; merge_children ns p r
  end.

(** csdl/rep/collect_locally_defined_variables.py:12-30 *)
Definition local_sources (m : model) : dict shape := dict_of (m_inputs m ++ m_outputs m).
Definition local_targets (m : model) : dict shape := dict_of (m_declared m).

Definition is_nil {A} (l : list A) : bool := match l with [] => true | _ => false end.

(** csdl/rep/resolve_promotions.py:360-369 *)
Definition promotable (pr : promotes_t) (d : dict shape) : dict shape :=
  match pr with None => d | Some l => filter (fun kv => smem (fst kv) l) d end.

(** csdl/rep/resolve_promotions.py:58-386.  The attributes [promoted_source_shapes]
    and [promoted_target_shapes] (351-356) are never read by the live code and are
    not modelled. *)
Fixpoint resolve (m : model) (pr : promotes_t) {struct m} : res rp :=
  match m with
  | Mdl ins outs decl conns dvs csts obj subs =>
    do ch <- resolve_children resolve subs [] [];
    let csrc := fst (fst ch) in
    let ctgt := snd (fst ch) in
    let lsrc := dict_of (ins ++ outs) in
    let ltgt := dict_of decl in
    (* 141-145 *)
    do _ <- (if is_nil csrc then Ok tt else check_duplicate_keys lsrc csrc);
    (* 152-156 *)
    do _ <- (if is_nil ctgt then Ok tt else find_names_with_matching_shapes ctgt ltgt);
    (* 160-167 *)
    do _ <- find_names_with_matching_shapes lsrc ctgt;
    do _ <- find_names_with_matching_shapes csrc ltgt;
    (* 172-181 *)
    let nsrc := dupdate lsrc csrc in
    let ntgt := dupdate ltgt ctgt in
    (* 209-212 *)
    let p0 := fold_left (fun d k => dset d k [k]) (dkeys ltgt)
                (fold_left (fun d k => dset d k [k]) (dkeys lsrc) []) in
    do p <- merge_children (dkeys nsrc ++ dkeys ntgt) p0 (snd ch);
    Ok (RP (promotable pr nsrc) (promotable pr ntgt) p)
  end.

(** csdl/rep/graph_representation.py:107-112 *)
Definition create_reverse_map (d : dict (list string)) : dict string :=
  fold_left (fun d2 kv => fold_left (fun d3 kk => dset d3 kk (fst kv)) (snd kv) d2) d [].
