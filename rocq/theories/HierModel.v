(** Model of the hierarchy-wide collection passes of GraphRepresentation.__init__
    (csdl/rep/graph_representation.py:235-336): connections, design variables,
    constraints and objective. *)
From Verif Require Import PyBase NamesModel PromotionsModel.

(** csdl/rep/collect_connections.py:5-41: (source, target, namespace) triples, submodels
    first. *)
Fixpoint collect_connections (m : model) (ns : string) {struct m} : list (string * string * string) :=
  match m with
  | Mdl _ _ _ conns _ _ _ subs =>
    (fix go (l : list (string * promotes_t * model)) : list (string * string * string) :=
       match l with
       | [] => []
       | (nm, _, sm) :: r => collect_connections sm (prepend_namespace ns nm) ++ go r
       end) subs
    ++ map (fun ab => (fst ab, snd ab, ns)) conns
  end.

(** The attributes [promoted_to_unpromoted] and [unpromoted_to_promoted] that
    graph_representation.py:236-237 store on every model of the hierarchy. *)
Definition maps : Type := dict (list string) * dict string.
Definition maps_of (m : model) : res maps :=
  do r <- resolve m None; Ok (rp_p2u r, create_reverse_map (rp_p2u r)).

(** csdl/utils/find_promoted_name.py:4-11 *)
Definition find_promoted_name (name : string) (mp : maps) : res string :=
  if dmem name (fst mp) then Ok name
  else match dget (snd mp) name with Some pn => Ok pn | None => Err KeyError end.

Fixpoint mapM {A B} (f : A -> res B) (l : list A) : res (list B) :=
  match l with
  | [] => Ok []
  | x :: r => do y <- f x; do ys <- mapM f r; Ok (y :: ys)
  end.

Definition pair_eqb (p q : string * string) : bool :=
  String.eqb (fst p) (fst q) && String.eqb (snd p) (snd q).
Fixpoint pmem (p : string * string) (l : list (string * string)) : bool :=
  match l with [] => false | q :: r => pair_eqb p q || pmem p r end.

(** [list(dict.fromkeys(l))] *)
Definition fromkeys (l : list (string * string)) : list (string * string) :=
  fold_left (fun acc x => if pmem x acc then acc else acc ++ [x]) l [].

(** csdl/rep/graph_representation.py:238-261: the attribute [connections]. *)
Definition rep_connections (m : model) : res (list (string * string)) :=
  do mp <- maps_of m;
  do l <- mapM (fun abc =>
      do a <- find_promoted_name (prepend_namespace (snd abc) (fst (fst abc))) mp;
      do b <- find_promoted_name (prepend_namespace (snd abc) (snd (fst abc))) mp;
      Ok (a, b)) (collect_connections m "");
  Ok (fromkeys l).

(** csdl/rep/collect_design_variables.py:10-46 and csdl/rep/collect_constraints.py:10-49,
    which differ only in the attribute read ([sel]).  The stored metadata (bounds,
    scaler, units) is represented by the place it comes from: (namespace, name there). *)
Fixpoint collect_opt (sel : model -> list string) (mp : maps) (m : model) (ns : string)
    (acc : dict (string * string)) {struct m} : res (dict (string * string)) :=
  match m with
  | Mdl _ _ _ _ _ _ _ subs =>
    do own <- maps_of m;
    do acc1 <-
      (fix loop (ks : list string) (acc : dict (string * string)) : res (dict (string * string)) :=
         match ks with
         | [] => Ok acc
         | k :: r =>
           do n1 <- find_promoted_name k own;
           do n2 <- find_promoted_name (prepend_namespace ns n1) mp;
           if dmem n2 acc then Err ValueError else loop r (dset acc n2 (ns, k))
         end) (sel m) acc;
    (fix go (l : list (string * promotes_t * model)) (acc : dict (string * string)) : res (dict (string * string)) :=
       match l with
       | [] => Ok acc
       | (nm, _, sm) :: r =>
         do acc' <- collect_opt sel mp sm (prepend_namespace ns nm) acc; go r acc'
       end) subs acc1
  end.

(** csdl/rep/graph_representation.py:307-336 *)
Definition rep_design_variables (m : model) : res (dict (string * string)) :=
  do mp <- maps_of m; collect_opt m_dvs mp m "" [].
Definition rep_constraints (m : model) : res (dict (string * string)) :=
  do mp <- maps_of m; collect_opt m_cons mp m "" [].

(** csdl/rep/find_objective.py:10-46.  The objective dictionary always has the three keys
    name, units and scaler (lang/model.py:221-225), so [len(objective) > 1] means that
    an objective was found.  The name found is written into the dictionary of the model
    (line 35): the updated model is returned. *)
Fixpoint find_objective (mp : maps) (m : model) (ns : string) (obj : option string) {struct m}
  : res (option string * model) :=
  match m with
  | Mdl i o d c v k mo subs =>
    do own <- maps_of m;
    do ob <-
      match mo with
      | None => Ok (obj, mo)
      | Some n =>
        do n1 <- find_promoted_name n own;
        do n2 <- find_promoted_name (prepend_namespace ns n1) mp;
        match obj with Some _ => Err ValueError | None => Ok (Some n2, Some n2) end
      end;
    do t <-
      (fix go (l : list (string * promotes_t * model)) (obj : option string)
         : res (option string * list (string * promotes_t * model)) :=
         match l with
         | [] => Ok (obj, [])
         | (nm, pr, sm) :: r =>
           do x <- find_objective mp sm (prepend_namespace ns nm) obj;
           do y <- go r (fst x);
           Ok (fst y, (nm, pr, snd x) :: snd y)
         end) subs (fst ob);
    Ok (fst t, Mdl i o d c v k (snd ob) (snd t))
  end.

(** csdl/rep/graph_representation.py:318-322 *)
Definition rep_objective (m : model) : res (option string * model) :=
  do mp <- maps_of m; find_objective mp m "" None.
