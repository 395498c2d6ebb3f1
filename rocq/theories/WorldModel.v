(** Model of a whole program that builds models: several Model objects under construction,
    sharing the node objects of the process.  csdl/lang/model.py. *)
From Verif Require Import PyBase NamesModel PromotionsModel ExprModel UnflatModel.
Local Open Scope list_scope.

(** One Model object: csdl/lang/model.py:49-84 (the fields the compiler passes read; bounds,
    scalers and units of design variables, constraints and objectives are left out, see
    ApiModel). *)
Record wmodel := WM {
  wm_ins : list nat;                              (* inputs *)
  wm_outs : list nat;                             (* registered_outputs *)
  wm_decls : list nat;                            (* declared_variables *)
  wm_subs : list (string * promotes_t * nat);     (* subgraphs: name, promotes, submodel *)
  wm_conns : list (string * string);              (* user_declared_connections *)
  wm_dvs : list string;                           (* keys of design_variables *)
  wm_cons : list string;                          (* keys of constraints *)
  wm_obj : option string                          (* objective['name'] *)
}.
Definition wm0 : wmodel := WM [] [] [] [] [] [] [] None.

(** The process: node objects, the node counter, the Model objects. *)
Record world := World { w_heap : list obj; w_count : N; w_models : list wmodel }.
Definition world0 : world := World [] 0%N [].

(** Names of the subgraphs of a model. *)
Definition sub_names (m : wmodel) : list string := map (fun t => fst (fst t)) (wm_subs m).
Definition name_in (h : list obj) (i : nat) : string := match nth_error h i with Some o => ob_name o | None => EmptyString end.

(** The part of the process a method of model [m] sees, and writing it back. *)
Definition view (w : world) (m : wmodel) : bst :=
  Bst (w_heap w) (w_count w) (wm_ins m) (wm_outs m) (wm_decls m) (sub_names m).
Definition with_lists (s : bst) (m : wmodel) : wmodel :=
  WM (b_ins s) (b_outs s) (b_decls s) (wm_subs m) (wm_conns m) (wm_dvs m) (wm_cons m) (wm_obj m).
Definition put (w : world) (k : nat) (s : bst) : world :=
  World (b_heap s) (b_count s) (upd (w_models w) k (with_lists s)).
Definition on_model (w : world) (k : nat) (f : wmodel -> wmodel) : world :=
  World (w_heap w) (w_count w) (upd (w_models w) k f).

Definition app_sub (t : string * promotes_t * nat) (m : wmodel) : wmodel :=
  WM (wm_ins m) (wm_outs m) (wm_decls m) (wm_subs m ++ [t]) (wm_conns m) (wm_dvs m) (wm_cons m) (wm_obj m).
Definition app_conn (ab : string * string) (m : wmodel) : wmodel :=
  WM (wm_ins m) (wm_outs m) (wm_decls m) (wm_subs m) (wm_conns m ++ [ab]) (wm_dvs m) (wm_cons m) (wm_obj m).
Definition app_dv (n : string) (m : wmodel) : wmodel :=
  WM (wm_ins m) (wm_outs m) (wm_decls m) (wm_subs m) (wm_conns m) (wm_dvs m ++ [n]) (wm_cons m) (wm_obj m).
Definition app_con (n : string) (m : wmodel) : wmodel :=
  WM (wm_ins m) (wm_outs m) (wm_decls m) (wm_subs m) (wm_conns m) (wm_dvs m) (wm_cons m ++ [n]) (wm_obj m).
Definition set_obj (n : string) (m : wmodel) : wmodel :=
  WM (wm_ins m) (wm_outs m) (wm_decls m) (wm_subs m) (wm_conns m) (wm_dvs m) (wm_cons m) (Some n).

Inductive wevent :=
| WNew                                                             (* Model() *)
| WOn (k : nat) (e : event)                                        (* a call on model [k], or an expression in its define *)
| WAdd (k : nat) (n : option string) (pr : promotes_t) (c : nat)   (* model [k].add(model [c], name, promotes) *)
| WConnect (k : nat) (a b : string)
| WDesign (k : nat) (n : string)                                   (* add_design_variable *)
| WConstraint (k : nat) (n : string)                               (* add_constraint with bounds in order *)
| WObjective (k : nat) (n : string).

(** One call; a call that raises leaves the process unchanged (up to node numbers, [ETick]). *)
Definition wstep (w : world) (e : wevent) : world :=
  match e with
  | WNew => World (w_heap w) (w_count w) (w_models w ++ [wm0]) (* model.py:49-84 *)
  | WOn k ev =>
    match nth_error (w_models w) k, ev with
    | _, EAdd _ => w (* [WAdd] *)
    | Some m, _ => put w k (bstep (view w m) ev)
    | None, _ => w
    end
  | WAdd k on pr c => (* model.py:487-542; subgraph.py:11-31 *)
    match nth_error (w_models w) k, nth_error (w_models w) c with
    | Some m, Some _ =>
      match on with
      | None => let n := match subgraph_auto_name (w_count w) with Some x => x | None => EmptyString end in
                World (w_heap w) (w_count w + 1)%N (upd (w_models w) k (app_sub (n, pr, c)))
      | Some n =>
        if is_ok (check_banned_chars n) && negb (smem n (sub_names m))
        then World (w_heap w) (w_count w + 1)%N (upd (w_models w) k (app_sub (n, pr, c)))
        else w
      end
    | _, _ => w
    end
  | WConnect k a b => (* model.py:287-295 *)
    match nth_error (w_models w) k with
    | Some m =>
      if String.eqb a b then w
      else if existsb (fun p => String.eqb a (fst p) && String.eqb b (snd p)) (wm_conns m) then w
      else on_model w k (app_conn (a, b))
    | None => w
    end
  | WDesign k n => (* model.py:227-252 *)
    match nth_error (w_models w) k with
    | Some m =>
      if negb (smem n (map (name_in (w_heap w)) (wm_ins m))) then w
      else if smem n (wm_dvs m) then w else on_model w k (app_dv n)
    | None => w
    end
  | WConstraint k n => (* model.py:254-285 *)
    match nth_error (w_models w) k with
    | Some m => if smem n (wm_cons m) then w else on_model w k (app_con n)
    | None => w
    end
  | WObjective k n => (* model.py:207-225 *)
    match nth_error (w_models w) k with
    | Some m => match wm_obj m with Some _ => w | None => on_model w k (set_obj n) end
    | None => w
    end
  end.

Definition whistory (l : list wevent) : world := fold_left wstep l world0.

(** All values, or none. *)
Fixpoint all_some {A} (l : list (option A)) : option (list A) :=
  match l with
  | [] => Some []
  | None :: _ => None
  | Some x :: r => match all_some r with Some xs => Some (x :: xs) | None => None end
  end.

(** A model with its submodels, as the passes of csdl/rep/graph_representation.py:227-435 meet
    it: the passes that build graphs follow the objects ([umodel]), those about names and
    promotions read names and shapes ([model]).  [shp] gives the shapes of the objects.  [None]:
    the fuel is used up, e.g. because a model contains itself. *)
Fixpoint tree (fuel : nat) (w : world) (shp : nat -> shape) (k : nat) : option (umodel * model) :=
  match fuel with
  | O => None
  | S f =>
    match nth_error (w_models w) k with
    | None => None
    | Some m =>
      match all_some (map (fun t => tree f w shp (snd t)) (wm_subs m)) with
      | None => None
      | Some l =>
        let entry i := (name_in (w_heap w) i, shp i) in
        Some (UM (wm_ins m) (wm_outs m) (wm_decls m) (combine (sub_names m) (map fst l)),
              Mdl (map entry (wm_ins m)) (map entry (wm_outs m)) (map entry (wm_decls m)) (wm_conns m) (wm_dvs m) (wm_cons m) (wm_obj m)
                  (combine (map fst (wm_subs m)) (map snd l)))
      end
    end
  end.
