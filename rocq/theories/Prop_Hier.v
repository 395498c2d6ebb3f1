(** Property theorems C18, C43, C48, C49. *)
From Verif Require Import PyBase NamesModel PromotionsModel PromotionsSpec PromotionsProofs PromotionsProofs3
  PromotionsExample HierModel HierSpec HierProofs HierProofs2.
Local Open Scope string_scope.
Local Open Scope list_scope.

(** C18: the connections collected are those declared anywhere in the hierarchy with the
    namespace of the declaring model, submodels before their parents. *)
Theorem c18_all_connections_collected :
  forall m, well_named m -> collect_connections m "" =
    flat_map (fun pm => map (fun ab => (fst ab, snd ab, ns_of (fst pm))) (m_conns (snd pm))) (postorder m).
Proof. exact collected. Qed.
Print Assumptions c18_all_connections_collected.
Theorem c18_postorder_all_models : forall m p m', In (p, m') (postorder m) <-> sub_at m p m'.
Proof. exact postorder_spec. Qed.
Print Assumptions c18_postorder_all_models.
Theorem c18_postorder_children_first :
  forall m p m' t m'', sub_at m p m' -> sub_at m' t m'' -> t <> [] -> before (p ++ t, m'') (p, m') (postorder m).
Proof. exact children_first. Qed.
Print Assumptions c18_postorder_children_first.

(** C18: after translation exactly the promoted names of declared connections, each once. *)
Theorem c18_connections_resolved :
  forall m l, well_named m -> rep_connections m = Ok l ->
  NoDup l /\
  (forall a' b', In (a', b') l <-> exists p a b, declared_conn m p a b /\
     resolves_to m (dotted p a) a' /\ resolves_to m (dotted p b) b').
Proof. exact connections_resolved. Qed.
Print Assumptions c18_connections_resolved.
(** C18: given promotions that resolve, the connections are accepted exactly when both ends of each
    one name a variable. *)
Theorem c18_accepted :
  forall m mp, well_named m -> maps_of m = Ok mp ->
  ((exists l, rep_connections m = Ok l) <->
   forall p a b, declared_conn m p a b -> (exists a', resolves_to m (dotted p a) a') /\ (exists b', resolves_to m (dotted p b) b')).
Proof. exact connections_accepted. Qed.
Print Assumptions c18_accepted.
(** C18: removal of duplicates keeps the order of first occurrences. *)
Theorem c18_first_occurrence_order :
  forall l, NoDup (fromkeys l) /\ (forall x, In x (fromkeys l) <-> In x l) /\
  (forall x y l1 l2, l = l1 ++ y :: l2 -> ~ In y l1 -> before x y (fromkeys l) -> In x l1).
Proof. exact fromkeys_spec. Qed.
Print Assumptions c18_first_occurrence_order.

Definition exConnB := leaf [] [("w", [2])] [("y", [2])].
Definition exConn := Mdl [("x", [2])] [] [("z", [2])] [("x", "A.B.y"); ("A.B.w", "z")] ["x"] ["A.B.w"] None
  [("A", Some [], Mdl [] [("u", [2])] [] [("B.w", "B.y")] [] ["u"] (Some "u") [("B", Some ["y"], exConnB)])].
Example c18_nonvacuous : well_named exConn /\
  collect_connections exConn "" = [("B.w", "B.y", "A"); ("x", "A.B.y", ""); ("A.B.w", "z", "")] /\
  rep_connections exConn = Ok [("A.B.w", "A.y"); ("x", "A.y"); ("A.B.w", "z")].
Proof. split; [apply well_namedb_sound; vm_compute; reflexivity|]. split; vm_compute; reflexivity. Qed.

(** C43: design variables and constraints ([sel] selects either) are recorded once each,
    under the promoted name of the variable, and none is lost. *)
Theorem c43_recorded_once :
  forall sel m mp d, well_named m -> maps_of m = Ok mp -> collect_opt sel mp m "" [] = Ok d ->
  NoDup (dkeys d) /\ length d = list_sum (map (fun pm => length (sel (snd pm))) (preorder m)) /\
  (forall p m' k, sub_at m p m' -> In k (sel m') ->
     exists n1 n2, resolves_to m' k n1 /\ resolves_to m (dotted p n1) n2 /\ dget d n2 = Some (ns_of p, k)).
Proof. exact collect_opt_spec. Qed.
Print Assumptions c43_recorded_once.
Theorem c43_promoted_names :
  forall sel m mp d, well_named m -> maps_of m = Ok mp -> collect_opt sel mp m "" [] = Ok d ->
  forall p m' k, sub_at m p m' -> In k (sel m') -> (exists kd s, In (k, s) (vars kd m')) ->
  exists q, promoted_ns m p k q /\ dget d (dotted q k) = Some (ns_of p, k).
Proof. exact collect_opt_local. Qed.
Print Assumptions c43_promoted_names.
(** C43: the same for the two dictionaries the representation ends up with. *)
Theorem c43_design_variables : forall m d, well_named m -> rep_design_variables m = Ok d ->
  NoDup (dkeys d) /\ length d = list_sum (map (fun pm => length (m_dvs (snd pm))) (preorder m)) /\
  (forall p m' k, sub_at m p m' -> In k (m_dvs m') ->
     exists n1 n2, resolves_to m' k n1 /\ resolves_to m (dotted p n1) n2 /\ dget d n2 = Some (ns_of p, k)).
Proof.
  intros m d W E. unfold rep_design_variables in E. destruct (maps_of m) as [mp|] eqn:M; [|discriminate].
  exact (collect_opt_spec m_dvs m mp d W M E).
Qed.
Print Assumptions c43_design_variables.
Theorem c43_constraints : forall m d, well_named m -> rep_constraints m = Ok d ->
  NoDup (dkeys d) /\ length d = list_sum (map (fun pm => length (m_cons (snd pm))) (preorder m)) /\
  (forall p m' k, sub_at m p m' -> In k (m_cons m') ->
     exists n1 n2, resolves_to m' k n1 /\ resolves_to m (dotted p n1) n2 /\ dget d n2 = Some (ns_of p, k)).
Proof.
  intros m d W E. unfold rep_constraints in E. destruct (maps_of m) as [mp|] eqn:M; [|discriminate].
  exact (collect_opt_spec m_cons m mp d W M E).
Qed.
Print Assumptions c43_constraints.
Theorem c43_preorder_all_models : forall m p m', In (p, m') (preorder m) <-> sub_at m p m'.
Proof. exact preorder_spec. Qed.
Print Assumptions c43_preorder_all_models.
(** C43: at most one model of the hierarchy declares an objective, and that one is found. *)
Theorem c43_objective_unique :
  forall m o m2, well_named m -> rep_objective m = Ok (o, m2) ->
  match filter (fun pm => match m_obj (snd pm) with Some _ => true | None => false end) (preorder m) with
  | [] => o = None
  | [(p, m')] => exists k n1 n2, m_obj m' = Some k /\ resolves_to m' k n1 /\ resolves_to m (dotted p n1) n2 /\ o = Some n2
  | _ => False
  end.
Proof. exact objective_unique. Qed.
Print Assumptions c43_objective_unique.
(** C43: acceptance.  Design variables (constraints) are accepted exactly when each of them names
    a variable of its model and no variable is listed twice; an objective is accepted when it is the
    only one and names a variable. *)
Theorem c43_accepted :
  forall sel m mp, well_named m -> maps_of m = Ok mp ->
  ((exists d, collect_opt sel mp m "" [] = Ok d) <->
   exists ns, Forall2 (fun t n2 => exists n1, resolves_to (snd (fst t)) (snd t) n1 /\ resolves_to m (dotted (fst (fst t)) n1) n2)
                (opts_declared sel m) ns /\ NoDup ns).
Proof. exact opt_accepted. Qed.
Print Assumptions c43_accepted.
Theorem c43_objective_accepted :
  forall m mp, well_named m -> maps_of m = Ok mp ->
  match filter (fun pm => match m_obj (snd pm) with Some _ => true | None => false end) (preorder m) with
  | [] => True
  | [(p, m')] => exists k n1 n2, m_obj m' = Some k /\ resolves_to m' k n1 /\ resolves_to m (dotted p n1) n2
  | _ => False
  end -> exists r, rep_objective m = Ok r.
Proof. exact objective_accepted. Qed.
Print Assumptions c43_objective_accepted.
Example c43_accepted_nonvacuous : (exists mp, maps_of exConn = Ok mp) /\
  map (fun t => (fst (fst t), snd t)) (opts_declared m_cons exConn) = [([], "A.B.w"); (["A"], "u")].
Proof. split; [eexists; vm_compute; reflexivity|vm_compute; reflexivity]. Qed.
Example c43_nonvacuous :
  rep_design_variables exConn = Ok [("x", ("", "x"))] /\
  rep_constraints exConn = Ok [("A.B.w", ("", "A.B.w")); ("A.u", ("A", "u"))] /\
  (exists m2, rep_objective exConn = Ok (Some "A.u", m2)).
Proof. split; [vm_compute; reflexivity|]. split; [vm_compute; reflexivity|]. eexists. vm_compute. reflexivity. Qed.

(** C48: a name is accepted exactly when, prefixed by the namespace of the model that uses
    it, it is the unpromoted name of a variable or its promoted name in the main model. *)
Theorem c48_accepted_names_partial :
  forall m mp full pn, well_named m -> maps_of m = Ok mp ->
    (find_promoted_name full mp = Ok pn <-> resolves_to m full pn).
Proof. exact find_promoted_iff. Qed.
Print Assumptions c48_accepted_names_partial.
(** C48 as stated fails: [y] of A.B is known as [y] in A, but a connection or constraint
    declared in A under that name is rejected because y is promoted further. *)
Definition exVisA conns csts := Mdl [] [] [("z", [1])] conns [] csts None [("B", None, leaf [] [("y", [1])] [])].
Definition exVis conns csts := Mdl [] [] [] [] [] [] None [("A", None, exVisA conns csts)].
Theorem c48_visible_names_refuted :
  forall conns csts, conns = [("y", "z")] -> csts = ["y"] ->
    well_named (exVis conns csts) /\ (exists r, resolve (exVis conns csts) None = Ok r) /\
    promoted_ns (exVisA conns csts) ["B"] "y" [] /\ has_var (exVisA conns csts) ["B"] KOutput "y" [1] /\
    rep_connections (exVis conns csts) = Err KeyError /\
    rep_constraints (exVis conns csts) = Err KeyError.
Proof.
  intros conns csts -> ->. split; [apply well_namedb_sound; vm_compute; reflexivity|]. split; [eexists; vm_compute; reflexivity|].
  split; [eapply pn_lifted; [left; reflexivity|constructor|exact I]|].
  split; [eexists; split; [econstructor; [left; reflexivity|constructor]|left; reflexivity]|].
  split; vm_compute; reflexivity.
Qed.
Print Assumptions c48_visible_names_refuted.

(** C49: a second representation of the same model object sees the same objective when the
    main model declares it ... *)
Theorem c49_objective_twice_partial :
  forall m o m2, well_named m -> rep_objective m = Ok (o, m2) -> m_obj m <> None -> rep_objective m2 = Ok (o, m2).
Proof. exact objective_twice. Qed.
Print Assumptions c49_objective_twice_partial.
Example c49_nonvacuous : exists m2, rep_objective (Mdl [] [] [] [] [] [] (Some "A.y") [("A", None, leaf [] [("y", [1])] [])]) = Ok (Some "y", m2).
Proof. eexists. vm_compute. reflexivity. Qed.
(** ... but raises when a submodel with a namespace of its own does: its name was overwritten. *)
Theorem c49_objective_twice_refuted :
  exists m o m2, well_named m /\ rep_objective m = Ok (o, m2) /\ rep_objective m2 = Err KeyError.
Proof.
  exists exConn. eexists. eexists. split; [apply well_namedb_sound; vm_compute; reflexivity|].
  split; vm_compute; reflexivity.
Qed.
Print Assumptions c49_objective_twice_refuted.
