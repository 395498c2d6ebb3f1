(** C33, C58, C59, C60, C77, C78, C79: implicit operation factories. *)
From Verif Require Import PyBase NamesModel PromotionsModel ExprModel ApiModel ApiSpec2 ImplicitModel ImplicitSpec FactoryModel FactorySpec FactoryProofs.
Local Open Scope string_scope.
Local Open Scope list_scope.

(** C77: a call is accepted exactly when everything that is checked first is in order, every state
    has a fitting value, there is at least one result, and the results have legal, distinct names
    that the parent does not use yet. *)
Theorem c77_accepted_exactly_when : forall m p cs args expose defaults,
  (exists r, snd (apply m p (fold_left do_call cs fac0) args expose defaults) = Ok r) <->
  prepared m cs args expose defaults /\
  exists outs, results m (declarations cs) expose outs /\ outs <> [] /\ registrable p outs.
Proof.
  intros m p cs args expose defaults. fold (run cs). unfold apply.
  pose proof (prepare_spec m cs args expose defaults) as PS. destruct (prepare m (run cs) args expose defaults) as [[mp st]|e].
  - destruct PS as (P & _ & _). assert (G : good (declarations cs)) by (split; [exact (pr_values _ _ _ _ _ P)|exact (states_distinct _ _ _ _ _ (pr_maps _ _ _ _ _ P))]).
    pose proof (return_outputs_spec m p cs expose G) as RO. cbn zeta in RO. destruct (return_outputs m p (run cs) expose) as [p' [outs|e]]; cbn [fst snd bind] in *.
    + split; [|eauto]. intros _. split; [exact P|]. exists outs. tauto.
    + split; [intros [r H]; discriminate|]. intros (_ & outs & H1 & H2 & H3). exfalso. exact (stopped_not_results _ _ _ _ _ _ RO H1 H2 H3).
  - cbn. split; [intros [r H]; discriminate|]. tauto.
Qed.
Print Assumptions c77_accepted_exactly_when.

(** C77: what an accepted call records and returns: the k-th declared state is paired with the
    k-th declared residual; the results are the states in the order of their declaration, then the
    exposed variables; exactly the results are appended to the outputs of the parent. *)
Theorem c77_recorded : forall m p cs args expose defaults p' mp st outs,
  apply m p (fold_left do_call cs fac0) args expose defaults = (p', Ok (mp, st, outs)) ->
  recorded m args (map d_state (declarations cs)) (map d_residual (declarations cs)) expose mp /\
  stored cs m defaults st /\ results m (declarations cs) expose outs /\
  p_inputs p' = p_inputs p /\ p_decls p' = p_decls p /\ p_outs p' = p_outs p ++ outs.
Proof.
  intros m p cs args expose defaults p' mp st outs. fold (run cs). unfold apply.
  pose proof (prepare_spec m cs args expose defaults) as PS. destruct (prepare m (run cs) args expose defaults) as [[mp' st']|e]; [|discriminate].
  destruct PS as (P & Rc & St). assert (G : good (declarations cs)) by (split; [exact (pr_values _ _ _ _ _ P)|exact (states_distinct _ _ _ _ _ (pr_maps _ _ _ _ _ P))]).
  pose proof (return_outputs_spec m p cs expose G) as RO. cbn zeta in RO. destruct (return_outputs m p (run cs) expose) as [p1 [o|e]]; cbn [fst snd bind] in *; [|discriminate].
  intros H. injection H as <- <- <- <-. destruct RO as (Ap & Rs & _ & _). split; [exact Rc|]. split; [exact St|]. split; [exact Rs|]. exact Ap.
Qed.
Print Assumptions c77_recorded.

(** A state that is declared twice makes the operation unusable, and so does a declaration that
    raised TypeError, even when the state is declared properly afterwards. *)
Theorem c77_declared_twice : forall m p cs args expose defaults,
  (~ NoDup (map d_state (declarations cs)) \/ exists d, In d (declarations cs) /\ d_value d = VOther) ->
  exists e, apply m p (fold_left do_call cs fac0) args expose defaults = (p, Err e).
Proof.
  intros m p cs args expose defaults H. fold (run cs). unfold apply.
  pose proof (prepare_spec m cs args expose defaults) as PS. destruct (prepare m (run cs) args expose defaults) as [[mp st]|e]; [|eauto].
  exfalso. destruct PS as (P & _ & _). destruct H as [H|(d & Hd & Hv)].
  - apply H. exact (states_distinct _ _ _ _ _ (pr_maps _ _ _ _ _ P)).
  - exact (pr_values _ _ _ _ _ P d Hd Hv).
Qed.
Print Assumptions c77_declared_twice.

(** A declaration of a state that raises has an effect all the same. *)
Theorem c77_rejected_declaration_refuted : exists f s r v,
  snd (declare_state f s r None v) <> None /\ fst (declare_state f s r None v) <> f /\
  forall m p args expose defaults, exists e,
    apply m p (fst (declare_state (fst (declare_state fac0 s r None v)) s r None (VNum 1))) args expose defaults = (p, Err e).
Proof.
  exists fac0, "x", "r", VOther. split; [discriminate|]. split; [discriminate|]. intros m p args expose defaults.
  apply (c77_declared_twice m p [DeclareState "x" "r" None VOther; DeclareState "x" "r" None (VNum 1)] args expose defaults).
  right. eexists. split; [left; reflexivity|reflexivity].
Qed.
Print Assumptions c77_rejected_declaration_refuted.

(** C78: a rejected call leaves the parent as it was when one of the first checks fails ... *)
Theorem c78_unprepared_no_effect : forall m p cs args expose defaults, ~ prepared m cs args expose defaults ->
  exists e, apply m p (fold_left do_call cs fac0) args expose defaults = (p, Err e).
Proof.
  intros m p cs args expose defaults H. fold (run cs). unfold apply.
  pose proof (prepare_spec m cs args expose defaults) as PS. destruct (prepare m (run cs) args expose defaults) as [[mp st]|e]; [tauto|eauto].
Qed.
Print Assumptions c78_unprepared_no_effect.
(** ... and otherwise has registered the results before the one that could not be made: [stopped]
    gives the results [l] that are left in the parent and the reason for stopping. *)
Theorem c78_rejected_effect_partial : forall m p cs args expose defaults p' e,
  apply m p (fold_left do_call cs fac0) args expose defaults = (p', Err e) ->
  prepared m cs args expose defaults ->
  exists l, p_inputs p' = p_inputs p /\ p_decls p' = p_decls p /\ p_outs p' = p_outs p ++ l /\ registrable p l /\
    ((exists d1 d d2, declarations cs = d1 ++ d :: d2 /\ Forall2 (result_for m) d1 l /\
        ((forall r, ~ result_for m d r) \/ ~ name_ok (d_state d) \/ ~ free p (d_state d) \/ In (d_state d) (map fst l))) \/
     (exists a l1 n s l2, Forall2 (result_for m) (declarations cs) a /\ exposed_results m expose = l1 ++ (n, s) :: l2 /\ l = a ++ l1 /\
        (~ name_ok n \/ ~ free p n \/ In n (map fst l))) \/
     (declarations cs = [] /\ exposed_results m expose = [] /\ l = [])).
Proof.
  intros m p cs args expose defaults p' e. fold (run cs). unfold apply. intros H P.
  pose proof (prepare_spec m cs args expose defaults) as PS. destruct (prepare m (run cs) args expose defaults) as [[mp st]|e']; [|contradiction].
  assert (G : good (declarations cs)) by (split; [exact (pr_values _ _ _ _ _ P)|exact (states_distinct _ _ _ _ _ (pr_maps _ _ _ _ _ P))]).
  pose proof (return_outputs_spec m p cs expose G) as RO. cbn zeta in RO. destruct (return_outputs m p (run cs) expose) as [p1 [o|e1]]; cbn [fst snd bind] in *; [discriminate|].
  injection H as <- <-. destruct RO as (l & (A1 & A2 & A3) & Rg & D). exists l. repeat (split; [assumption|]). exact D.
Qed.
Print Assumptions c78_rejected_effect_partial.

(** Two states x and y with residuals rx and ry of a parameter a. *)
Definition two : imodel := IModel
  [ Obj KDecl 0 "x" [] [] None false; Obj KDecl 1 "y" [] [] None false; Obj KDecl 2 "a" [] [] None false;
    Obj (KOp false) 3 "_0003" [0; 2] [4] None false; Obj KOut 4 "rx" [3] [] None false;
    Obj (KOp false) 5 "_0005" [1; 0] [6] None false; Obj KOut 6 "ry" [5] [] None false ]
  (fun _ => [1]) [] [0; 1; 2] [4; 6].
Definition both : list call := [DeclareState "x" "rx" None (VNum 1); SetNonlinear NeedsLinear; SetLinear true; DeclareState "y" "ry" None (VList (Arr [3] [1; 2; 3]%Z))].
(** The parent has an input named y: the call is rejected, but x has become an output. *)
Theorem c78_rejected_effect_refuted : exists m p cs args expose defaults e,
  apply m p (fold_left do_call cs fac0) args expose defaults = (Parent ["a"; "y"] [] [("x", [1])], Err e) /\ p = Parent ["a"; "y"] [] [].
Proof. exists two, (Parent ["a"; "y"] [] []), both, [("a", [1])], [], [], ValueError. split; vm_compute; reflexivity. Qed.
Print Assumptions c78_rejected_effect_refuted.
Example factory_example : exists mp st, apply two (Parent ["a"] [] []) (fold_left do_call both fac0) [("a", [1])] ["ry"] [("x", DScalar)] =
  (Parent ["a"] [] [("x", [1]); ("y", [3]); ("ry", [1])], Ok (mp, st, [("x", [1]); ("y", [3]); ("ry", [1])])) /\
  map fst (out_res mp) = ["x"; "y"] /\ dget (out_in mp) "y" = Some [1; 0] /\ st = Solved [] NeedsLinear true.
Proof.
  let t := eval vm_compute in (apply two (Parent ["a"] [] []) (fold_left do_call both fac0) [("a", [1])] ["ry"] [("x", DScalar)]) in
  match t with (_, Ok (?mp, ?st, _)) => exists mp, st end. split; [vm_compute; reflexivity|]. repeat split.
Qed.

(** C79: a bracketed search takes neither default values nor solvers: what the user passes for
    them is ignored without an error. *)
Theorem c79_brackets_ignore_settings : forall m p cs args expose defaults k b,
  (exists d, In d (declarations cs) /\ d_bracket d <> None) ->
  apply m p (fold_left do_call (cs ++ [SetNonlinear k; SetLinear b]) fac0) args expose defaults =
  apply m p (fold_left do_call cs fac0) args expose [].
Proof.
  intros m p cs args expose defaults k b (d & Hd & Hb). rewrite fold_left_app. cbn [fold_left do_call fc_states fc_residuals fc_brackets fc_nonlinear fc_linear].
  fold (run cs). assert (N : fc_brackets (run cs) <> []).
  { clear - Hd Hb. revert d Hd Hb. induction cs as [|c cs IH] using rev_ind; intros d Hd Hb; [destruct Hd|].
    rewrite declarations_app, in_app_iff in Hd. rewrite run_snoc. destruct c as [s r b v|k|k]; cbn [do_call fc_brackets].
    - unfold declare_state. assert (E : forall (q : option (list ImplicitModel.bound)), (q = None -> fc_brackets (run cs) <> []) -> match q with Some b0 => dset (fc_brackets (run cs)) s b0 | None => fc_brackets (run cs) end <> []).
      { intros [q|] H; [|auto]. destruct (fc_brackets (run cs)) as [|[x y] t]; cbn; [discriminate|]. destruct (String.eqb s x); discriminate. }
      assert (B : match b with Some b0 => dset (fc_brackets (run cs)) s b0 | None => fc_brackets (run cs) end <> []).
      { apply E. intros ->. destruct Hd as [Hd|[<-|[]]]; [eauto|cbn in Hb; congruence]. }
      destruct (check_default_val_type v); exact B.
    - destruct Hd as [Hd|[]]. eauto.
    - destruct Hd as [Hd|[]]. eauto. }
  unfold apply, prepare, return_outputs. cbn [fc_states fc_residuals fc_brackets fc_nonlinear fc_linear].
  destruct (fc_brackets (run cs)); [congruence|reflexivity].
Qed.
Print Assumptions c79_brackets_ignore_settings.
(** C79: a Newton or Broyden solver without linear solver is rejected before anything happens. *)
Theorem c79_needs_linear_solver : forall m p cs args expose defaults,
  (forall d, In d (declarations cs) -> d_bracket d = None) -> last_nonlinear cs NoSolver = NeedsLinear -> last_linear cs false = false ->
  exists e, apply m p (fold_left do_call cs fac0) args expose defaults = (p, Err e).
Proof.
  intros m p cs args expose defaults Hb Hk Hl. apply c78_unprepared_no_effect. intros [_ _ _ P]. destruct (P Hb) as [_ S]. unfold solvers_fit in S. rewrite Hk, Hl in S. specialize (S eq_refl). discriminate.
Qed.
Print Assumptions c79_needs_linear_solver.
(** Default values passed along with brackets are not stored. *)
Theorem c79_defaults_stored_refuted : exists m p cs args defaults p' mp st outs,
  apply m p (fold_left do_call cs fac0) args [] defaults = (p', Ok (mp, st, outs)) /\ defaults = [("x", DArray [1])] /\
  (forall ds k l, st <> Solved ds k l).
Proof.
  exists (IModel [ Obj KDecl 0 "x" [] [] None false; Obj (KOp false) 1 "_0001" [0] [2] None false; Obj KOut 2 "rx" [1] [] None false ] (fun _ => [1]) [] [0] [2]),
    (Parent [] [] []), [DeclareState "x" "rx" (Some [ImplicitModel.BNumber; ImplicitModel.BNumber]) (VNum 1)], [], [("x", DArray [1])].
  match goal with |- context [apply ?m ?p ?f ?a ?e ?d] => let t := eval vm_compute in (apply m p f a e d) in match t with (?p', Ok (?mp, ?st, ?o)) => exists p', mp, st, o end end.
  split; [vm_compute; reflexivity|]. split; [reflexivity|]. discriminate.
Qed.
Print Assumptions c79_defaults_stored_refuted.

(** C60, exactly: brackets are accepted if and only if every state has one, no other name has one,
    and each consists of two bounds of the same shape; otherwise ValueError is raised. *)
Theorem c60_brackets_exactly : forall states bs,
  (brackets_ok states bs = Ok tt \/ brackets_ok states bs = Err ValueError) /\
  (brackets_ok states bs = Ok tt <->
   (forall s, In s states -> In s (map fst bs)) /\
   forall k v, In (k, v) bs -> In k states /\ exists a b, v = [a; b] /\ bound_shape a = bound_shape b).
Proof.
  intros states bs. pose proof (brackets_iff states bs) as H. destruct (brackets_ok states bs) as [[]|e].
  - split; [auto|]. split; auto.
  - destruct H as [-> H]. split; [auto|]. split; [discriminate|]. intros K. exfalso. exact (H K).
Qed.
Print Assumptions c60_brackets_exactly.
(** C59, what happens to default values: they are accepted if and only if each is for a state and
    is a number, or an array with the shape of the first registered output (!) with the name of the
    state; only the arrays are stored. *)
Theorem c59_defaults_partial : forall m states defaults,
  ((exists d, store_defaults m states defaults [] = Ok d) <-> defaults_fit m states defaults) /\
  forall d, store_defaults m states defaults [] = Ok d -> NoDup (map fst defaults) ->
    forall n s, dget d n = Some s <-> In (n, DArray s) defaults.
Proof.
  intros m states defaults. pose proof (store_defaults_spec m states defaults []) as H. destruct (store_defaults m states defaults []) as [d|e].
  - destruct H as [H1 H2]. split; [split; eauto|]. intros d' E N n s. injection E as <-. rewrite (H2 n s N). cbn. intuition discriminate.
  - split; [split; [intros [d E]; discriminate|contradiction]|]. discriminate.
Qed.
Print Assumptions c59_defaults_partial.
Example c60_example : brackets_ok ["x"; "y"] [("y", [BNumber; BNumber]); ("x", [BShape [2]; BShape [2]])] = Ok tt /\
  brackets_ok ["x"; "y"] [("y", [BNumber; BNumber])] = Err ValueError /\
  store_defaults two ["x"; "ry"] [("x", DScalar); ("ry", DArray [1])] [] = Ok [("ry", [1])].
Proof. repeat split. Qed.

(** C33: the states come first, in the order of their declaration; then the exposed variables, in
    the order in which the internal model registered them (which is the requested order only if
    that was the same).  All become outputs of the parent. *)
Theorem c33_returned_partial : forall m p cs args expose defaults p' mp st outs,
  apply m p (fold_left do_call cs fac0) args expose defaults = (p', Ok (mp, st, outs)) ->
  map fst outs = map d_state (declarations cs) ++ filter (fun n => smem n expose) (map (name_of (im_heap m)) (im_regs m)) /\
  p_outs p' = p_outs p ++ outs /\
  (expose = filter (fun n => smem n expose) (map (name_of (im_heap m)) (im_regs m)) -> map fst outs = map d_state (declarations cs) ++ expose).
Proof.
  intros m p cs args expose defaults p' mp st outs H. apply c77_recorded in H as (_ & _ & (a & F & ->) & _ & _ & Hp).
  assert (E : map fst (a ++ exposed_results m expose) = map d_state (declarations cs) ++ filter (fun n => smem n expose) (map (name_of (im_heap m)) (im_regs m))).
  { rewrite map_app, (Forall2_names _ _ _ F). f_equal. unfold exposed_results. rewrite map_map. cbn.
    induction (im_regs m) as [|v r IH]; cbn; [reflexivity|]. destruct (smem _ expose); cbn; now rewrite IH. }
  split; [exact E|]. split; [exact Hp|]. intros Ex. rewrite E. now rewrite <- Ex.
Qed.
Print Assumptions c33_returned_partial.
(** A model: residual r = f(x, a), and e1 = g(a), e2 = g(a). *)
Definition im2 : imodel := IModel
  [ Obj KDecl 0 "x" [] [] None false; Obj KDecl 1 "a" [] [] None false;
    Obj (KOp false) 2 "_0002" [0; 1] [3] None false; Obj KOut 3 "r" [2] [] None false;
    Obj (KOp false) 4 "_0004" [1] [5] None false; Obj KOut 5 "e1" [4] [] None false;
    Obj (KOp false) 6 "_0006" [1] [7] None false; Obj KOut 7 "e2" [6] [] None false ] (fun _ => [1]) [] [0; 1] [3; 5; 7].
(** C33, the part that fails: the order of the expose argument is ignored. *)
Theorem c33_expose_order_refuted : exists m p cs args expose p' mp st outs,
  apply m p (fold_left do_call cs fac0) args expose [] = (p', Ok (mp, st, outs)) /\ NoDup expose /\
  expose = ["e2"; "e1"] /\ map fst outs = ["x"; "e1"; "e2"].
Proof.
  exists im2, (Parent [] [] []), [DeclareState "x" "r" None (VNum 1)], [("a", [1])], ["e2"; "e1"].
  match goal with |- context [apply ?m ?p ?f ?a ?e ?d] => let t := eval vm_compute in (apply m p f a e d) in match t with (?p', Ok (?mp, ?st, ?o)) => exists p', mp, st, o end end.
  split; [vm_compute; reflexivity|]. split; [|split; reflexivity]. repeat constructor; cbn; intuition discriminate.
Qed.
Print Assumptions c33_expose_order_refuted.

(** C58: the variable returned for a state has the shape of the (first) declared variable with
    that name, when the value given to declare_state is a number or that shape is not (1,). *)
Theorem c58_state_shape_partial : forall m p cs args expose defaults p' mp st outs,
  apply m p (fold_left do_call cs fac0) args expose defaults = (p', Ok (mp, st, outs)) ->
  forall k d, nth_error (declarations cs) k = Some d -> exists x sh, nth_error outs k = Some (d_state d, sh) /\
    first_named m (im_decls m) (d_state d) x /\
    ((exists z, d_value d = VNum z) \/ im_shape m x <> [1] -> sh = im_shape m x).
Proof.
  intros m p cs args expose defaults p' mp st outs H k d Hk. apply c77_recorded in H as (_ & _ & (a & F & ->) & _).
  assert (K : exists r, nth_error a k = Some r /\ result_for m d r).
  { clear - F Hk. revert k Hk. induction F as [|d0 r0 ds a H0 F IH]; intros [|k] Hk; cbn in *; try discriminate; [injection Hk as <-; eauto|eauto]. }
  destruct K as ([n sh] & E & Hn & x & Hx & Hf & Hs). cbn in Hn, Hs. subst n. exists x, sh. split; [rewrite nth_error_app1; [exact E|apply nth_error_Some; congruence]|].
  split; [exact Hx|]. intros [[z Hz]|Hz].
  - rewrite Hz in Hs. exact Hs.
  - destruct (shape_eqb (im_shape m x) [1]) eqn:E1; [apply shape_eqb_spec in E1; contradiction|]. destruct (d_value d); exact Hs.
Qed.
Print Assumptions c58_state_shape_partial.
(** C58, the part that fails: a state of shape (1,) with a value of shape (3,). *)
Theorem c58_state_shape_refuted : exists m p cs args expose p' mp st outs,
  apply m p (fold_left do_call cs fac0) args expose [] = (p', Ok (mp, st, outs)) /\ first_named m (im_decls m) "x" 0 /\ im_shape m 0 = [1] /\ outs = [("x", [3])].
Proof.
  exists im2, (Parent [] [] []), [DeclareState "x" "r" None (VArr (full [3] 1))], [("a", [1])], [].
  match goal with |- context [apply ?m ?p ?f ?a ?e ?d] => let t := eval vm_compute in (apply m p f a e d) in match t with (?p', Ok (?mp, ?st, ?o)) => exists p', mp, st, o end end.
  split; [vm_compute; reflexivity|]. split; [|split; reflexivity].
  exists [], [1]. split; [reflexivity|]. split; [reflexivity|]. intros w [].
Qed.
Print Assumptions c58_state_shape_refuted.
