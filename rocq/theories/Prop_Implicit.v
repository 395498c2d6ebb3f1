(** Property theorems C31, C32, C59, C60 (C33 and C58: Prop_Factory): implicit operations. *)
From Verif Require Import PyBase NamesModel PromotionsModel ExprModel ApiModel ImplicitModel ImplicitSpec ImplicitProofs ImplicitProofs2.
Local Open Scope string_scope.
Local Open Scope list_scope.

(** C31: an implicit operation is accepted exactly under the documented conditions, and
    raises ValueError otherwise. *)
Theorem c31_accepted_exactly_when : forall m args states residuals expose,
  (acceptable m args states residuals expose <-> exists mp, generate_maps m args states residuals expose = Ok mp) /\
  (~ acceptable m args states residuals expose -> generate_maps m args states residuals expose = Err ValueError).
Proof.
  intros m args states residuals expose. split; [split|].
  - apply generate_maps_accept.
  - intros [mp H]. exact (proj1 (generate_maps_Ok _ _ _ _ _ _ H)).
  - intros Hn. destruct (generate_maps m args states residuals expose) as [mp|e] eqn:G.
    + exfalso. apply Hn. exact (proj1 (generate_maps_Ok _ _ _ _ _ _ G)).
    + now rewrite (generate_maps_err _ _ _ _ _ _ G).
Qed.
Print Assumptions c31_accepted_exactly_when.
(** C31: what is recorded pairs states with residuals and lists for each residual exactly
    the arguments and states it depends on. *)
Theorem c31_recorded_maps : forall m args states residuals expose mp,
  generate_maps m args states residuals expose = Ok mp -> recorded m args states residuals expose mp.
Proof. intros m args states residuals expose mp H. exact (proj2 (generate_maps_Ok _ _ _ _ _ _ H)). Qed.
Print Assumptions c31_recorded_maps.

(** C32: the terminals of a variable are exactly the variables without dependencies that it
    uses, paths through variables with its own name excepted; for every finite object graph. *)
Theorem c32_terminals_exact : forall h r, exists ts, collect_terminals h r = Some ts /\ NoDup ts /\
  forall v, In v ts <-> inputs_of h r v.
Proof. exact terminals_exact. Qed.
Print Assumptions c32_terminals_exact.

(** ** A model: residual r = f(x, a), and e1 = g(a), e2 = g(a) *)
Definition imh : list obj :=
  [ Obj KDecl 0 "x" [] [] None false; Obj KDecl 1 "a" [] [] None false;
    Obj (KOp false) 2 "_0002" [0; 1] [3] None false; Obj KOut 3 "r" [2] [] None false;
    Obj (KOp false) 4 "_0004" [1] [5] None false; Obj KOut 5 "e1" [4] [] None false;
    Obj (KOp false) 6 "_0006" [1] [7] None false; Obj KOut 7 "e2" [6] [] None false ].
Definition im : imodel := IModel imh (fun _ => [1]) [] [0; 1] [3; 5; 7].

Example c31_nonvacuous : acceptable im [("a", [1])] ["x"] ["r"] ["e1"; "e2"] /\ ~ acceptable im [("a", [1])] ["x"] ["e1"] [].
Proof.
  split.
  - apply (proj1 (c31_accepted_exactly_when im _ _ _ _)). eexists. vm_compute. reflexivity.
  - intros H. apply (proj1 (c31_accepted_exactly_when im _ _ _ _)) in H as [mp H]. vm_compute in H. discriminate.
Qed.
(** A graph with sharing: r uses x and y, and y uses x. *)
Example c32_nonvacuous : collect_terminals
  [ Obj KDecl 0 "x" [] [] None false; Obj (KOp false) 1 "_0001" [0] [2] None false; Obj KOut 2 "y" [1] [] None false;
    Obj (KOp false) 3 "_0003" [2; 0] [4] None false; Obj KOut 4 "r" [3] [] None false ] 4 = Some [0].
Proof. reflexivity. Qed.

(** C59 fails: a number given as default for a state is dropped, an array raises IndexError,
    in every model in which no registered output has the name of the state. *)
Theorem c59_defaults_refuted : forall m states s, In s states ->
  (forall v, In v (im_regs m) -> name_of (im_heap m) v <> s) ->
  store_defaults m states [(s, DScalar)] [] = Ok [] /\
  forall sh, store_defaults m states [(s, DArray sh)] [] = Err IndexError.
Proof.
  intros m states s Hs Hn. apply smem_spec in Hs. cbn. rewrite Hs. cbn. split; [reflexivity|]. intros sh.
  destruct (find _ _) as [v|] eqn:F; [|reflexivity]. exfalso. apply find_some in F as [Fi Fe]. apply String.eqb_eq in Fe. exact (Hn v Fi Fe).
Qed.
Print Assumptions c59_defaults_refuted.
Example c59_nonvacuous : exists mp, generate_maps im [("a", [1])] ["x"] ["r"] [] = Ok mp /\
  (forall v, In v (im_regs im) -> name_of (im_heap im) v <> "x").
Proof. eexists. split; [vm_compute; reflexivity|]. intros v [<-|[<-|[<-|[]]]]; discriminate. Qed.

(** C60: a bracketed search is accepted only with two bounds of equal shape for every state. *)
Theorem c60_brackets_partial : forall states brackets, brackets_ok states brackets = Ok tt ->
  (forall s, In s states -> In s (map fst brackets)) /\
  forall k v, In (k, v) brackets -> In k states /\ exists a b, v = [a; b] /\ bound_shape a = bound_shape b.
Proof. exact brackets_complete. Qed.
Print Assumptions c60_brackets_partial.
(** C60, the part that fails: the shape of the state does not matter ([brackets_ok] does not
    see it): bounds of shape (3,) are accepted for the state x of shape (1,). *)
Theorem c60_bracket_shape_refuted : exists mp, generate_maps im [("a", [1])] ["x"] ["r"] [] = Ok mp /\ im_shape im 0 = [1] /\
  brackets_ok ["x"] [("x", [BShape [3]; BShape [3]])] = Ok tt.
Proof. eexists. repeat split; vm_compute; reflexivity. Qed.
Print Assumptions c60_bracket_shape_refuted.
