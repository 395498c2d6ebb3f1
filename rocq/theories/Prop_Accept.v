(** Property theorem C88: which hierarchies compile. *)
From Verif Require Import PyBase NamesModel NamesProofs PromotionsModel PromotionsSpec PromotionsProofs3 HierModel HierSpec HierProofs Digraph TopoModel TopoSpec
  FlatModel FlatSpec ExprModel ExprSpec UnflatModel UnflatSpec Prop_Unflat FlattenModel FlattenSpec FlattenProofs CompileModel CompileSpec CompileProofs Prop_Compile
  AcceptSpec AcceptProofs2 AcceptProofs3 AcceptProofs4.
Local Open Scope string_scope.
Local Open Scope list_scope.

(** C88: a hierarchy that satisfies the documented rules compiles: no promoted name has two
    sources, shapes of variables with one promoted name agree in size, promoted names exist,
    connections lead from inputs or outputs to used declared variables of the same size and
    to different ones, design variables, constraints and the objective name variables, and
    data does not flow in circles. *)
Theorem c88_accepted : forall h shp dflt um m,
  well_formed h um m shp -> acceptable h shp um m -> exists c, compile h shp dflt um m = Ok c.
Proof. exact acceptable_compiles. Qed.
Print Assumptions c88_accepted.

(** C88: every rule except agreement of sizes under promotion and existence of promoted
    names (C16, C17) is enforced. *)
Theorem c88_enforced : forall h shp dflt um m c,
  well_formed h um m shp -> inputs_not_targets h um m -> compile h shp dflt um m = Ok c ->
  unique_sources m /\ (forall p a b, declared_conn m p a b -> connection_ok h shp um m p a b) /\ targets_distinct m /\
  options_ok m m_dvs /\ options_ok m m_cons /\ objective_ok m /\ exists rank, ranking h um m rank.
Proof. intros h shp dflt um m c WF TI H. exact (compiled_acceptable h shp dflt um m c WF TI (compile_compiles _ _ _ _ _ _ H)). Qed.
Print Assumptions c88_enforced.

(** C88: with the two rules that are not enforced given, a model compiles exactly when the
    remaining ones hold. *)
Theorem c88_exactly : forall h shp dflt um m,
  well_formed h um m shp -> inputs_not_targets h um m -> sizes_agree m -> valid_promotes m ->
  ((exists c, compile h shp dflt um m = Ok c) <-> acceptable h shp um m).
Proof.
  intros h shp dflt um m WF TI SA VP. split; [|apply c88_accepted, WF]. intros (c & CO).
  destruct (c88_enforced h shp dflt um m c WF TI CO) as (U & C & T & D & K & O & R). split; assumption.
Qed.
Print Assumptions c88_exactly.

(** ** The hierarchy of Prop_Compile is acceptable *)
Lemma cx_promoted p x q : promoted_ns cxm p x q -> p = [] \/ p = ["A"] -> q = [].
Proof.
  intros H [->| ->]; [inversion H; subst; reflexivity|]. inversion H as [|? ? ? ? ? ? Hs Hq L|? ? ? ? ? ? q' Hs Hq L]; subst; [reflexivity|].
  exfalso. cbn in Hs. destruct Hs as [E|[]]. injection E as <- <-. inversion Hq; subst. destruct L as [L|L]; [congruence|]. apply L. exact I.
Qed.
Lemma cx_called p k o pn : called cxh cxum cxm p k o pn ->
  In (p, k, o, pn) [([], KInput, 0, "x"); (["A"], KDeclared, 1, "x"); (["A"], KOutput, 3, "y"); ([], KDeclared, 4, "y"); ([], KOutput, 6, "z");
                    ([], KDeclared, 7, "w"); ([], KOutput, 9, "v")].
Proof.
  intros (x & q & (Nm & ins & outs & decls & subs & A & Hi) & Hq & ->). pose proof A as A0. apply cx_um_at in A0.
  assert (E : q = []) by (eapply cx_promoted; [exact Hq|destruct A0 as [[-> _]|[-> _]]; auto]). subst q. apply cx_named in Nm.
  destruct A0 as [[-> E]|[-> E]]; injection E as -> -> -> ->; destruct k; cbn in Hi; cases_in; subst; cbn in Nm; cases_in; try discriminate; injection Nm as <-; cbn; auto 10.
Qed.
Lemma cx_call p k o x : member cxh cxum p k o x -> p = [] \/ p = ["A"] -> called cxh cxum cxm p k o x.
Proof.
  intros Hm D. exists x, []. split; [exact Hm|]. split; [|reflexivity]. destruct D as [->| ->]; [constructor|].
  eapply pn_lifted; [left; reflexivity|constructor|exact I].
Qed.
Lemma cx_w : called cxh cxum cxm [] KDeclared 7 "w".
Proof. apply cx_call; [|auto]. split; [eexists; split; reflexivity|]. exists [0], [6; 9], [4; 7], [("A", UM [] [3] [1] [])]. split; [constructor|cbn; auto]. Qed.
Lemma cx_z : called cxh cxum cxm [] KOutput 6 "z".
Proof. apply cx_call; [|auto]. split; [eexists; split; reflexivity|]. exists [0], [6; 9], [4; 7], [("A", UM [] [3] [1] [])]. split; [constructor|cbn; auto]. Qed.
Lemma cx_occ_w : occurs cxh cxum [] 7.
Proof.
  exists [0], [6; 9], [4; 7], [("A", UM [] [3] [1] [])]. split; [constructor|]. right. apply (needed_dep _ _ 8).
  - apply (needed_dep _ _ 9); [apply needed_leaf; cbn; auto|]. eexists. split; [reflexivity|cbn; auto].
  - eexists. split; [reflexivity|cbn; auto].
Qed.
Lemma cx_sub p m' : sub_at cxm p m' -> (p = [] /\ m' = cxm) \/ (p = ["A"] /\ m' = Mdl [] [("y", [2])] [("x", [2])] [] [] [] None []).
Proof.
  intros A. inversion A as [|? nm pr sm p' ? Hs A']; subst; [auto|]. cbn in Hs. destruct Hs as [E|[]]. injection E as <- <- <-.
  inversion A' as [|? ? ? ? ? ? Hs' ?]; subst; [auto|destruct Hs'].
Qed.
Lemma cx_conn p a b : declared_conn cxm p a b -> p = [] /\ a = "z" /\ b = "w".
Proof.
  intros (m' & A & Hc). apply cx_sub in A. destruct A as [[-> ->]|[-> ->]]; cbn in Hc; [|destruct Hc]. destruct Hc as [E|[]]. injection E as <- <-. auto.
Qed.
Lemma cx_resolves x k s : has_var cxm [] k x s -> resolves_to cxm (dotted [] x) x.
Proof. intros Hv. exists [], k, x, s, []. split; [exact Hv|]. split; [constructor|]. split; [reflexivity|left; reflexivity]. Qed.
Definition cxrank (p : list string) (o : nat) : nat := nth o [0; 0; 1; 2; 2; 3; 4; 4; 5; 6] 0.
Lemma cx_fun : forall f a b, resolves_to cxm f a -> resolves_to cxm f b -> a = b.
Proof.
  assert (MO : exists mp, maps_of cxm = Ok mp) by (eexists; vm_compute; reflexivity). destruct MO as (mp & MO). intros f a b.
  apply (resolves_fun _ mp); [apply well_namedb_sound; vm_compute; reflexivity|exact MO].
Qed.
Lemma cx_has k x s p : has_var cxm p k x s -> s = [2] /\ In (p, k, x) [([], KInput, "x"); ([], KOutput, "z"); ([], KOutput, "v"); ([], KDeclared, "y"); ([], KDeclared, "w");
  (["A"], KOutput, "y"); (["A"], KDeclared, "x")].
Proof.
  intros (m' & A & Hv). apply cx_sub in A. destruct A as [[-> ->]|[-> ->]]; destruct k; cbn in Hv; cases_in; injection Hv as <- <-; cbn; auto 10.
Qed.
Lemma cx_ranking : ranking cxh cxum cxm cxrank.
Proof.
  split.
  - intros p o d _ O Hr. apply cx_op in O. apply cx_reads in Hr. cbn in O, Hr. cases_in; subst; try discriminate; injection Hr as <-; cbn; lia.
  - intros p o v _ Hw. apply cx_writes in Hw. cbn in Hw. cases_in; injection Hw as <- <-; cbn; lia.
  - intros p k o p' k' o' pn _ _ Hc Hc'. apply cx_called in Hc, Hc'. cbn in Hc, Hc'. cases_in; injection Hc as <- <- <- <-; injection Hc' as <- <- <-; try discriminate; reflexivity.
  - intros p0 a b pa pb p k o p' k' o' Hd Ra Rb _ _ Hc Hc'. apply cx_conn in Hd. destruct Hd as (-> & -> & ->).
    assert (Ez : pa = "z") by (eapply cx_fun; [exact Ra|apply (cx_resolves "z" KOutput [2]); exists cxm; split; [constructor|cbn; auto]]).
    assert (Ew : pb = "w") by (eapply cx_fun; [exact Rb|apply (cx_resolves "w" KDeclared [2]); exists cxm; split; [constructor|cbn; auto]]).
    subst. apply cx_called in Hc, Hc'. cbn in Hc, Hc'. cases_in; try discriminate. injection Hc as <- <- <-. injection Hc' as <- <- <-. reflexivity.
Qed.
Lemma cx_acceptable : acceptable cxh cxshp cxum cxm.
Proof.
  split.
  - intros p1 p2 x s1 s2 q (k1 & S1 & V1) (k2 & S2 & V2) _ _. apply cx_has in V1, V2. destruct V1 as [_ V1], V2 as [_ V2]. cbn in V1, V2. unfold is_source in *.
    cases_in; injection V1 as <- <- <-; injection V2 as <- <-; try congruence; discriminate.
  - intros p1 p2 k1 k2 x s1 s2 q V1 V2 _ _. apply cx_has in V1, V2. destruct V1 as [-> _], V2 as [-> _]. reflexivity.
  - intros p m' nm l sm x A Hs Hx. apply cx_sub in A. destruct A as [[-> ->]|[-> ->]]; cbn in Hs; cases_in; discriminate.
  - intros p a b Hd. apply cx_conn in Hd. destruct Hd as (-> & -> & ->). exists "z", "w".
    split; [apply (cx_resolves "z" KOutput [2]); exists cxm; split; [constructor|cbn; auto]|].
    split; [apply (cx_resolves "w" KDeclared [2]); exists cxm; split; [constructor|cbn; auto]|]. split.
    + intros p' k' o' Hc. apply cx_called in Hc. cbn in Hc. cases_in; try discriminate. injection Hc as <- <- <-. reflexivity.
    + exists [], KOutput, 6, [], 7. split; [exact cx_z|]. split; [discriminate|]. split; [exact cx_occ_w|]. split; [exact cx_w|reflexivity].
  - exists ["w"]. split; [|repeat constructor; cbn; tauto]. vm_compute conns_declared. constructor; [|constructor]. cbn [fst snd].
    apply (cx_resolves "w" KDeclared [2]). exists cxm. split; [constructor|cbn; auto].
  - exists []. split; [vm_compute opts_declared; constructor|constructor].
  - exists []. split; [vm_compute opts_declared; constructor|constructor].
  - exact I.
  - exists cxrank. exact cx_ranking.
Qed.
Example c88_nonvacuous : well_formed cxh cxum cxm cxshp /\ inputs_not_targets cxh cxum cxm /\ acceptable cxh cxshp cxum cxm.
Proof. split; [exact cx_well_formed|]. split; [exact cx_not_target|exact cx_acceptable]. Qed.

(** The same hierarchy with the connection turned into a loop, v to w, is rejected; so is one
    from z to the declared variable y, whose promoted name already has a source. *)
Definition cxm_with (cs : list (string * string)) : model := Mdl [("x", [2])] [("z", [2]); ("v", [2])] [("y", [2]); ("w", [2])] cs [] [] None
  [("A", None, Mdl [] [("y", [2])] [("x", [2])] [] [] [] None [])].
Example c88_loop : compile cxh cxshp (fun _ => true) cxum (cxm_with [("v", "w")]) = Err KeyError.
Proof. vm_compute. reflexivity. Qed.
Example c88_source : exists e, compile cxh cxshp (fun _ => true) cxum (cxm_with [("z", "y")]) = Err e.
Proof. eexists. vm_compute. reflexivity. Qed.
