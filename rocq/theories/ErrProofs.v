(** Which exceptions the compilation of a model made through the API can raise. *)
From Verif Require Import PyBase NamesModel NamesProofs PromotionsModel PromotionsSpec PromotionsProofs PromotionsProofs2 PromotionsProofs3 HierModel HierSpec HierProofs HierProofs2 Digraph
  FlatModel FlatSpec FlatProofs ConnProofs ConnProofs2 ExprModel UnflatModel UnflatSpec UnflatProofs UnflatProofs2 FlattenModel FlattenSpec FlattenProofs
  FlattenProofs2 FlattenProofs3 FlattenProofs4 TopoModel TopoSpec TopoProofs CompileModel CompileSpec ExecProofs CompileProofs AcceptSpec AcceptProofs AcceptProofs2 AcceptProofs3
  IterModel IterSpec IterProofs.
From Coq Require Import Permutation.

(** The computation gives a result, or raises KeyError or ValueError. *)
Definition tame {A} (r : res A) : Prop := forall e, r = Err e -> e = KeyError \/ e = ValueError.

Lemma tame_ok A (a : A) : tame (Ok a). Proof. intros e H. discriminate. Qed.
Lemma tame_key A : tame (@Err A KeyError). Proof. intros e H. injection H as <-. auto. Qed.
Lemma tame_value A : tame (@Err A ValueError). Proof. intros e H. injection H as <-. auto. Qed.
Lemma tame_bind A B (r : res A) (f : A -> res B) : tame r -> (forall a, r = Ok a -> tame (f a)) -> tame (do x <- r; f x).
Proof. intros T F. destruct r as [a|e]; cbn [bind]; [apply F; reflexivity|]. intros e' H. injection H as <-. apply T. reflexivity. Qed.
Lemma tame_raise A b e (r : res A) : e = KeyError \/ e = ValueError -> tame r -> tame (raise_if b e r).
Proof. intros E T. destruct b; cbn [raise_if]; [|exact T]. intros e' H. injection H as <-. exact E. Qed.
#[local] Hint Resolve tame_ok tame_key tame_value tame_bind tame_raise : tame.

Lemma check_tame V (a b : dict V) : tame (check_duplicate_keys a b).
Proof. unfold check_duplicate_keys. destruct (existsb _ _); auto with tame. Qed.
Lemma find_names_tame b : forall a, tame (find_names_with_matching_shapes a b).
Proof.
  induction a as [|[k v] a IH]; cbn [find_names_with_matching_shapes]; [auto with tame|]. destruct (dget b k) as [v2|]; [|exact IH].
  destruct (shape_eqb v v2); [exact IH|]. destruct (Nat.eqb _ _); [exact IH|auto with tame].
Qed.
Lemma merge_child_tame ns p2u c : tame (merge_child ns p2u c).
Proof.
  unfold merge_child. cbv zeta. apply tame_raise; [auto|]. apply tame_bind.
  - destruct (c_prom c) as [[|a l]|]; auto with tame. destruct (existsb _ _); auto with tame.
  - intros a _. apply tame_raise; auto with tame.
Qed.
Lemma merge_children_tame ns : forall cs p2u, tame (merge_children ns p2u cs).
Proof. induction cs as [|c cs IH]; intros p2u; cbn [merge_children]; [auto with tame|]. apply tame_bind; [apply merge_child_tame|auto]. Qed.
Lemma resolve_tame : forall m pr, tame (resolve m pr).
Proof.
  intros m. induction m as [m IH] using model_ind'; destruct m as [ins outs decl conns dvs csts obj subs]; cbn [m_subs] in IH. intros pr. cbn [resolve].
  apply tame_bind.
  - assert (G : forall l, (forall nm pr sm, In (nm, pr, sm) l -> forall pr0, tame (resolve sm pr0)) -> forall a b, tame (resolve_children resolve l a b)).
    { intros l FL. induction l as [|[[nm p] sm] l IHl]; intros a b; cbn [resolve_children]; [auto with tame|].
      apply tame_bind; [eapply FL; left; reflexivity|]. intros c _. apply tame_bind; [apply check_tame|]. intros _ _. apply tame_bind; [apply find_names_tame|].
      intros _ _. apply tame_bind; [apply IHl; intros; eapply FL; right; eassumption|]. auto with tame. }
    apply G. exact IH.
  - intros ch _. apply tame_bind; [destruct (is_nil _); [auto with tame|apply check_tame]|]. intros _ _.
    apply tame_bind; [destruct (is_nil _); [auto with tame|apply find_names_tame]|]. intros _ _.
    apply tame_bind; [apply find_names_tame|]. intros _ _. apply tame_bind; [apply find_names_tame|]. intros _ _.
    apply tame_bind; [apply merge_children_tame|]. auto with tame.
Qed.
Lemma maps_tame m : tame (maps_of m).
Proof. unfold maps_of. apply tame_bind; [apply resolve_tame|auto with tame]. Qed.
Lemma find_promoted_tame n mp : tame (find_promoted_name n mp).
Proof. unfold find_promoted_name. destruct (dmem _ _); [auto with tame|]. destruct (dget _ _); auto with tame. Qed.
Lemma mapM_tame A B (f : A -> res B) : (forall a, tame (f a)) -> forall l, tame (mapM f l).
Proof. intros F l. induction l as [|a l IH]; cbn [mapM]; [auto with tame|]. apply tame_bind; [apply F|]. intros b _. apply tame_bind; [exact IH|auto with tame]. Qed.
Lemma connections_tame m : tame (rep_connections m).
Proof.
  unfold rep_connections. apply tame_bind; [apply maps_tame|]. intros mp _. apply tame_bind; [|auto with tame]. apply mapM_tame. intros abc.
  apply tame_bind; [apply find_promoted_tame|]. intros a _. apply tame_bind; [apply find_promoted_tame|auto with tame].
Qed.
Lemma collect_opt_tame sel mp : forall m ns acc, tame (collect_opt sel mp m ns acc).
Proof.
  intros m. induction m as [m IH] using model_ind'; destruct m as [ins outs decl conns dvs csts obj subs]; cbn [m_subs] in IH. intros ns acc. cbn [collect_opt].
  apply tame_bind; [apply maps_tame|]. intros own _. apply tame_bind.
  - generalize (sel (Mdl ins outs decl conns dvs csts obj subs)). intros ks. revert acc. induction ks as [|k ks IHk]; intros acc; [auto with tame|].
    apply tame_bind; [apply find_promoted_tame|]. intros n1 _. apply tame_bind; [apply find_promoted_tame|]. intros n2 _.
    destruct (dmem n2 acc); [auto with tame|apply IHk].
  - intros acc1 _. revert acc1. induction subs as [|[[nm p] sm] l IHl]; intros acc1; [auto with tame|].
    apply tame_bind; [eapply IH; left; reflexivity|]. intros a _. apply IHl. intros; eapply IH; right; eassumption.
Qed.
Lemma find_objective_tame mp : forall m ns obj, tame (find_objective mp m ns obj).
Proof.
  intros m. induction m as [m IH] using model_ind'; destruct m as [ins outs decl conns dvs csts ob subs]; cbn [m_subs] in IH. intros ns obj. cbn [find_objective].
  apply tame_bind; [apply maps_tame|]. intros own _. apply tame_bind.
  - destruct ob as [n|]; [|auto with tame]. apply tame_bind; [apply find_promoted_tame|]. intros n1 _. apply tame_bind; [apply find_promoted_tame|]. intros n2 _.
    destruct obj; auto with tame.
  - intros x _. apply tame_bind; [|auto with tame]. generalize (fst x). clear x. induction subs as [|[[nm p] sm] l IHl]; intros o; [auto with tame|].
    apply tame_bind; [eapply IH; left; reflexivity|]. intros a _. apply tame_bind; [apply IHl; intros; eapply IH; right; eassumption|auto with tame].
Qed.

Section Passes.
  Context {A : Type} (eqb : A -> A -> bool) (attr : A -> nattr).
  Lemma contract_tame g u v : tame (contract eqb g u v).
  Proof. unfold contract. repeat match goal with |- tame (if ?b then _ else _) => destruct b | |- tame (let _ := _ in _) => cbv zeta end; auto with tame. Qed.
  Lemma find_unique_tame (p2n u2n : dict A) n ns : tame (find_unique_node p2n u2n n ns).
  Proof. unfold find_unique_node. destruct (dget p2n _); [auto with tame|]. destruct (dget u2n _); auto with tame. Qed.
  Lemma connect_loop_tame p2n u2n : forall cs st, tame (connect_loop eqb attr p2n u2n cs st).
  Proof.
    induction cs as [|[[s t] ns] cs IH]; intros st; cbn [connect_loop]; [auto with tame|]. apply tame_bind; [|auto]. unfold connect_step.
    apply tame_bind; [apply find_unique_tame|]. intros sn _. apply tame_bind; [apply find_unique_tame|]. intros tn _.
    repeat (apply tame_raise; [auto|]). apply tame_bind; [apply contract_tame|auto with tame].
  Qed.
  Lemma sort_tame g : tame (flat_sorted_nodes eqb g).
  Proof.
    unfold flat_sorted_nodes. assert (T : forall x, tame (sort_nodes eqb x)) by (intros x; unfold sort_nodes; destruct (topological_sort _ _); auto with tame).
    repeat match goal with |- tame (if ?b then _ else _) => destruct b end; auto with tame.
  Qed.
End Passes.

(** The two passes before the connections succeed on every model made through the API, and
    so does the construction of the two maps of names of the third. *)
Lemma passes_tame it h shp dflt um m r u : lawful it -> well_formed h um m shp -> resolve m None = Ok r -> construct_all h [] um = Ok u ->
  let p2u := visit_sets (it_names it) (rp_p2u r) in
  exists g log g1, flatten h p2u (create_reverse_map p2u) (visit_models it [] u) = Ok (g, log) /\
    merge_auto_in it (node_attr h shp dflt log) g = Ok g1 /\
    forall cs, tame (merge_connections irnode_eqb (node_attr h shp dflt log) g1 cs p2u (create_reverse_map p2u)).
Proof.
  intros L WF R U p2u. pose proof (f_named WF) as W. pose proof (@visited _ h um _ L U) as B.
  destruct (@end_to_end h shp dflt um m r _ (f_hierarchy WF) W R (f_inputs WF) B (f_uses_own WF) (f_chosen WF) (f_alternates WF) (f_op_names WF))
    as (g & log & g0 & _ & F & _).
  pose proof (visit_same (it_names it) (rp_p2u r) (proj1 L)) as SS. pose proof (reverse_same SS) as SL.
  assert (Wg : wf g) by apply (@flatten_spec _ _ _ _ _ _ (built_ug_ok (f_inputs WF) B) F).
  pose proof (@flat_no_var_var h shp dflt um m r _ (f_hierarchy WF) W (f_inputs WF) B g log F (f_alternates WF) (f_op_names WF)) as NV.
  pose proof (visit_same (it_nodes it) (redundant_targets irnode_eqb (node_attr h shp dflt log)
    (filter (is_tgt (node_attr h shp dflt log)) (filter (is_var (node_attr h shp dflt log)) (g_nodes g)))
    (unique_targets (node_attr h shp dflt log) (filter (is_tgt (node_attr h shp dflt log)) (filter (is_var (node_attr h shp dflt log)) (g_nodes g))))) (proj2 (proj2 L))) as SR.
  destruct (@merge_auto_any_ok _ irnode_eqb irnode_eqb_spec (node_attr h shp dflt log) g Wg NV _ SR) as (g1 & M & _).
  exists g, log, g1. split; [rewrite <- (@flatten_same h _ _ _ _ (fun k => eq_sym (same_dmem k SS)) SL); exact F|].
  split; [unfold merge_auto_in; cbv zeta; exact M|]. intros cs.
  pose (c0 := Compiled [] [] [] [] None [] log empty_graph [] [] [] []).
  destruct (@rep1_exists h shp dflt um m c0 WF r _ g g1 R B F (ex_intro _ _ (conj SR M))) as (rep1 & H1). pose proof H1 as (W1 & _).
  pose proof (@consistent h shp dflt um m c0 WF r _ g g1 R B F rep1 H1) as C.
  destruct (@scan_accepts irnode irnode_eqb irnode_eqb_spec _ g1 _ _ W1 C) as (mp & SM).
  assert (T : tame (merge_connections irnode_eqb (node_attr h shp dflt log) g1 cs (rp_p2u r) (create_reverse_map (rp_p2u r)))).
  { unfold merge_connections. cbn [c0 c_log] in SM. rewrite SM. cbn [bind]. apply tame_bind; [apply connect_loop_tame|auto with tame]. }
  intros e E. apply T. pose proof (@merge_connections_same _ irnode_eqb (node_attr h shp dflt log) g1 cs _ _ _ _ SS SL) as X.
  fold p2u in X. rewrite E in X. match type of X with same_res _ ?a _ => destruct a end; cbn [same_res] in X; [contradiction|]. congruence.
Qed.

Theorem compile_tame it h shp dflt um m : lawful it -> well_formed h um m shp -> tame (compile_in it h shp dflt um m).
Proof.
  intros L WF. unfold compile_in. apply tame_bind; [apply resolve_tame|]. intros r R. cbv zeta.
  apply tame_bind; [apply connections_tame|]. intros cs _. apply tame_bind; [unfold rep_design_variables; apply tame_bind; [apply maps_tame|intros; apply collect_opt_tame]|].
  intros dvs _. apply tame_bind; [unfold rep_objective; apply tame_bind; [apply maps_tame|intros; apply find_objective_tame]|].
  intros ob _. apply tame_bind; [unfold rep_constraints; apply tame_bind; [apply maps_tame|intros; apply collect_opt_tame]|]. intros csts _.
  destruct (@construct_all_ok h (f_no_dangling WF) um (well_formed_buildable _ _ _ _ WF) []) as (u & U). rewrite U. cbn [bind].
  destruct (@passes_tame it h shp dflt um m r u L WF R U) as (g & log & g1 & F & M & T). cbv zeta in T. rewrite F. cbn [bind fst snd]. rewrite M. cbn [bind].
  apply tame_bind; [apply T|]. intros [[[g2 p2n] u2n] conns] _. apply tame_bind; [apply sort_tame|auto with tame].
Qed.
