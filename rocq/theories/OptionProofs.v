(** The optimization problem does not take part in the compilation. *)
From Verif Require Import PyBase NamesModel PromotionsModel PromotionsSpec PromotionsProofs HierModel HierSpec HierProofs HierProofs2 Digraph TopoModel FlatModel ExprModel UnflatModel FlattenModel CompileModel CompileSpec AcceptSpec IterModel WorldModel OptionSpec.
Local Open Scope string_scope.
Local Open Scope list_scope.

Lemma plain_resolve m : forall pr, resolve (plain m) pr = resolve m pr.
Proof.
  induction m as [m IH] using model_ind'. destruct m as [ins outs decls conns dvs csts ob subs]. intros pr. cbn [plain resolve m_subs] in *.
  assert (E : forall l a b, (forall nm p sm, In (nm, p, sm) l -> forall pr, resolve (plain sm) pr = resolve sm pr) ->
    resolve_children resolve (map (fun t => (fst t, plain (snd t))) l) a b = resolve_children resolve l a b).
  { induction l as [|[[nm p] sm] l IHl]; intros a b H; [reflexivity|]. cbn [map resolve_children fst snd]. rewrite (H nm p sm) by (left; reflexivity).
    destruct (resolve sm p); [|reflexivity]. cbn [bind]. destruct (check_duplicate_keys _ _); [|reflexivity]. cbn [bind]. destruct (find_names_with_matching_shapes _ _); [|reflexivity]. cbn [bind].
    rewrite IHl by (intros; eapply H; right; eassumption). reflexivity. }
  rewrite E by exact IH. reflexivity.
Qed.
Lemma plain_maps m : maps_of (plain m) = maps_of m.
Proof. unfold maps_of. rewrite plain_resolve. reflexivity. Qed.
Lemma plain_connections m : forall ns, collect_connections (plain m) ns = collect_connections m ns.
Proof.
  induction m as [m IH] using model_ind'. destruct m as [ins outs decls conns dvs csts ob subs]. intros ns. cbn [plain collect_connections m_subs] in *. f_equal.
  induction subs as [|[[nm p] sm] l IHl]; [reflexivity|]. cbn [map fst snd]. f_equal; [eapply IH; left; reflexivity|]. apply IHl. intros; eapply IH; right; eassumption.
Qed.
Lemma plain_rep_connections m : rep_connections (plain m) = rep_connections m.
Proof. unfold rep_connections. rewrite plain_maps, plain_connections. reflexivity. Qed.
Lemma plain_opt sel mp m : (forall x, sel (plain x) = []) -> (forall p m', sub_at m p m' -> exists mp', maps_of m' = Ok mp') -> forall ns acc, collect_opt sel mp (plain m) ns acc = Ok acc.
Proof.
  intros S. induction m as [m IH] using model_ind'. intros HM ns acc. rewrite collect_opt_unfold, plain_maps, S. destruct (HM [] m (sub_here m)) as (own & ->). cbn [bind opt_loop].
  destruct m as [ins outs decls conns dvs csts ob subs]. cbn [plain m_subs] in *.
  assert (HS : forall nm pr sm, In (nm, pr, sm) subs -> forall p m', sub_at sm p m' -> exists mp', maps_of m' = Ok mp') by (intros nm pr sm Hi p m' A; eapply HM, sub_step; [exact Hi|exact A]). clear HM.
  induction subs as [|[[nm p] sm] l IHl]; [reflexivity|]. cbn [map fst snd opt_subs]. rewrite (IH nm p sm) by (first [left; reflexivity|eapply HS; left; reflexivity]). cbn [bind].
  apply IHl; intros; [eapply IH; try eassumption; right; eassumption|eapply HS; try eassumption; right; eassumption].
Qed.
Lemma plain_obj mp m : (forall p m', sub_at m p m' -> exists mp', maps_of m' = Ok mp') -> forall ns obj, find_objective mp (plain m) ns obj = Ok (obj, plain m).
Proof.
  induction m as [m IH] using model_ind'. intros HM ns obj. rewrite find_objective_unfold, plain_maps. destruct (HM [] m (sub_here m)) as (own & ->). cbn [bind].
  destruct m as [ins outs decls conns dvs csts ob subs]. cbn [plain m_subs m_obj obj_here bind fst snd] in *.
  assert (HS : forall nm pr sm, In (nm, pr, sm) subs -> forall p m', sub_at sm p m' -> exists mp', maps_of m' = Ok mp') by (intros nm pr sm Hi p m' A; eapply HM, sub_step; [exact Hi|exact A]). clear HM.
  assert (E : obj_subs (find_objective mp) ns (map (fun t => (fst t, plain (snd t))) subs) obj = Ok (obj, map (fun t => (fst t, plain (snd t))) subs)).
  { induction subs as [|[[nm p] sm] l IHl]; [reflexivity|]. cbn [map fst snd obj_subs]. rewrite (IH nm p sm) by (first [left; reflexivity|eapply HS; left; reflexivity]). cbn [bind fst snd].
    rewrite IHl; [reflexivity| |]; intros; [eapply IH; try eassumption; right; eassumption|eapply HS; try eassumption; right; eassumption]. }
  rewrite E. reflexivity.
Qed.
Lemma plain_dvs m : m_dvs (plain m) = [].
Proof. destruct m; reflexivity. Qed.
Lemma plain_cons m : m_cons (plain m) = [].
Proof. destruct m; reflexivity. Qed.
Lemma plain_rep m mp : maps_of m = Ok mp -> rep_design_variables (plain m) = Ok [] /\ rep_constraints (plain m) = Ok [] /\ rep_objective (plain m) = Ok (None, plain m).
Proof.
  intros M. unfold rep_design_variables, rep_constraints, rep_objective. rewrite !plain_maps, M. cbn [bind].
  assert (HM : forall p m', sub_at m p m' -> exists mp', maps_of m' = Ok mp') by (intros p m'; apply maps_sub with mp; exact M).
  split; [apply plain_opt; [apply plain_dvs|exact HM]|]. split; [apply plain_opt; [apply plain_cons|exact HM]|]. apply plain_obj, HM.
Qed.
Lemma resolve_maps m r : resolve m None = Ok r -> exists mp, maps_of m = Ok mp.
Proof. unfold maps_of. intros ->. cbn. eauto. Qed.

(** What is left of the compilation. *)
Definition rest (it : iteration) (h : list obj) (shp : nat -> list nat) (dflt : nat -> bool) (um : umodel) (r : rp) (conns : list (string * string * string)) : res (nslog * (digraph irnode * dict irnode * dict irnode * list (irnode * irnode)) * list irnode) :=
  let p2u := visit_sets (it_names it) (rp_p2u r) in
  let u2p := create_reverse_map p2u in
  do u <- construct_all h [] um;
  do fl <- flatten h p2u u2p (visit_models it [] u);
  let attr := node_attr h shp dflt (snd fl) in
  do g1 <- merge_auto_in it attr (fst fl);
  do mc <- merge_connections irnode_eqb attr g1 conns p2u u2p;
  do order <- flat_sorted_nodes irnode_eqb (fst (fst (fst mc)));
  Ok (snd fl, mc, order).
Definition assemble (it : iteration) (r : rp) (cs : list (string * string)) dvs ob csts (x : nslog * (digraph irnode * dict irnode * dict irnode * list (irnode * irnode)) * list irnode) : compiled :=
  let p2u := visit_sets (it_names it) (rp_p2u r) in
  let '(lg, (g2, p2n, u2n, conns), order) := x in Compiled p2u (create_reverse_map p2u) cs dvs ob csts lg g2 p2n u2n conns order.
Lemma compile_rest it h shp dflt um m c : compile_in it h shp dflt um m = Ok c <->
  exists r cs dvs ob csts x, resolve m None = Ok r /\ rep_connections m = Ok cs /\ rep_design_variables m = Ok dvs /\ rep_objective m = Ok ob /\ rep_constraints m = Ok csts /\
    rest it h shp dflt um r (collect_connections m "") = Ok x /\ c = assemble it r cs dvs (fst ob) csts x.
Proof.
  unfold compile_in, rest. split.
  - intros H. inv_bind H. rename a into r. inv_bind H. rename a into cs. inv_bind H. rename a into dvs. inv_bind H. rename a into ob. inv_bind H. rename a into csts. inv_bind H. rename a into u. inv_bind H. rename a into fl.
    inv_bind H. rename a into g1. inv_bind H. destruct a as [[[g2 p2n] u2n] conns]. inv_bind H. rename a into order. injection H as <-.
    exists r, cs, dvs, ob, csts, (snd fl, (g2, p2n, u2n, conns), order). cbn [fst snd]. do 5 (split; [first [assumption|reflexivity]|]). split; [|reflexivity].
    repeat match goal with E : ?a = Ok ?b |- context [bind ?a _] => rewrite E; cbn [bind fst snd] end. reflexivity.
  - intros (r & cs & dvs & ob & csts & x & -> & -> & -> & -> & -> & H & ->). cbn [bind]. inv_bind H. rename a into u, E into E1. inv_bind H. rename a into fl, E into E2. inv_bind H. rename a into g1, E into E3.
    inv_bind H. destruct a as [[[g2 p2n] u2n] conns]. rename E into E4. cbn [fst snd] in H. inv_bind H. rename a into order, E into E5. injection H as <-. rewrite E1. cbn [bind]. rewrite E2. cbn [bind]. rewrite E3. cbn [bind]. rewrite E4. cbn [bind]. rewrite E5. reflexivity.
Qed.
Lemma assemble_same it r cs dvs ob csts dvs' ob' csts' x : same_but_problem (assemble it r cs dvs ob csts x) (assemble it r cs dvs' ob' csts' x).
Proof. destruct x as [[lg [[[g2 p2n] u2n] conns]] order]. split; reflexivity. Qed.
Lemma plain_compiles it h shp dflt um m c : compile_in it h shp dflt um m = Ok c ->
  exists c', compile_in it h shp dflt um (plain m) = Ok c' /\ same_but_problem c c' /\ c_dvs c' = [] /\ c_objective c' = None /\ c_cons c' = [].
Proof.
  intros H. apply compile_rest in H. destruct H as (r & cs & dvs & ob & csts & x & R & CS & _ & _ & _ & X & ->). destruct (resolve_maps m r R) as (mp & M). destruct (plain_rep m mp M) as (D & C & O).
  exists (assemble it r cs [] None [] x). split; [|split; [apply assemble_same|destruct x as [[lg [[[g2 p2n] u2n] conns]] order]; auto]].
  apply compile_rest. exists r, cs, [], (None, plain m), [], x. rewrite plain_resolve, plain_rep_connections, plain_connections. auto 10.
Qed.
Lemma compiles_plain it h shp dflt um m c' : well_named m -> compile_in it h shp dflt um (plain m) = Ok c' -> options_ok m m_dvs -> options_ok m m_cons -> objective_ok m ->
  exists c, compile_in it h shp dflt um m = Ok c.
Proof.
  intros W H OD OC OO. apply compile_rest in H. destruct H as (r & cs & dvs & ob & csts & x & R & CS & _ & _ & _ & X & ->). rewrite plain_resolve in R. rewrite plain_rep_connections in CS. rewrite plain_connections in X.
  destruct (resolve_maps m r R) as (mp & M). destruct (proj2 (opt_accepted m_dvs m mp W M) OD) as (dvs' & DV). destruct (proj2 (opt_accepted m_cons m mp W M) OC) as (csts' & CT). destruct (objective_accepted m mp W M OO) as (ob' & OB).
  eexists. apply compile_rest. exists r, cs, dvs', ob', csts', x. unfold rep_design_variables, rep_constraints. rewrite M. cbn [bind]. auto 10.
Qed.
Lemma compiles_options it h shp dflt um m c : well_named m -> compile_in it h shp dflt um m = Ok c -> options_ok m m_dvs /\ options_ok m m_cons /\ objective_ok m.
Proof.
  intros W H. apply compile_rest in H. destruct H as (r & cs & dvs & ob & csts & x & R & CS & DV & OB & CT & X & ->). destruct (resolve_maps m r R) as (mp & M).
  unfold rep_design_variables in DV. unfold rep_constraints in CT. rewrite M in DV, CT. cbn [bind] in DV, CT.
  split; [apply (opt_accepted m_dvs m mp W M); eauto|]. split; [apply (opt_accepted m_cons m mp W M); eauto|]. destruct ob as [o m2]. pose proof (objective_unique _ _ _ W OB) as U. unfold objective_ok.
  change (fun pm : list string * model => match m_obj (snd pm) with Some _ => true | None => false end) with has_obj. fold (obj_owners m).
  destruct (obj_owners m) as [|[p m'] [|? ?]]; [exact I| |exact U]. destruct U as (k & n1 & n2 & E1 & E2 & E3 & _). eauto 10.
Qed.
Lemma same_sym c c' : same_but_problem c c' -> same_but_problem c' c.
Proof. intros []. split; auto. Qed.
Lemma same_trans a b c : same_but_problem a b -> same_but_problem b c -> same_but_problem a c.
Proof. intros [] []. split; congruence. Qed.
Lemma same_result V h shp dflt (apply : nat -> list V -> nat -> V) init c c' : same_but_problem c c' -> forall p o, result h shp dflt apply init c p o = result h shp dflt apply init c' p o.
Proof.
  intros [_ _ _ SL _ _ SU SC SO] p o. destruct c as [a1 a2 a3 a4 a5 a6 a7 a8 a9 a10 a11 a12], c' as [b1 b2 b3 b4 b5 b6 b7 b8 b9 b10 b11 b12]. cbn in *. subst. reflexivity.
Qed.
