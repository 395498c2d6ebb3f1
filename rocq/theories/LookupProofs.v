(** Looking up nodes by name (LookupModel). *)
From Verif Require Import PyBase NamesModel NamesProofs PromotionsModel PromotionsSpec PromotionsProofs PromotionsProofs2 HierModel HierSpec HierProofs Digraph
  FlatModel FlatSpec FlatProofs ConnProofs ConnProofs2 ExprModel UnflatModel UnflatSpec UnflatProofs UnflatProofs2 FlattenModel FlattenSpec FlattenProofs
  HierProofs2 FlattenProofs2 FlattenProofs3 FlattenProofs4 TopoModel TopoSpec TopoProofs CompileModel CompileSpec ExecProofs CompileProofs CompileProofs2 CompileProofs3 IterModel IterSpec IterProofs LookupModel.

Lemma name_in_rep_compiles h shp dflt um m c : well_formed h um m shp -> compiles h shp dflt um m c ->
  forall n pn, name_in_rep c n = Ok pn <-> resolves_to m n pn.
Proof.
  intros WF (r & u & g & g1 & R & _ & P & Q & _) n pn. unfold name_in_rep. rewrite P, Q. apply find_promoted_iff; [exact (f_named WF)|].
  unfold maps_of. rewrite R. reflexivity.
Qed.
Lemma node_under_compiles h shp dflt um m c : well_formed h um m shp -> inputs_not_targets h um m -> compiles h shp dflt um m c ->
  forall pn x, node_under c pn = Some x <-> exists p k o, occurs h um p o /\ called h um m p k o pn /\ x = node_of h c p o.
Proof.
  intros WF TI (r & u & g & g1 & R & B & P & Q & F & M & MC & SO & _) pn x.
  destruct (@rep1_exists h shp dflt um m c WF r u g g1 R B F M) as (rep1 & H1).
  destruct (@rep2_exists h shp dflt um m c WF TI r u g g1 R B F MC rep1 H1) as (rep2 & H2).
  assert (CG : forall x, rep2 x = match cget irnode_eqb (c_conns c) x with Some s => s | None => x end) by (intros y; eapply rep2_cget; eassumption).
  assert (ME : forall pn x, dget (c_p2n c) pn = Some x <-> exists v names, named_node (node_attr h shp dflt (c_log c)) g1 (rp_p2u r) x v names /\ va_pname v = pn).
  { edestruct (@maps_exact _ irnode_eqb (node_attr h shp dflt (c_log c)) g1) as [E _]; [|exact MC|exact E]. exact (@names_ne m r R). }
  assert (K : forall p k o, occurs h um p o -> called h um m p k o pn -> dget (c_p2n c) pn = Some (rep1 (NObj p o)) /\ node_of h c p o = rep2 (rep1 (NObj p o))).
  { intros p k o Ho Hc. split.
    - pose proof Hc as (y & q & Hm & Hq & ->). apply ME. edestruct named_rep1 as (v & names & Hn & E & _); try exact Ho; try exact Hm; try exact Hq; try eassumption. eauto.
    - eapply node_of_rep; try eassumption. exact (called_var h shp um m WF p k o pn Hc). }
  unfold node_under. split.
  - destruct (dget (c_p2n c) pn) as [y|] eqn:E; [|discriminate]. rewrite <- CG. intros X. injection X as <-.
    pose proof E as E'. apply ME in E'. destruct E' as (v & names & (Hy & Av & Au & G) & Pv).
    assert (Hg : node g y). { destruct H1 as (_ & Q1 & _). apply Q1 in Hy. apply Hy. }
    edestruct named_called as (p & o & k & Ey & Ho & Hc); try exact Hg; try exact Av; try exact Au; try eassumption. rewrite Pv in Hc.
    exists p, k, o. split; [exact Ho|]. split; [exact Hc|]. destruct (K p k o Ho Hc) as [E2 ->]. injection E2 as <-. reflexivity.
  - intros (p & k & o & Ho & Hc & ->). destruct (K p k o Ho Hc) as [-> ->]. rewrite <- CG. reflexivity.
Qed.

Section In.
  Context (it : iteration) (h : list obj) (shp : nat -> shape) (dflt : nat -> bool) (um : umodel) (m : model) (c : compiled).
  Context (L : lawful it) (WF : well_formed h um m shp) (TI : inputs_not_targets h um m) (H : compile_in it h shp dflt um m = Ok c).
  Lemma name_in_rep_iff n pn : name_in_rep c n = Ok pn <-> resolves_to m n pn.
  Proof.
    destruct (@compile_in_compiles _ _ _ _ _ _ _ L H) as (c0 & K & S). rewrite <- (name_in_rep_compiles _ _ _ _ _ _ WF K).
    unfold name_in_rep, find_promoted_name. cbn [fst snd]. rewrite (same_dmem n (sp_p2u S)), (sp_u2p S). reflexivity.
  Qed.
  Lemma node_under_iff pn x : node_under c pn = Some x <-> exists p k o, occurs h um p o /\ called h um m p k o pn /\ x = node_of h c p o.
  Proof.
    destruct (@compile_in_compiles _ _ _ _ _ _ _ L H) as (c0 & K & S). assert (E : node_under c pn = node_under c0 pn) by (unfold node_under; rewrite (sp_p2n S), (sp_conns S); reflexivity).
    rewrite E, (node_under_compiles _ _ _ _ _ _ WF TI K). split; intros (p & k & o & Ho & Hc & ->); exists p, k, o; (split; [exact Ho|]); (split; [exact Hc|]).
    - apply node_of_same, S.
    - symmetry. apply node_of_same, S.
  Qed.
  Lemma node_of_in_graph p o : occurs h um p o -> variable h o -> node (c_graph c) (node_of h c p o).
  Proof.
    intros Ho V. destruct (@compile_in_compiles _ _ _ _ _ _ _ L H) as (c0 & K & S). rewrite <- (node_of_same h p o S), <- (sp_graph S).
    destruct (compiles_order _ _ _ _ _ _ WF TI K) as (_ & O & _ & _ & OV & _). apply O, OV; assumption.
  Qed.
  Lemma called_variable p k o pn : called h um m p k o pn -> variable h o.
  Proof. intros Hc. exact (called_var h shp um m WF p k o pn Hc). Qed.
  Lemma in_unique V (apply : nat -> list V -> nat -> V) init val : solves h um m apply init val ->
    forall p o, occurs h um p o -> variable h o -> val p o = run h shp dflt apply init c (node_of h c p o).
  Proof.
    intros SV p o Ho Vo. destruct (@compile_in_compiles _ _ _ _ _ _ _ L H) as (c0 & K & S).
    rewrite (compiles_unique _ _ _ _ _ _ _ apply init val WF TI K SV p o Ho Vo). exact (result_same h shp dflt apply init p o S).
  Qed.
  Lemma in_solves V (apply : nat -> list V -> nat -> V) init : solves h um m apply init (result h shp dflt apply init c).
  Proof.
    destruct (@compile_in_compiles _ _ _ _ _ _ _ L H) as (c0 & K & S). pose proof (compiles_solves _ _ _ _ _ _ _ apply init WF TI K) as SV.
    assert (E : forall p o, result h shp dflt apply init c0 p o = result h shp dflt apply init c p o) by (intros p o; apply result_same, S).
    destruct SV as [S1 S2 S3 S4 S5]. constructor; intros; rewrite <- ?E; eauto.
    erewrite S1 by eassumption. f_equal. apply map_ext. intros d. apply E.
  Qed.
End In.

(** Every variable listed in the hierarchy is an object. *)
Lemma var_member h shp um m p k x s : hierarchy h shp um m -> has_var m p k x s -> exists o, member h um p k o x.
Proof.
  intros HI (m' & A & Hv). revert um HI. induction A as [m0|m0 nm pr sm p m' Hs A IH]; intros um HI.
  - inversion HI as [ins outs decls subs ? F1 F2 F3 F4 F5]; subst.
    assert (G : forall l (l' : list (string * shape)) (P : nat -> Prop), Forall2 (fun o xs => P o /\ named h o (fst xs) /\ shp o = snd xs) l l' -> In (x, s) l' -> exists o, In o l /\ named h o x).
    { intros l l' P F Hi. destruct (Forall2_In_r _ _ _ _ F Hi) as (o & Ho & _ & N & _). eauto. }
    destruct k; cbn [vars] in Hv; [destruct (G _ _ _ F1 Hv) as (o & Ho & N)|destruct (G _ _ _ F2 Hv) as (o & Ho & N)|destruct (G _ _ _ F3 Hv) as (o & Ho & N)];
      exists o; (split; [exact N|]); exists ins, outs, decls, subs; (split; [constructor|exact Ho]).
  - inversion HI as [ins outs decls subs ? F1 F2 F3 F4 F5]; subst. apply In_nth_error in Hs. destruct Hs as (i & Hi).
    destruct (nth_error subs i) as [[nm' um']|] eqn:E; [|apply nth_error_None in E; assert (length subs = length (m_subs m0)) by (clear -F4; induction F4; cbn; congruence); assert (i < length (m_subs m0)) by (apply nth_error_Some; congruence); lia].
    assert (nm' = nm) as ->.
    { clear -F4 Hi E. revert i Hi E. induction F4 as [|a b l l' Hab _ IHf]; intros [|i] Hi E; cbn in *; try discriminate; [|eapply IHf; eassumption]. injection Hi as ->. injection E as ->. exact Hab. }
    destruct (IH Hv um' (F5 _ _ _ E Hi)) as (o & N & i1 & i2 & i3 & i4 & U & Ho). exists o. split; [exact N|]. exists i1, i2, i3, i4. split; [|exact Ho].
    eapply um_step; [eapply nth_error_In, E|exact U].
Qed.
Lemma var_called h shp um m p k x s : hierarchy h shp um m -> has_var m p k x s -> forall q, promoted_ns m p x q -> exists o, called h um m p k o (dotted q x).
Proof. intros HI Hv q Hq. destruct (var_member _ _ _ _ _ _ _ _ HI Hv) as (o & Hm). exists o, x, q. auto. Qed.
Lemma resolved_called h shp um m n pn : hierarchy h shp um m -> resolves_to m n pn -> exists p k o, called h um m p k o pn.
Proof. intros HI (p & k & x & s & q & Hv & Hq & -> & _). destruct (var_called _ _ _ _ _ _ _ _ HI Hv q Hq) as (o & Hc). eauto. Qed.
Lemma called_occurs h shp um m p k o pn : well_formed h um m shp -> called h um m p k o pn -> k <> KDeclared -> occurs h um p o.
Proof.
  intros WF (x & q & (N & i1 & i2 & i3 & i4 & U & Ho) & _) K. exists i1, i2, i3, i4. split; [exact U|]. destruct k; [left; exact Ho|right; apply needed_leaf, Ho|congruence].
Qed.

(** ** Design variables and constraints *)
Lemma foldM_opt_from m mp items acc d : well_named m -> maps_of m = Ok mp -> (forall t, In t items -> well_named (snd (fst t))) ->
  foldM (opt_step mp) items acc = Ok d ->
  forall n v, In (n, v) d -> In (n, v) acc \/ exists ns m' k n1, In (ns, m', k) items /\ v = (ns, k) /\ resolves_to m' k n1 /\ resolves_to m (prepend_namespace ns n1) n.
Proof.
  intros W Hm. revert acc. induction items as [|[[ns m'] k] items IH]; intros acc HW H n v Hi; cbn [foldM] in H.
  - injection H as <-. auto.
  - inv_bind H. unfold opt_step in E. cbn [fst snd] in E. inv_bind E. rename a0 into own, E0 into Ho. inv_bind E. rename a0 into n1, E0 into F1.
    inv_bind E. rename a0 into n2, E0 into F2. destruct (dmem n2 acc) eqn:Ed; [discriminate|]. injection E as <-.
    destruct (IH (dset acc n2 (ns, k)) (fun t Ht => HW t (or_intror Ht)) H n v Hi) as [Ha|(ns0 & m0 & k0 & n0 & H1 & H2)]; [|right; exists ns0, m0, k0, n0; split; [right; exact H1|exact H2]].
    rewrite dset_fresh in Ha by (apply dmem_false, Ed). apply in_app_iff in Ha. destruct Ha as [Ha|[Ha|[]]]; [auto|]. injection Ha as <- <-.
    right. exists ns, m', k, n1. split; [left; reflexivity|]. split; [reflexivity|].
    split; [apply (find_promoted_iff _ _ _ _ (HW _ (or_introl eq_refl)) Ho), F1|apply (find_promoted_iff _ _ _ _ W Hm), F2].
Qed.
Lemma collect_opt_iff sel m mp d : well_named m -> maps_of m = Ok mp -> collect_opt sel mp m "" [] = Ok d ->
  forall pn ns x, dget d pn = Some (ns, x) <-> exists p m' n1, sub_at m p m' /\ In x (sel m') /\ ns = ns_of p /\ resolves_to m' x n1 /\ resolves_to m (dotted p n1) pn.
Proof.
  intros W Hm H pn ns x. pose proof (collect_opt_spec _ _ _ _ W Hm H) as (ND & _ & G). split.
  - intros E. apply dget_In in E. pose proof (collect_opt_fold _ _ _ _ _ _ H) as HF.
    destruct (foldM_opt_from m mp _ [] d W Hm (fun t Ht => opt_items_well _ _ _ _ W Ht) HF _ _ E) as [[]|(ns0 & m0 & k & n1 & Hi & Ev & R1 & R2)].
    injection Ev as -> ->. unfold opt_items in Hi. apply in_flat_map in Hi. destruct Hi as ([p m'] & Hp & Hi). cbn [fst snd] in Hi. apply in_map_iff in Hi.
    destruct Hi as (k' & E' & Hk). injection E' as <- <- ->. apply preorder_spec in Hp. pose proof (sub_at_names _ _ _ W Hp) as Np.
    assert (EN : ns_join "" p = ns_of p) by (change ""%string with (ns_of []); rewrite (ns_join_of [] p) by (apply names_nonempty; exact Np); reflexivity).
    rewrite EN in *. exists p, m', n1. rewrite prepend_ns_of in R2 by (apply names_nonempty; exact Np). auto.
  - intros (p & m' & n1 & Hs & Hk & -> & R1 & R2). destruct (G p m' x Hs Hk) as (n1' & n2 & R1' & R2' & E).
    destruct (maps_sub _ _ _ _ Hm Hs) as (mp' & Hm'). rewrite (resolves_fun _ _ _ _ _ (well_named_sub_at _ _ _ Hs W) Hm' R1 R1') in R2.
    rewrite (resolves_fun _ _ _ _ _ W Hm R2 R2'). exact E.
Qed.
Lemma node_of_source it h shp dflt um m c p o : lawful it -> well_formed h um m shp -> inputs_not_targets h um m -> compile_in it h shp dflt um m = Ok c ->
  occurs h um p o -> variable h o -> ~ declared_object h o -> node_of h c p o = NObj p o.
Proof.
  intros L WF TI H Ho V ND. destruct (@compile_in_compiles _ _ _ _ _ _ _ L H) as (c0 & (r & u & g & g1 & R & B & _ & _ & F & M & MC & SO & _) & S).
  destruct (@rep1_exists h shp dflt um m c0 WF r u g g1 R B F M) as (rep1 & H1).
  destruct (@rep2_exists h shp dflt um m c0 WF TI r u g g1 R B F MC rep1 H1) as (rep2 & H2).
  rewrite <- (node_of_same h p o S), (@node_of_rep h shp dflt um m c0 WF TI r u g g1 R B F MC rep1 H1 rep2 H2 p o Ho V). eapply rep_fix; eassumption.
Qed.
