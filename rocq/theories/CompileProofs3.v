(** Which declared variable is kept for a promoted name without source. *)
From Verif Require Import PyBase NamesModel NamesProofs PromotionsModel PromotionsSpec PromotionsProofs PromotionsProofs2 HierModel HierSpec HierProofs Digraph
  FlatModel FlatSpec FlatProofs ConnProofs ConnProofs2 ExprModel UnflatModel UnflatSpec UnflatProofs UnflatProofs2 FlattenModel FlattenSpec FlattenProofs
  FlattenProofs2 FlattenProofs3 FlattenProofs4 TopoModel TopoSpec TopoProofs CompileModel CompileSpec ExecProofs CompileProofs.

Lemma dots_app a b : FlatModel.count_dots (a ++ b)%string = FlatModel.count_dots a + FlatModel.count_dots b.
Proof. induction a as [|c a IH]; [reflexivity|]. cbn [append FlatModel.count_dots]. rewrite IH. lia. Qed.
Lemma no_dots s : has_dot s = false -> FlatModel.count_dots s = 0.
Proof.
  unfold has_dot. rewrite negb_false_iff, Nat.eqb_eq. induction s as [|c s IH]; [reflexivity|]. cbn [FlatModel.count_dots NamesModel.count_dots].
  destruct (Ascii.eqb c "."); [discriminate|]. intros E. rewrite (IH E). reflexivity.
Qed.
Lemma dots_path p : Forall (fun s => has_dot s = false) p -> FlatModel.count_dots (ns_of p) = pred (length p).
Proof.
  unfold ns_of. induction p as [|a p IH]; intros H; [reflexivity|]. inversion H as [|? ? Ha Hp]; subst. destruct p as [|b p].
  - cbn [String.concat]. apply no_dots, Ha.
  - cbn [String.concat] in *. rewrite !dots_app, (no_dots a Ha), IH by exact Hp. cbn. reflexivity.
Qed.

Section K.
  Context (h : list obj) (shp : nat -> shape) (dflt : nat -> bool) (um : umodel) (m : model) (c : compiled).
  Hypothesis (WF : well_formed h um m shp) (TI : inputs_not_targets h um m).
  Context (r : rp) (u : ugraph) (g g1 : digraph irnode).
  Hypothesis (R : resolve m None = Ok r) (B : built h um u).
  Hypothesis (F : flatten h (rp_p2u r) (create_reverse_map (rp_p2u r)) u = Ok (g, c_log c)).
  Local Notation attr := (node_attr h shp dflt (c_log c)).
  Local Notation occ := (occurs h um).
  Local Notation call := (called h um m).

  Lemma flat_occ p o : node g (NObj p o) <-> occ p o.
  Proof. eapply flat_node; eassumption. Qed.
  Lemma pname_called x v : node g x -> attr x = NVar v -> (exists p k o, call p k o (va_pname v)) ->
    exists p k o, x = NObj p o /\ occ p o /\ call p k o (va_pname v).
  Proof.
    intros Hx Av (p0 & k0 & o0 & x0 & q0 & Hm & Hq & E0). destruct (member_own (f_hierarchy WF) Hm) as (s0 & Hv & _).
    destruct (@pname_own h shp dflt um m r u (f_hierarchy WF) (f_named WF) R (f_inputs WF) B (f_uses_own WF) (f_chosen WF) g (c_log c) F x v p0 k0 x0 s0 q0 Hx Av Hv Hq E0)
      as (p' & o' & k' & s' & -> & Ho' & Hq' & _).
    pose proof (proj1 (flat_occ p' o') Hx) as Oc. edestruct attr_variable as (p2 & o2 & E2 & V); [exact Av|]. injection E2 as <- <-.
    edestruct var_kind as [[(ob & E & K) _]|(k2 & pn & Hc)]; [exact WF|exact Oc|exact V| |].
    - exfalso. destruct Ho' as (Hv' & (ob' & E' & Nm) & _). rewrite E in E'. injection E' as <-. eapply (f_chosen WF _ _ _ _ Hv'); [eassumption|congruence].
    - exists p', k2, o'. split; [reflexivity|]. split; [exact Oc|]. edestruct called_attr as (v' & Av' & Pn & _); [exact WF|exact R|exact B|exact F|exact Oc|exact Hc|].
      rewrite Av in Av'. injection Av' as <-. rewrite Pn. exact Hc.
  Qed.
  (** The depth and the default flag of a declared variable. *)
  Lemma declared_depth p o pn : occ p o -> call p KDeclared o pn -> depth attr (NObj p o) = pred (length p) /\ has_default attr (NObj p o) = dflt o.
  Proof.
    intros Ho (x & q & Hm & Hq & _). apply flat_occ in Ho.
    destruct (@promoted_names h shp dflt um m r u g (c_log c) p KDeclared o x q (f_hierarchy WF) (f_named WF) R (f_inputs WF) B F Hm Ho Hq) as (v & A & _ & _ & U & _).
    destruct (member_own (f_hierarchy WF) Hm) as (s & Hv & (ob & E & _) & (ob' & E' & K)). rewrite E in E'. injection E' as <-.
    assert (O : is_op ob = false) by (unfold is_op; rewrite K; reflexivity).
    destruct (@attr_var h shp dflt (c_log c) p o ob E O) as (v' & A' & _ & _ & _ & D & _). rewrite A in A'. injection A' as <-.
    unfold depth, has_default. rewrite A, U, D. split; [|reflexivity]. apply dots_path.
    pose proof (has_var_path_names _ _ _ _ _ (f_named WF) Hv) as P. rewrite Forall_forall in *. intros n Hn. apply P, Hn.
  Qed.

  Hypothesis (M : merge_auto_any irnode_eqb attr g g1).
  Hypothesis (MC : merge_connections irnode_eqb attr g1 (collect_connections m "") (rp_p2u r) (create_reverse_map (rp_p2u r))
    = Ok (c_graph c, c_p2n c, c_u2n c, c_conns c)).
  Lemma kept_declared p o pn : occ p o -> call p KDeclared o pn -> (forall p' k' o', occ p' o' -> call p' k' o' pn -> k' = KDeclared) -> ~ connection_target m pn ->
    exists p' o', node_of h c p o = NObj p' o' /\ occ p' o' /\ call p' KDeclared o' pn /\
      (forall p2 o2, occ p2 o2 -> call p2 KDeclared o2 pn -> pred (length p') <= pred (length p2)) /\
      (dflt o' = true -> forall p2 o2, occ p2 o2 -> call p2 KDeclared o2 pn -> pred (length p2) = pred (length p') -> dflt o2 = true).
  Proof.
    intros Ho Hc NS NT.
    destruct (@rep1_exists_pref h shp dflt um m c WF r u g g1 R B F M) as (rep1 & H1 & P1).
    destruct (@rep2_exists h shp dflt um m c WF TI r u g g1 R B F MC rep1 H1) as (rep2 & H2).
    assert (NSrc : forall s sv, node g s -> source_node attr s sv -> va_pname sv <> pn).
    { intros s sv Hs [As Cs] E. subst pn. destruct (pname_called s sv Hs As) as (ps & ks & os & -> & Hos & Hcs); [eauto|].
      pose proof (NS _ _ _ Hos Hcs) as ->. edestruct called_attr as (v' & Av' & _ & _ & Cv); [exact WF|exact R|exact B|exact F|exact Hos|exact Hcs|].
      rewrite As in Av'. injection Av' as <-. destruct Cs; congruence. }
    destruct (P1 p o pn Ho Hc NSrc) as (l1 & l2 & EC & P2 & P3 & P4).
    assert (CA : forall t, In t (candidates attr g pn) <-> exists p' o', t = NObj p' o' /\ occ p' o' /\ call p' KDeclared o' pn).
    { intros t. unfold candidates. rewrite filter_In. split.
      - intros [Ht E]. destruct (attr t) as [v|] eqn:Av; [|discriminate]. destruct (va_class v) eqn:Cv; try discriminate. apply String.eqb_eq in E. subst pn.
        destruct (pname_called t v Ht Av) as (pt & kt & ot & -> & Hot & Hct); [eauto|]. pose proof (NS _ _ _ Hot Hct) as ->. eauto.
      - intros (p' & o' & -> & Ho' & Hc'). split; [apply flat_occ, Ho'|]. edestruct called_attr as (v' & Av' & Pn & _ & Cv); [exact WF|exact R|exact B|exact F|exact Ho'|exact Hc'|].
        rewrite Av', Cv, Pn. apply String.eqb_refl. }
    assert (Ir : In (rep1 (NObj p o)) (candidates attr g pn)) by (rewrite EC; apply in_app_iff; right; left; reflexivity).
    apply CA in Ir. destruct Ir as (p' & o' & Er & Ho' & Hc'). exists p', o'.
    assert (Vo : variable h o) by (apply (kind_var h o KDeclared); exact (called_kind h shp um m WF p KDeclared o pn Hc)).
    destruct (declared_depth _ _ _ Ho' Hc') as [D' F']. rewrite Er in *.
    split. { rewrite (@node_of_rep h shp dflt um m c WF TI r u g g1 R B F MC rep1 H1 rep2 H2 p o Ho Vo). unfold rep. rewrite Er.
      destruct H2 as (_ & _ & _ & O2). apply O2. intros Hi. apply in_map_iff in Hi. destruct Hi as ([t s] & Et & Hi). cbn in Et. subst t.
      edestruct conn_target as (p2 & o2 & pn2 & E2 & _ & Hc2 & CT); [exact WF|exact TI|exact R|exact B|exact F|exact MC|exact H1|exact Hi|]. injection E2 as <- <-. apply NT.
      destruct Hc' as (x & q & Hm & Hq & Ep), Hc2 as (x2 & q2 & Hm2 & Hq2 & Ep2). pose proof Hm as (Nx & _). pose proof Hm2 as (Nx2 & _).
      pose proof (named_fun Nx Nx2) as <-. rewrite (promoted_ns_fun _ _ _ _ _ (f_named WF) Hq Hq2) in Ep. subst. exact CT. }
    split; [exact Ho'|]. split; [exact Hc'|]. split.
    - intros p2 o2 Ho2 Hc2. destruct (declared_depth _ _ _ Ho2 Hc2) as [D2 _]. rewrite <- D', <- D2. apply P2. apply CA. eauto.
    - intros Dt p2 o2 Ho2 Hc2 Dp. destruct (declared_depth _ _ _ Ho2 Hc2) as [D2 F2]. assert (I2 : In (NObj p2 o2) (candidates attr g pn)) by (apply CA; eauto).
      rewrite EC in I2. apply in_app_iff in I2. destruct I2 as [I2|[I2|I2]].
      + specialize (P4 (eq_trans F' Dt) _ I2). lia.
      + congruence.
      + rewrite <- F2. apply P3; [exact I2|lia].
  Qed.
End K.

Lemma compiles_kept h shp dflt um m c p o pn : well_formed h um m shp -> inputs_not_targets h um m -> compiles h shp dflt um m c ->
  occurs h um p o -> called h um m p KDeclared o pn -> (forall p' k' o', occurs h um p' o' -> called h um m p' k' o' pn -> k' = KDeclared) -> ~ connection_target m pn ->
  exists p' o', node_of h c p o = NObj p' o' /\ occurs h um p' o' /\ called h um m p' KDeclared o' pn /\
    (forall p2 o2, occurs h um p2 o2 -> called h um m p2 KDeclared o2 pn -> pred (length p') <= pred (length p2)) /\
    (dflt o' = true -> forall p2 o2, occurs h um p2 o2 -> called h um m p2 KDeclared o2 pn -> pred (length p2) = pred (length p') -> dflt o2 = true).
Proof.
  intros WF TI (r & u & g & g1 & R & B & _ & _ & F & M & MC & _). eapply kept_declared; eassumption.
Qed.
