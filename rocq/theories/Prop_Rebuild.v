(** Property theorems C49, continued: everything a second representation of the same model object
    contains. *)
From Verif Require Import PyBase NamesModel PromotionsModel PromotionsSpec PromotionsProofs PromotionsProofs2 PromotionsProofs3 PromotionsExample
  HierModel HierSpec HierProofs HierProofs2 RebuildSpec RebuildProofs Digraph FlatModel ExprModel UnflatModel FlattenModel CompileModel Prop_Compile.
Local Open Scope string_scope.
Local Open Scope list_scope.

(** C49: building the representation changes nothing of the model object but names of objectives. *)
Theorem c49_model_kept :
  forall m o m2, rep_objective m = Ok (o, m2) -> without_objective m2 = without_objective m.
Proof. intros m o m2 H. unfold rep_objective in H. inv_bind H. eapply find_objective_erase. exact H. Qed.
Print Assumptions c49_model_kept.

(** A representation with another objective. *)
Definition with_objective (c : compiled) (o : option string) : compiled :=
  Compiled (c_p2u c) (c_u2p c) (c_connections c) (c_dvs c) o (c_cons c) (c_log c) (c_graph c) (c_p2n c) (c_u2n c) (c_conns c) (c_order c).

(** C49: the second representation is the first with the objective looked up again, or an error of
    that lookup. *)
Theorem c49_second_representation :
  forall h shp dflt um m c o m2, compile h shp dflt um m = Ok c -> rep_objective m = Ok (o, m2) ->
  c_objective c = o /\
  compile h shp dflt um m2 = match rep_objective m2 with Ok (o2, _) => Ok (with_objective c o2) | Err e => Err e end.
Proof.
  intros h shp dflt um m c o m2 H HO. pose proof (c49_model_kept _ _ _ HO) as HE.
  assert (R : forall pr, resolve m2 pr = resolve m pr) by (intros pr; rewrite (resolve_erase m2), HE, <- resolve_erase; reflexivity).
  assert (M : maps_of m2 = maps_of m) by (rewrite (maps_erase m2), HE, <- maps_erase; reflexivity).
  assert (C : forall ns, collect_connections m2 ns = collect_connections m ns) by (intros ns; rewrite (connections_erase m2), HE, <- connections_erase; reflexivity).
  assert (D : rep_design_variables m2 = rep_design_variables m).
  { unfold rep_design_variables. rewrite M. destruct (maps_of m) as [mp|]; cbn [bind]; [|reflexivity].
    rewrite (collect_opt_erase _ _ dvs_erase m2), HE, <- collect_opt_erase by exact dvs_erase. reflexivity. }
  assert (K : rep_constraints m2 = rep_constraints m).
  { unfold rep_constraints. rewrite M. destruct (maps_of m) as [mp|]; cbn [bind]; [|reflexivity].
    rewrite (collect_opt_erase _ _ cons_erase m2), HE, <- collect_opt_erase by exact cons_erase. reflexivity. }
  assert (N : rep_connections m2 = rep_connections m) by (unfold rep_connections; rewrite M, C; reflexivity).
  unfold compile in H. inv_bind H. inv_bind H. inv_bind H. inv_bind H. rewrite HO in E2. injection E2 as <-.
  do 5 (inv_bind H). lazymatch type of E6 with _ = Ok ?x => destruct x as [[[g2 p2n] u2n] conns] end. inv_bind H. injection H as <-.
  split; [reflexivity|].
  unfold compile. rewrite R, E. cbn [bind]. rewrite N, E0. cbn [bind]. rewrite D, E1. cbn [bind].
  destruct (rep_objective m2) as [[o2 m3]|e]; cbn [bind]; [|reflexivity].
  rewrite K, E2. cbn [bind]. rewrite E3. cbn [bind]. rewrite E4. cbn [bind]. rewrite E5. cbn [bind]. rewrite C, E6. cbn [bind]. rewrite E7. cbn [bind].
  reflexivity.
Qed.
Print Assumptions c49_second_representation.
(** The program of c87_nonvacuous with the objective y declared by its submodel A. *)
Definition cxm_obj : model := Mdl [("x", [2])] [("z", [2]); ("v", [2])] [("y", [2]); ("w", [2])] [("z", "w")] ["x"] ["v"] None
  [("A", None, Mdl [] [("y", [2])] [("x", [2])] [] [] [] (Some "y") [])].
Example c49_second_representation_nonvacuous : exists c m2,
  compile cxh cxshp (fun _ => true) cxum cxm_obj = Ok c /\ rep_objective cxm_obj = Ok (Some "y", m2) /\
  compile cxh cxshp (fun _ => true) cxum m2 = Ok c /\ length (c_order c) = 7.
Proof.
  let t := eval vm_compute in (compile cxh cxshp (fun _ => true) cxum cxm_obj) in match t with Ok ?c => exists c end.
  eexists. split; [vm_compute; reflexivity|]. split; [vm_compute; reflexivity|]. split; vm_compute; reflexivity.
Qed.

Lemma forall2_right {A B} (R : A -> B -> Prop) l l' y : Forall2 R l l' -> In y l' -> exists x, In x l /\ R x y.
Proof.
  induction 1 as [|u v l l' H F IH]; intros G; [destruct G|]. destruct G as [G|G]; [subst v; exists u; split; [left; reflexivity|exact H]|].
  destruct (IH G) as (x & Hx & Rx). exists x. split; [right; exact Hx|exact Rx].
Qed.

Lemma erase_fields a b : without_objective a = without_objective b ->
  (forall k, vars k a = vars k b) /\ map (fun t => fst t) (m_subs a) = map (fun t => fst t) (m_subs b).
Proof.
  rewrite (erase_unfold a), (erase_unfold b). intros H. injection H as H1 H2 H3 H4 H5 H6 H7. split; [intros []; assumption|].
  assert (G : map (fun t => fst t) (map (fun t : string * promotes_t * model => (fst t, without_objective (snd t))) (m_subs a)) =
              map (fun t => fst t) (map (fun t : string * promotes_t * model => (fst t, without_objective (snd t))) (m_subs b))) by (rewrite H7; reflexivity).
  rewrite !map_map in G. exact G.
Qed.
Lemma well_named_erase m o m2 : well_named m -> rep_objective m = Ok (o, m2) -> well_named m2.
Proof.
  intros W H p m' Hs. unfold rep_objective in H. inv_bind H. destruct (find_objective_matches _ _ _ _ _ _ H) as [_ F].
  apply preorder_spec in Hs. destruct (forall2_right _ _ _ _ F Hs) as ([q x] & Hx & Hq & He & _). cbn [fst snd] in *. subst q.
  apply preorder_spec in Hx. destruct (W _ _ Hx) as (W1 & W2 & W3). destruct (erase_fields _ _ He) as [V S].
  assert (S' : map (fun t => fst (fst t)) (m_subs x) = map (fun t => fst (fst t)) (m_subs m')).
  { transitivity (map (fun t : string * promotes_t => fst t) (map (fun t => fst t) (m_subs x))); [rewrite map_map; reflexivity|]. rewrite S, map_map. reflexivity. }
  split; [rewrite <- S'; exact W1|]. split; [|intros k y s; rewrite <- V; apply W3].
  intros nm pr sm Hi. assert (Hn : In nm (map (fun t => fst (fst t)) (m_subs m'))) by (apply in_map_iff; exists (nm, pr, sm); auto).
  rewrite <- S' in Hn. apply in_map_iff in Hn. destruct Hn as ([[nm' pr'] sm'] & E1 & Hn). cbn in E1. subst nm'. eapply W2. exact Hn.
Qed.

(** C49: the objective of the second representation, exactly.  If the model [m'] at path [p] declares
    the objective and the first representation found it to be [n], then the second looks up the name
    [n] in [m'], and the result in the whole hierarchy again. *)
Theorem c49_second_objective :
  forall m n m2 p m', well_named m -> rep_objective m = Ok (Some n, m2) -> sub_at m p m' -> m_obj m' <> None ->
  forall o2, (exists m3, rep_objective m2 = Ok (o2, m3)) <->
    exists n1 n2, resolves_to m' n n1 /\ resolves_to m (dotted p n1) n2 /\ o2 = Some n2.
Proof.
  intros m n m2 p m' W H Hs Ho o2. pose proof (well_named_erase _ _ _ W H) as W2. pose proof (c49_model_kept _ _ _ H) as HE.
  pose proof (objective_unique _ _ _ W H) as HU.
  assert (M : maps_of m2 = maps_of m) by (rewrite (maps_erase m2), HE, <- maps_erase; reflexivity).
  assert (exists mp, maps_of m = Ok mp) as [mp Hm] by (unfold rep_objective in H; inv_bind H; eauto).
  pose proof H as H0. unfold rep_objective in H0. rewrite Hm in H0. cbn [bind] in H0. destruct (find_objective_matches _ _ _ _ _ _ H0) as [_ F].
  assert (OW : exists m2', obj_owners m2 = [(p, m2')] /\ m_obj m2' = Some n /\ without_objective m2' = without_objective m' /\ sub_at m2 p m2').
  { assert (X : obj_owners m = [(p, m')]).
    { assert (Hi : In (p, m') (obj_owners m)) by (apply filter_In; split; [apply preorder_spec, Hs|rewrite has_obj_eq; destruct (m_obj m'); [reflexivity|congruence]]).
      destruct (obj_owners m) as [|[q x] [|? ?]]; [destruct Hi| |destruct HU]. destruct Hi as [Hi|[]]. rewrite Hi. reflexivity. }
    assert (HS2 : forall q x, In (q, x) (obj_owners m2) -> sub_at m2 q x) by (intros q x Hq; apply filter_In in Hq; apply preorder_spec, Hq).
    unfold obj_owners in *. clear -F X HS2. induction F as [|[q1 x1] [q2 x2] A B (F1 & F2 & F3) F IH]; [discriminate|].
    cbn [filter] in *. rewrite has_obj_eq in *. cbn [fst snd] in *. subst q2. destruct (m_obj x1) as [k|].
    - destruct F3 as [_ F3]. rewrite F3 in *. injection X as <- <- X. exists x2.
      assert (NB : filter has_obj B = []).
      { clear -F X. induction F as [|[q1 y1] [q2 y2] A B (F1 & F2 & F3) F IH]; [reflexivity|]. cbn [filter] in *. rewrite has_obj_eq in *. cbn [snd] in *.
        destruct (m_obj y1); [discriminate|]. rewrite F3. exact (IH X). }
      rewrite NB. repeat split; auto. apply HS2. left. reflexivity.
    - rewrite F3 in *. apply IH; assumption. }
  destruct OW as (m2' & OW & On & Oe & Os).
  assert (Hm' : maps_of m2' = maps_of m') by (rewrite (maps_erase m2'), Oe, <- maps_erase; reflexivity).
  destruct (maps_sub _ _ _ _ Hm Hs) as [own Hown].
  assert (RT : forall k k1, resolves_to m2' k k1 <-> resolves_to m' k k1).
  { intros k k1. rewrite <- (find_promoted_iff _ _ _ _ (well_named_sub_at _ _ _ Os W2) (eq_trans Hm' Hown)).
    rewrite <- (find_promoted_iff _ _ _ _ (well_named_sub_at _ _ _ Hs W) Hown). reflexivity. }
  assert (RM : forall k k1, resolves_to m2 k k1 <-> resolves_to m k k1).
  { intros k k1. rewrite <- (find_promoted_iff _ _ _ _ W2 (eq_trans M Hm)). rewrite <- (find_promoted_iff _ _ _ _ W Hm). reflexivity. }
  split.
  - intros [m3 H3]. pose proof (objective_unique _ _ _ W2 H3) as HU2. rewrite OW in HU2. destruct HU2 as (k & n1 & n2 & K & R1 & R2 & ->).
    rewrite On in K. injection K as <-. exists n1, n2. split; [apply RT, R1|]. split; [apply RM, R2|reflexivity].
  - intros (n1 & n2 & R1 & R2 & ->). destruct (objective_accepted m2 mp W2 (eq_trans M Hm)) as [[o3 m3] H3].
    { rewrite OW. exists n, n1, n2. split; [exact On|]. split; [apply RT, R1|apply RM, R2]. }
    pose proof (objective_unique _ _ _ W2 H3) as HU2. rewrite OW in HU2. destruct HU2 as (k & k1 & k2 & K & Q1 & Q2 & ->).
    rewrite On in K. injection K as <-. apply RT in Q1. apply RM in Q2.
    assert (k1 = n1) by (apply (find_promoted_iff _ _ _ _ (well_named_sub_at _ _ _ Hs W) Hown) in R1, Q1; congruence). subst k1.
    assert (k2 = n2) by (apply (find_promoted_iff _ _ _ _ W Hm) in R2, Q2; congruence). subst k2. exists m3. exact H3.
Qed.
Print Assumptions c49_second_objective.

Lemma promoted_ns_down m p m' : sub_at m p m' -> well_named m -> forall t x, promoted_ns m (p ++ t) x [] -> promoted_ns m' t x [].
Proof.
  induction 1 as [m|m nm pr sm p m' Hi Hs IH]; intros W t x H; [exact H|]. cbn [app] in H.
  apply promoted_ns_cons in H. destruct H as (pr1 & sm1 & q0 & Hi1 & H1 & [(-> & _ & _)|(_ & E)]); [|discriminate].
  destruct (well_named_here _ W) as (HN & _ & _). destruct (sub_unique _ _ _ _ _ _ HN Hi Hi1) as [<- <-].
  apply IH; [eapply well_named_sub; eassumption|exact H1].
Qed.
Lemma promoted_ns_conflict m p x q : promoted_ns m p x q -> well_named m -> q <> [] -> promoted_ns m q x [] -> False.
Proof.
  induction 1 as [m x|m nm pr sm p x Hi H IH HL|m nm pr sm p x q Hi H IH HL]; intros W Hq H2; [congruence|congruence|].
  apply promoted_ns_cons in H2. destruct H2 as (pr1 & sm1 & q0 & Hi1 & H1 & [(-> & Hl & _)|(_ & E)]); [|discriminate].
  destruct (well_named_here _ W) as (HN & _ & _). destruct (sub_unique _ _ _ _ _ _ HN Hi Hi1) as [<- <-].
  destruct q as [|n q]; [destruct HL; [congruence|contradiction]|]. apply IH; [eapply well_named_sub; eassumption|discriminate|exact H1].
Qed.
Lemma resolves_no_dot m n pn : well_named m -> resolves_to m n pn -> has_dot pn = false ->
  exists p k s, has_var m p k pn s /\ promoted_ns m p pn [] /\ (n = dotted p pn \/ n = pn).
Proof.
  intros W (p & k & x & s & q & Hv & Hp & -> & Hf) D. pose proof (promoted_ns_names _ _ _ _ _ _ W Hv Hp) as Nq.
  destruct q as [|a q].
  - exists p, k, s. change (dotted [] x) with x in *. auto.
  - exfalso. rewrite <- path_name_dotted in D by exact Nq. rewrite path_name_has_dot in D; [discriminate|exact Nq|discriminate].
Qed.

(** C49: in particular the second representation has the same objective when the objective is a name
    without a namespace: it is promoted, through all its submodels, to the main model. *)
Theorem c49_promoted_objective_twice :
  forall m n m2, well_named m -> rep_objective m = Ok (Some n, m2) -> has_dot n = false ->
  exists m3, rep_objective m2 = Ok (Some n, m3).
Proof.
  intros m n m2 W H D. pose proof (objective_unique _ _ _ W H) as HU.
  destruct (obj_owners m) as [|[p m'] [|? ?]] eqn:OW; [discriminate| |destruct HU].
  assert (Hi : In (p, m') (obj_owners m)) by (rewrite OW; left; reflexivity).
  apply filter_In in Hi. destruct Hi as [Hs Ho]. rewrite has_obj_eq in Ho. apply preorder_spec in Hs.
  destruct HU as (k & n1 & n2 & Hk & R1 & R2 & E). injection E as <-.
  eapply (c49_second_objective _ _ _ _ _ W H Hs); [rewrite Hk; discriminate|].
  exists n, n. cut (resolves_to m' n n /\ resolves_to m (dotted p n) n); [intros []; auto|].
  pose proof (well_named_sub_at _ _ _ Hs W) as W'. pose proof (sub_at_names _ _ _ W Hs) as Np.
  destruct R1 as (p' & k' & x' & s' & q' & Hv' & Hp' & -> & _).
  pose proof (promoted_ns_names _ _ _ _ _ _ W' Hv' Hp') as Nq. pose proof (has_var_no_dot _ _ _ _ _ W' Hv') as Dx.
  rewrite dotted_app in R2 by (apply names_nonempty; exact Np).
  destruct (resolves_no_dot _ _ _ W R2 D) as (pv & kv & sv & Hv & Hp & [E|E]).
  - apply dotted_inj in E; [|apply Forall_app; auto|exact (has_var_path_names _ _ _ _ _ W Hv)|exact Dx|exact D]. destruct E as [<- ->].
    pose proof (promoted_ns_down _ _ _ Hs W _ _ Hp) as Hd.
    destruct q' as [|a q']; [|exfalso; eapply (promoted_ns_conflict _ _ _ _ Hp'); [exact W'|discriminate|exact Hd]].
    rewrite app_nil_r in *. split.
    + exists p', k', n, s', []. split; [exact Hv'|]. split; [exact Hp'|]. split; [reflexivity|right; reflexivity].
    + exists p, kv, n, sv, []. split; [exact Hv|]. split; [exact Hp|]. split; [reflexivity|left; reflexivity].
  - change n with (dotted [] n) in E. apply dotted_inj in E; [|apply Forall_app; auto|constructor|exact Dx|exact D]. destruct E as [E ->].
    apply app_eq_nil in E. destruct E as [-> ->]. inversion Hs; subst. split.
    + exists p', k', n, s', []. split; [exact Hv'|]. split; [exact Hp'|]. split; [reflexivity|right; reflexivity].
    + exists pv, kv, n, sv, []. split; [exact Hv|]. split; [exact Hp|]. split; [reflexivity|right; reflexivity].
Qed.
Print Assumptions c49_promoted_objective_twice.

(** Non-vacuity: an objective declared two levels down and promoted to the main model. *)
Definition exLift : model :=
  Mdl [("x", [1])] [] [] [] [] [] None
    [("A", None, Mdl [] [] [] [] [] [] None [("B", Some ["y"], Mdl [] [("y", [1]); ("z", [1])] [] [] [] [] (Some "y") [])])].
Example c49_promoted_nonvacuous : well_named exLift /\
  exists m2, rep_objective exLift = Ok (Some "y", m2) /\ rep_objective m2 = Ok (Some "y", m2).
Proof. split; [apply well_namedb_sound; vm_compute; reflexivity|]. eexists. split; vm_compute; reflexivity. Qed.

(** C49: not in general; the second representation may even have the name of another variable as its
    objective, without an error: the submodel S declares its variable y the objective, S contains
    another S with a variable y. *)
Definition exOther : model :=
  Mdl [("x", [1])] [] [] [] [] [] None
    [("S", Some [], Mdl [] [("y", [1])] [] [] [] [] (Some "y") [("S", Some [], Mdl [] [("y", [1])] [] [] [] [] None [])])].
Theorem c49_other_objective_refuted :
  well_named exOther /\
  exists m2 m3, rep_objective exOther = Ok (Some "S.y", m2) /\ rep_objective m2 = Ok (Some "S.S.y", m3) /\
    has_var exOther ["S"] KOutput "y" [1] /\ has_var exOther ["S"; "S"] KOutput "y" [1].
Proof.
  split; [apply well_namedb_sound; vm_compute; reflexivity|]. eexists. eexists. split; [vm_compute; reflexivity|]. split; [vm_compute; reflexivity|].
  split; eexists; (split; [repeat (econstructor; [left; reflexivity|]); constructor|left; reflexivity]).
Qed.
Print Assumptions c49_other_objective_refuted.
