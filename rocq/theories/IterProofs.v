(** The order in which sets are visited: what changes and what does not. *)
From Coq Require Import Permutation.
From Verif Require Import PyBase NamesModel NamesProofs PromotionsModel PromotionsSpec PromotionsProofs3 HierModel HierSpec HierProofs Digraph TopoModel TopoSpec
  FlatModel FlatSpec FlatProofs ConnProofs ExprModel ExprSpec UnflatModel UnflatSpec UnflatProofs FlattenModel FlattenSpec FlattenProofs FlattenProofs3 FlattenProofs4 CompileModel CompileSpec CompileProofs CompileProofs2
  AcceptSpec AcceptProofs2 AcceptProofs3 AcceptProofs4 IterModel.
Set Implicit Arguments.

Lemma visit_same {B} (f : string -> list B -> list B) d : (forall k l, Permutation l (f k l)) -> same_sets d (visit_sets f d).
Proof. intros P. induction d as [|[k l] d IH]; cbn; constructor; [split; [reflexivity|apply P]|exact IH]. Qed.

Lemma visit_reordered it : lawful it -> forall u p, reordered u (visit_models it p u).
Proof.
  intros (_ & PS & _) u. induction u as [g subs IH] using ugraph_ind'. intros p. cbn [visit_models].
  set (f := fun s : string * ugraph => (fst s, visit_models it (p ++ [fst s]) (snd s))).
  destruct (Permutation_map_inv f subs (Permutation_sym (PS p (map f subs)))) as (subs1 & E & P). rewrite E.
  apply (@Reordered g subs subs1); [exact P| |].
  - clear. induction subs1 as [|a l IHl]; constructor; [reflexivity|exact IHl].
  - intros k a b Ha Hb. rewrite nth_error_map, Ha in Hb. cbn in Hb. injection Hb as <-. cbn [snd f].
    rewrite Forall_forall in IH. apply IH. eapply Permutation_in; [apply Permutation_sym, P|]. eapply nth_error_In, Ha.
Qed.

(** ** Dictionaries of sets *)
Arguments visit_same {B} f d _.
Lemma same_keys {B} (d d' : dict (list B)) : same_sets d d' -> dkeys d' = dkeys d.
Proof. intros S. induction S as [|a b d d' [E _] S IH]; [reflexivity|]. unfold dkeys in *. cbn [map]. rewrite IH, E. reflexivity. Qed.
Lemma same_dmem {B} (d d' : dict (list B)) k : same_sets d d' -> dmem k d' = dmem k d.
Proof. intros S. unfold dmem. rewrite (same_keys S). reflexivity. Qed.
Lemma same_dget {B} (d d' : dict (list B)) k : same_sets d d' ->
  match dget d k, dget d' k with Some l, Some l' => Permutation l l' | None, None => True | _, _ => False end.
Proof.
  intros S. induction S as [|[k1 l1] [k2 l2] d d' [E P] S IH]; cbn [dget]; [exact I|]. cbn [fst snd] in E, P. subst k2.
  destruct (String.eqb k k1); [exact P|exact IH].
Qed.
Lemma smem_perm x l l' : Permutation l l' -> smem x l' = smem x l.
Proof.
  intros P. apply Bool.eq_iff_eq_true. rewrite !smem_spec. split; apply Permutation_in; [apply Permutation_sym|]; exact P.
Qed.

Definition same_lookups {B} (d d' : dict B) : Prop := forall k, dget d k = dget d' k.
Lemma dmem_dget {B} (d : dict B) k : dmem k d = match dget d k with Some _ => true | None => false end.
Proof.
  unfold dmem. induction d as [|[k' v] d IH]; [reflexivity|]. cbn [dkeys map smem dget fst] in *. destruct (String.eqb k k'); [reflexivity|exact IH].
Qed.
Lemma same_lookups_dmem {B} (d d' : dict B) k : same_lookups d d' -> dmem k d = dmem k d'.
Proof. intros S. rewrite !dmem_dget, (S k). reflexivity. Qed.
Lemma dget_dset_if {B} (d : dict B) k v k' : dget (dset d k v) k' = if String.eqb k' k then Some v else dget d k'.
Proof.
  destruct (String.eqb k' k) eqn:E; [apply String.eqb_eq in E; subst; apply dget_dset_same|].
  apply dget_dset_other. apply String.eqb_neq. exact E.
Qed.
Lemma same_lookups_dset {B} (d d' : dict B) k v : same_lookups d d' -> same_lookups (dset d k v) (dset d' k v).
Proof. intros S k'. rewrite !dget_dset_if, (S k'). reflexivity. Qed.

Lemma reverse_inner k l : forall (d : dict string) x, dget (fold_left (fun d3 kk => dset d3 kk k) l d) x = if smem x l then Some k else dget d x.
Proof.
  induction l as [|y l IH]; intros d x; [reflexivity|]. cbn [fold_left smem]. rewrite IH, dget_dset_if.
  destruct (smem x l), (String.eqb x y); reflexivity.
Qed.
Lemma reverse_same d d' : same_sets d d' -> same_lookups (create_reverse_map d) (create_reverse_map d').
Proof.
  unfold create_reverse_map. assert (G : forall e e', same_lookups e e' -> same_sets d d' ->
    same_lookups (fold_left (fun d2 kv => fold_left (fun d3 kk => dset d3 kk (fst kv)) (snd kv) d2) d e)
      (fold_left (fun d2 kv => fold_left (fun d3 kk => dset d3 kk (fst kv)) (snd kv) d2) d' e')).
  { intros e e' Se S. revert e e' Se. induction S as [|a b d d' [E P] S IH]; intros e e' Se; [exact Se|]. cbn [fold_left]. apply IH.
    intros x. rewrite !reverse_inner, (smem_perm x P), E, (Se x). reflexivity. }
  apply G. intros x. reflexivity.
Qed.

(** ** The flattening only looks names up *)
Section Flat.
  Context (h : list obj) (p2u p2u' : dict (list string)) (u2p u2p' : dict string).
  Hypothesis (SK : forall k, dmem k p2u = dmem k p2u') (SL : same_lookups u2p u2p').

  Lemma child_assign_same g uns log x : child_assign h p2u u2p g uns log x = child_assign h p2u' u2p' g uns log x.
  Proof. unfold child_assign. destruct x as [p s|p o]; [reflexivity|]. destruct (nth_error h o); [|reflexivity]. rewrite SK, SL. reflexivity. Qed.
  Lemma assign_all_same g uns l : forall log, assign_all h p2u u2p g uns log l = assign_all h p2u' u2p' g uns log l.
  Proof.
    induction l as [|x l IH]; intros log; [reflexivity|]. cbn [assign_all]. rewrite child_assign_same.
    destruct (child_assign h p2u' u2p' g uns log x); [|reflexivity]. cbn [bind]. apply IH.
  Qed.
  Lemma merge_graphs_same u : forall p ns st, merge_graphs h p2u u2p p ns u st = merge_graphs h p2u' u2p' p ns u st.
  Proof.
    induction u as [g subs IH] using ugraph_ind'. intros p ns st. rewrite !merge_graphs_eq.
    set (st0 := (_, snd st)). clearbody st0. revert st0. induction subs as [|[s su] r IHl]; intros st0; [reflexivity|].
    inversion IH as [|? ? Hsu IH']; subst. cbn [snd] in Hsu. cbn [merge_list]. rewrite assign_all_same.
    destruct (assign_all h p2u' u2p' _ _ _ _); [|reflexivity]. cbn [bind]. rewrite Hsu.
    destruct (merge_graphs h p2u' u2p' _ _ su _); [|reflexivity]. cbn [bind]. apply IHl, IH'.
  Qed.
  Lemma flatten_same u : flatten h p2u u2p u = flatten h p2u' u2p' u.
  Proof.
    unfold flatten. rewrite merge_graphs_same. f_equal. f_equal. apply flat_map_ext. intros x. unfold main_assign.
    destruct x as [p s|p o]; [reflexivity|]. destruct (nth_error h o); [|reflexivity]. rewrite SK, SL. reflexivity.
  Qed.
End Flat.

(** ** The maps from names to nodes *)
Section Scan.
  Context {A : Type} (eqb : A -> A -> bool) (attr : A -> nattr).

  Definition same_res {B} (R : B -> B -> Prop) (x y : res B) : Prop :=
    match x, y with Ok a, Ok b => R a b | Err e, Err e' => e = e' | _, _ => False end.

  Lemma scan_unpromoted_spec u2p x names : forall u2n : dict A,
    (exists u, scan_unpromoted names u2p x u2n = Ok u /\ NoDup names /\ (forall n, In n names -> dmem n u2n = false /\ dmem n u2p = true) /\
       forall k, dget u k = if smem k names then Some x else dget u2n k) \/
    (scan_unpromoted names u2p x u2n = Err KeyError /\ ~ (NoDup names /\ forall n, In n names -> dmem n u2n = false /\ dmem n u2p = true)).
  Proof.
    induction names as [|n r IH]; intros u2n; cbn [scan_unpromoted].
    { left. exists u2n. split; [reflexivity|]. split; [constructor|]. split; [intros n []|]. intros k. reflexivity. }
    destruct (dmem n u2n) eqn:E1.
    { right. split; [reflexivity|]. intros [_ H]. destruct (H n (or_introl eq_refl)). congruence. }
    destruct (dmem n u2p) eqn:E2; cbn [negb].
    2: { right. split; [reflexivity|]. intros [_ H]. destruct (H n (or_introl eq_refl)). congruence. }
    destruct (IH (dset u2n n x)) as [(u & Eu & ND & HN & HG)|[Eu HF]].
    - left. exists u. split; [exact Eu|]. split; [constructor; [|exact ND]|].
      + intros Hi. destruct (HN n Hi) as [K _]. rewrite dmem_dget, dget_dset_if, String.eqb_refl in K. discriminate.
      + split.
        * intros n' [<-|Hi]; [auto|]. destruct (HN n' Hi) as [K K2]. split; [|exact K2]. rewrite dmem_dget, dget_dset_if in K. rewrite dmem_dget.
          destruct (String.eqb n' n); [discriminate|exact K].
        * intros k. rewrite HG, dget_dset_if. cbn [smem]. destruct (smem k r), (String.eqb k n); reflexivity.
    - right. split; [exact Eu|]. intros [ND H]. inversion ND as [|? ? Nn ND']; subst. apply HF. split; [exact ND'|].
      intros n' Hi. destruct (H n' (or_intror Hi)) as [K K2]. split; [|exact K2]. rewrite dmem_dget, dget_dset_if. rewrite dmem_dget in K.
      destruct (String.eqb n' n) eqn:E; [|exact K]. apply String.eqb_eq in E. subst. contradiction.
  Qed.
  Lemma scan_unpromoted_same u2p u2p' x names names' (u2n u2n' : dict A) : Permutation names names' -> same_lookups u2p u2p' -> same_lookups u2n u2n' ->
    same_res same_lookups (scan_unpromoted names u2p x u2n) (scan_unpromoted names' u2p' x u2n').
  Proof.
    intros P SP SN.
    assert (IFF : (NoDup names /\ forall n, In n names -> dmem n u2n = false /\ dmem n u2p = true) <->
                  (NoDup names' /\ forall n, In n names' -> dmem n u2n' = false /\ dmem n u2p' = true)).
    { split; intros [ND H]; (split; [eapply Permutation_NoDup; [|exact ND]; auto using Permutation_sym|]); intros n Hi.
      - rewrite <- (same_lookups_dmem n SN), <- (same_lookups_dmem n SP). apply H. eapply Permutation_in; [apply Permutation_sym, P|exact Hi].
      - rewrite (same_lookups_dmem n SN), (same_lookups_dmem n SP). apply H. eapply Permutation_in; [exact P|exact Hi]. }
    destruct (scan_unpromoted_spec u2p x names u2n) as [(u & -> & ND & HN & HG)|[-> HF]];
      destruct (scan_unpromoted_spec u2p' x names' u2n') as [(u' & -> & ND' & HN' & HG')|[-> HF']]; cbn [same_res].
    - intros k. rewrite HG, HG', (smem_perm k P), (SN k). reflexivity.
    - apply HF'. apply IFF. auto.
    - apply HF. apply IFF. auto.
    - reflexivity.
  Qed.
  Lemma scan_nodes_same g p2u p2u' u2p u2p' : same_sets p2u p2u' -> same_lookups u2p u2p' ->
    forall l p2n u2n u2n', same_lookups u2n u2n' ->
    same_res (fun a b => fst a = fst b /\ same_lookups (snd a) (snd b)) (scan_nodes eqb attr g p2u u2p l p2n u2n) (scan_nodes eqb attr g p2u' u2p' l p2n u2n').
  Proof.
    intros SS SP l. induction l as [|x l IH]; intros p2n u2n u2n' SN; cbn [scan_nodes]; [split; [reflexivity|exact SN]|].
    destruct (attr x) as [v|b]; [|apply IH, SN]. destruct (Nat.ltb 1 _); [reflexivity|]. destruct (va_auto v); [apply IH, SN|].
    pose proof (same_dget (va_pname v) SS) as G. destruct (dget p2u (va_pname v)) as [names|], (dget p2u' (va_pname v)) as [names'|]; try contradiction.
    - pose proof (scan_unpromoted_same x G SP SN) as S.
      destruct (scan_unpromoted names u2p x u2n) as [u|e], (scan_unpromoted names' u2p' x u2n') as [u'|e']; cbn [same_res] in S; try contradiction; cbn [bind].
      + apply IH, S.
      + exact S.
    - destruct (preds eqb g x) as [|q qs]; [reflexivity|]. destruct (attr q) as [w|[]]; [reflexivity|apply IH, SN|reflexivity].
  Qed.

  Lemma find_same p2n (u2n u2n' : dict A) n ns : same_lookups u2n u2n' -> find_unique_node p2n u2n n ns = find_unique_node p2n u2n' n ns.
  Proof. intros S. unfold find_unique_node. rewrite (S _). reflexivity. Qed.
  Lemma connect_loop_same p2n (u2n u2n' : dict A) : same_lookups u2n u2n' -> forall cs st,
    connect_loop eqb attr p2n u2n cs st = connect_loop eqb attr p2n u2n' cs st.
  Proof.
    intros S cs. induction cs as [|[[s t] ns] cs IH]; intros st; [reflexivity|]. cbn [connect_loop]. unfold connect_step.
    rewrite !(find_same p2n _ _ S). destruct (find_unique_node p2n u2n' s ns) as [sn|]; [|reflexivity]. cbn [bind].
    destruct (find_unique_node p2n u2n' t ns) as [tn|]; [|reflexivity]. cbn [bind].
    match goal with |- bind ?a _ = _ => destruct a; [|reflexivity] end. cbn [bind]. apply IH.
  Qed.
  Lemma merge_connections_same g cs p2u p2u' u2p u2p' : same_sets p2u p2u' -> same_lookups u2p u2p' ->
    same_res (fun a b => fst (fst (fst a)) = fst (fst (fst b)) /\ snd (fst (fst a)) = snd (fst (fst b)) /\ same_lookups (snd (fst a)) (snd (fst b)) /\ snd a = snd b)
      (merge_connections eqb attr g cs p2u u2p) (merge_connections eqb attr g cs p2u' u2p').
  Proof.
    intros SS SP. unfold merge_connections.
    pose proof (@scan_nodes_same g _ _ _ _ SS SP (g_nodes g) [] [] [] (fun _ => eq_refl)) as S.
    destruct (scan_nodes eqb attr g p2u u2p (g_nodes g) [] []) as [[a b]|e], (scan_nodes eqb attr g p2u' u2p' (g_nodes g) [] []) as [[a' b']|e'];
      cbn [same_res fst snd] in S; try contradiction; cbn [bind fst snd]; [|exact S].
    destruct S as [<- S]. rewrite (@connect_loop_same a b b' S). destruct (connect_loop eqb attr a b' cs (g, [])) as [st|e]; cbn [bind same_res fst snd]; [|reflexivity].
    auto.
  Qed.
End Scan.

(** ** The whole compilation *)
(** Two compiled models with the same parts, except that sets may be listed in different
    orders and dictionaries may have been filled in different orders. *)
Record same_parts (c c' : compiled) : Prop := {
  sp_p2u : same_sets (c_p2u c) (c_p2u c');
  sp_u2p : same_lookups (c_u2p c) (c_u2p c');
  sp_connections : c_connections c = c_connections c';
  sp_dvs : c_dvs c = c_dvs c';
  sp_objective : c_objective c = c_objective c';
  sp_cons : c_cons c = c_cons c';
  sp_log : c_log c = c_log c';
  sp_graph : c_graph c = c_graph c';
  sp_p2n : c_p2n c = c_p2n c';
  sp_u2n : same_lookups (c_u2n c) (c_u2n c');
  sp_conns : c_conns c = c_conns c';
  sp_order : c_order c = c_order c'
}.

Lemma visited it h um u : lawful it -> construct_all h [] um = Ok u -> built h um (visit_models it [] u).
Proof. intros L U. exists u. split; [exact U|apply visit_reordered, L]. Qed.

Lemma compile_in_compiles it h shp dflt um m c : lawful it -> compile_in it h shp dflt um m = Ok c ->
  exists c0, compiles h shp dflt um m c0 /\ same_parts c0 c.
Proof.
  intros L H. unfold compile_in in H. apply inv_bind' in H. destruct H as (r & R & H). cbv zeta in H.
  apply inv_bind' in H. destruct H as (cs & CS & H). apply inv_bind' in H. destruct H as (dvs & DV & H).
  apply inv_bind' in H. destruct H as ([ob m'] & OB & H). apply inv_bind' in H. destruct H as (csts & CT & H).
  apply inv_bind' in H. destruct H as (u & U & H). apply inv_bind' in H. destruct H as ([g log] & F & H). cbn [fst snd] in H.
  apply inv_bind' in H. destruct H as (g1 & M & H). apply inv_bind' in H. destruct H as ([[[g2 p2n] u2n] conns] & MC & H).
  apply inv_bind' in H. destruct H as (order & S & H). injection H as <-.
  pose proof (visit_same (it_names it) (rp_p2u r) (proj1 L)) as SS. pose proof (reverse_same SS) as SL.
  rewrite <- (@flatten_same h _ _ _ _ (fun k => eq_sym (same_dmem k SS)) SL) in F.
  pose proof (@merge_connections_same _ irnode_eqb (node_attr h shp dflt log) g1 (collect_connections m "") _ _ _ _ SS SL) as X.
  rewrite MC in X. match type of X with same_res _ ?e _ => destruct e as [[[[g2' p2n'] u2n'] conns']|] eqn:MC' end; cbn [same_res fst snd] in X; [|contradiction].
  destruct X as (-> & -> & SN & ->).
  exists (Compiled (rp_p2u r) (create_reverse_map (rp_p2u r)) cs dvs ob csts log g2 p2n u2n' conns order). split.
  - exists r, (visit_models it [] u), g, g1. cbn [c_p2u c_u2p c_connections c_dvs c_objective c_cons c_log c_graph c_p2n c_u2n c_conns c_order].
    split; [exact R|]. split; [apply visited; assumption|]. split; [reflexivity|]. split; [reflexivity|]. split; [exact F|].
    split. { eexists. split; [apply (visit_same (it_nodes it)), L|exact M]. }
    split; [exact MC'|]. split; [exact S|]. split; [exact CS|]. split; [exact DV|]. split; [exact CT|]. eauto.
  - split; cbn; auto.
Qed.

(** Values only depend on these parts. *)
Lemma node_of_same h c c' p o : same_parts c c' -> node_of h c p o = node_of h c' p o.
Proof.
  intros S. unfold node_of. destruct (nth_error h o) as [ob|]; [|reflexivity]. destruct (String.eqb _ _); [reflexivity|].
  rewrite (sp_u2n S), (sp_conns S). reflexivity.
Qed.
Lemma result_same V h shp dflt (apply : nat -> list V -> nat -> V) init c c' p o : same_parts c c' ->
  result h shp dflt apply init c p o = result h shp dflt apply init c' p o.
Proof.
  intros S. unfold result, run. rewrite (node_of_same h p o S), (sp_order S), (sp_log S).
  match goal with |- fold_left _ ?l ?e _ = _ => assert (G : forall env, fold_left (exec h apply c) l env = fold_left (exec h apply c') l env) end; [|rewrite G; reflexivity].
  induction (c_order c') as [|x l IH]; intros env; [reflexivity|]. cbn [fold_left]. rewrite IH. f_equal. unfold exec. destruct x as [q s|q y]; [reflexivity|].
  destruct (nth_error h y) as [ob|]; [|reflexivity]. destruct (is_op ob); [|reflexivity].
  rewrite !(map_ext _ _ (fun d => node_of_same h q d S)). reflexivity.
Qed.

Lemma compile_in_solves it V h shp dflt um m c (apply : nat -> list V -> nat -> V) init :
  well_formed h um m shp -> inputs_not_targets h um m -> lawful it -> compile_in it h shp dflt um m = Ok c ->
  exists c0, compiles h shp dflt um m c0 /\ same_parts c0 c /\ solves h um m apply init (result h shp dflt apply init c0).
Proof.
  intros WF TI L H. destruct (@compile_in_compiles _ _ _ _ _ _ _ L H) as (c0 & K & S). exists c0. split; [exact K|]. split; [exact S|].
  apply compiles_solves; assumption.
Qed.

(** ** Acceptance *)
Lemma compile_in_accept it it' h shp dflt um m c : well_formed h um m shp -> inputs_not_targets h um m -> lawful it -> lawful it' ->
  compile_in it h shp dflt um m = Ok c -> exists c', compile_in it' h shp dflt um m = Ok c'.
Proof.
  intros WF TI L L' H. destruct (@compile_in_compiles _ _ _ _ _ _ _ L H) as (c0 & K & _).
  destruct (compiled_acceptable h shp dflt um m c0 WF TI K) as (_ & AC & AT & _ & _ & _ & rank & RK).
  unfold compile_in in H. apply inv_bind' in H. destruct H as (r & R & H). cbv zeta in H.
  apply inv_bind' in H. destruct H as (cs & CS & H). apply inv_bind' in H. destruct H as (dvs & DV & H).
  apply inv_bind' in H. destruct H as (ob & OB & H). apply inv_bind' in H. destruct H as (csts & CT & H).
  apply inv_bind' in H. destruct H as (u & U & _).
  destruct (passes_accept h shp dflt um m r (visit_models it' [] u) rank WF R (@visited _ h um _ L' U) AC AT RK) as (g & log & F & _ & Wg & NV & P).
  destruct (@merge_auto_any_ok _ irnode_eqb irnode_eqb_spec (node_attr h shp dflt log) g Wg NV _ (visit_same (it_nodes it') _ (proj2 (proj2 L')))) as (g1 & M & _).
  destruct (P g1 (ex_intro _ _ (conj (visit_same (it_nodes it') _ (proj2 (proj2 L'))) M))) as (g2 & p2n & u2n & conns & order & MC & S).
  pose proof (visit_same (it_names it') (rp_p2u r) (proj1 L')) as SS. pose proof (reverse_same SS) as SL.
  unfold compile_in. rewrite R. cbn [bind]. cbv zeta. rewrite CS. cbn [bind]. rewrite DV. cbn [bind]. rewrite OB. cbn [bind]. rewrite CT. cbn [bind]. rewrite U. cbn [bind].
  rewrite <- (@flatten_same h _ _ _ _ (fun k => eq_sym (same_dmem k SS)) SL), F. cbn [bind fst snd].
  unfold merge_auto_in. cbv zeta. rewrite M. cbn [bind].
  pose proof (@merge_connections_same _ irnode_eqb (node_attr h shp dflt log) g1 (collect_connections m "") _ _ _ _ SS SL) as X. rewrite MC in X.
  match type of X with same_res _ _ ?e => destruct e as [[[[g2' p2n'] u2n'] conns']|] end; cbn [same_res fst snd] in X; [|contradiction].
  destruct X as (<- & <- & SN & <-). cbn [bind]. rewrite S. cbn [bind]. eauto.
Qed.

Lemma compile_in_default h shp dflt um m : compile_in insertion_order h shp dflt um m = compile h shp dflt um m.
Proof.
  assert (VS : forall B (d : dict (list B)), visit_sets (fun _ l => l) d = d).
  { intros B d. unfold visit_sets. induction d as [|[k l] d IH]; [reflexivity|]. cbn [map fst snd]. rewrite IH. reflexivity. }
  assert (VM : forall u p, visit_models insertion_order p u = u).
  { intros u. induction u as [g subs IH] using ugraph_ind'. intros p. cbn [visit_models insertion_order it_subs]. f_equal.
    induction IH as [|[s su] l Hs Hl IHl]; [reflexivity|]. cbn [map fst snd] in *. rewrite Hs, IHl. reflexivity. }
  unfold compile_in, compile, merge_auto_in, merge_auto. cbn [it_names it_nodes insertion_order]. destruct (resolve m None) as [r|]; [|reflexivity]. cbn [bind]. cbv zeta.
  rewrite VS. destruct (rep_connections m); [|reflexivity]. cbn [bind]. destruct (rep_design_variables m); [|reflexivity]. cbn [bind].
  destruct (rep_objective m); [|reflexivity]. cbn [bind]. destruct (rep_constraints m); [|reflexivity]. cbn [bind]. destruct (construct_all h [] um) as [u|]; [|reflexivity]. cbn [bind].
  rewrite VM. destruct (flatten h _ _ u) as [[g log]|]; [|reflexivity]. cbn [bind fst snd]. rewrite VS. reflexivity.
Qed.
