(** Flattening: acceptance, promoted names and the end-to-end statement. *)
From Coq Require Import Permutation.
From Verif Require Import PyBase NamesModel NamesProofs PromotionsModel PromotionsSpec PromotionsProofs PromotionsProofs2 HierSpec HierProofs Digraph
  FlatModel FlatSpec FlatProofs ExprModel UnflatModel UnflatSpec UnflatProofs UnflatProofs2 FlattenModel FlattenSpec FlattenProofs FlattenProofs2.
Set Implicit Arguments.

Section Accept.
  Context (h : list obj) (p2u : dict (list string)) (u2p : dict string).

  Definition fine (uns : string) (x : irnode) : Prop :=
    forall p o, x = NObj p o -> exists ob, nth_error h o = Some ob /\
      (known p2u u2p (prepend_namespace uns (ob_name ob)) \/ auto_named h o).

  Lemma child_assign_ok g uns log x : fine uns x -> exists log', child_assign h p2u u2p g uns log x = Ok log'.
  Proof.
    intros F. destruct x as [p s|p o]; cbn; [eauto|]. destruct (F p o eq_refl) as (ob & E & K). rewrite E.
    destruct (dmem (prepend_namespace uns (ob_name ob)) p2u) eqn:D; [eauto|].
    destruct (dget u2p (prepend_namespace uns (ob_name ob))) as [pn|] eqn:G; [eauto|].
    destruct K as [[K|[pn K]]|(ob' & E' & K)]; [congruence|congruence|]. rewrite E in E'. injection E' as <-.
    rewrite K, String.eqb_refl. eauto.
  Qed.
  Lemma assign_all_ok g uns : forall l log, (forall x, In x l -> fine uns x) -> exists log', assign_all h p2u u2p g uns log l = Ok log'.
  Proof.
    induction l as [|x r IH]; intros log F; cbn; [eauto|].
    destruct (child_assign_ok g log (F x (or_introl eq_refl))) as [log1 ->]. cbn [bind]. apply IH. intros y Hy. apply F. right. exact Hy.
  Qed.
  Lemma merge_graphs_ok u : forall p ns st,
    (forall q gq x, below (ug_subs u) q gq -> node gq x -> is_varnode h x -> fine (ns_path ns q) x) ->
    exists st', merge_graphs h p2u u2p p ns u st = Ok st'.
  Proof.
    induction u as [g subs IH] using ugraph_ind'. intros p ns st F. rewrite merge_graphs_eq. cbn [ug_subs] in F.
    set (st0 := (_, _)). clearbody st0. revert st0. induction subs as [|[s su] r IHl]; intros st0; cbn [merge_list]; [eauto|].
    inversion IH as [|? ? Hsu IH']; subst. cbn [snd] in Hsu.
    match goal with |- exists st', bind ?a _ = _ => assert (A : exists log1, a = Ok log1) end.
    { apply assign_all_ok. intros x Hx. apply filter_In in Hx. destruct Hx as [Hx V].
      apply (F [s] (ug_graph su)); [|exact Hx|apply is_var_node_spec, V]. exists s, su, []. split; [reflexivity|]. split; [left; reflexivity|apply graph_at_here]. }
    destruct A as [log1 ->]. cbn [bind].
    match goal with |- exists st', bind ?a _ = _ => assert (A : exists st2, a = Ok st2) end.
    { apply Hsu. intros q gq x (t & tu & q' & -> & Ht & G) Hx V. apply (F (s :: t :: q') gq); [|exact Hx|exact V].
      exists s, su, (t :: q'). split; [reflexivity|]. split; [left; reflexivity|]. destruct su. econstructor; eassumption. }
    destruct A as [st2 ->]. cbn [bind]. apply IHl; [exact IH'|].
    intros q gq x (t & tu & q' & -> & Ht & G). apply F. exists t, tu, q'. split; [reflexivity|]. split; [right; exact Ht|exact G].
  Qed.
  Lemma flatten_ok u : (forall q gq x, q <> [] -> graph_at u q gq -> node gq x -> is_varnode h x -> fine (ns_path EmptyString q) x) ->
    exists st, flatten h p2u u2p u = Ok st.
  Proof.
    intros F. unfold flatten. apply merge_graphs_ok. intros q gq x B. apply F.
    - destruct B as (? & ? & ? & -> & _). discriminate.
    - apply graph_at_split. right. exact B.
  Qed.
End Accept.

(** ** The graphs built for a hierarchy of models *)
Lemma inputs_exist_sub h ins outs decls subs s sm : inputs_exist h (UM ins outs decls subs) -> In (s, sm) subs -> inputs_exist h sm.
Proof. intros H Hs p i o d su x A. apply (H (s :: p) i o d su x). econstructor; eassumption. Qed.

Section Umodel.
  Variable P : umodel -> Prop.
  Hypothesis H : forall i o d subs, Forall (fun s => P (snd s)) subs -> P (UM i o d subs).
  Fixpoint umodel_ind' (m : umodel) : P m :=
    match m with
    | UM i o d subs =>
      H i o d ((fix go l : Forall (fun s => P (snd s)) l :=
        match l with
        | [] => Forall_nil _
        | s :: r => Forall_cons s (umodel_ind' (snd s)) (go r)
        end) subs)
    end.
End Umodel.

Lemma construct_ug_ok h um : inputs_exist h um -> forall p u, construct_all h p um = Ok u -> ug_ok p u.
Proof.
  induction um as [ins outs decls subs IH] using umodel_ind'. intros I p u H.
  destruct (@sub_graphs _ _ _ _ _ _ _ H) as (S1 & S2 & S3).
  destruct (@graph_of_model h p ins outs decls subs u) as (f & F1 & F2 & F3 & F4 & F5 & F6); [|exact H|].
  { intros i Hi. apply (I [] ins outs decls subs i); [constructor|exact Hi]. }
  destruct u as [g us]. cbn in *. constructor; [exact F6| |exact S3|].
  - assert (FF : forall x, scope h ins (outs ++ decls) x -> (exists o, f x = NObj p o) \/ (exists s, f x = NModel p s /\ In s (map fst us))).
    { intros x Hx. destruct (F1 x Hx) as [(o & E & _)|(s & E & Hs & _)]; [left; eauto|]. right. exists s. split; [exact E|apply S2, Hs]. }
    intros x Hx. apply F4 in Hx. destruct Hx as [(s & Hs & ->)|[(i & Hi & ->)|(a & b & Ha & Hb & _ & [->| ->])]].
    + right. exists s. split; [reflexivity|apply S2, Hs].
    + apply FF. left. exact Hi.
    + apply FF. right. exact Ha.
    + apply FF. right. exact Hb.
  - intros s su Hs. destruct (S1 s su Hs) as (sm & Hm & C). rewrite Forall_forall in IH.
    apply (IH (s, sm) Hm); [|exact C]. eapply inputs_exist_sub; eassumption.
Qed.

(** The graph at a path is that of the model at that path. *)
Lemma graph_at_model h um : forall p u q gq, construct_all h p um = Ok u -> graph_at u q gq ->
  exists um' u', um_at um q um' /\ construct_all h (p ++ q) um' = Ok u' /\ ug_graph u' = gq.
Proof.
  induction um as [ins outs decls subs IH] using umodel_ind'. intros p u q gq H G.
  destruct (@sub_graphs _ _ _ _ _ _ _ H) as (S1 & _ & _). destruct G as [g us|g us s su q gq Hs G].
  - exists (UM ins outs decls subs), (UG g us). rewrite app_nil_r. split; [constructor|]. split; [exact H|reflexivity].
  - cbn in S1. destruct (S1 s su Hs) as (sm & Hm & C). rewrite Forall_forall in IH.
    destruct (IH (s, sm) Hm _ _ _ _ C G) as (um' & u' & A & C' & E). exists um', u'.
    split; [econstructor; eassumption|]. split; [|exact E]. rewrite <- app_assoc in C'. exact C'.
Qed.

(** ** Order of the submodels *)
Lemma Forall2_nth {A B} (R : A -> B -> Prop) l l' : Forall2 R l l' ->
  (forall b, In b l' -> exists k a, nth_error l k = Some a /\ nth_error l' k = Some b /\ R a b) /\
  (forall a, In a l -> exists k b, nth_error l k = Some a /\ nth_error l' k = Some b /\ R a b).
Proof.
  intros F. induction F as [|a b l l' H F [IH1 IH2]]; [split; intros ? []|]. split.
  - intros y [<-|Hy]; [exists 0, a; auto|]. destruct (IH1 y Hy) as (k & x & E1 & E2 & Rx). exists (S k), x. auto.
  - intros y [<-|Hy]; [exists 0, b; auto|]. destruct (IH2 y Hy) as (k & x & E1 & E2 & Rx). exists (S k), x. auto.
Qed.
Lemma reordered_subs g subs u' : reordered (UG g subs) u' -> exists subs', u' = UG g subs' /\
  Permutation (map fst subs) (map fst subs') /\
  (forall s su', In (s, su') subs' -> exists su, In (s, su) subs /\ reordered su su') /\
  (forall s su, In (s, su) subs -> exists su', In (s, su') subs' /\ reordered su su').
Proof.
  intros H. inversion H as [? ? subs1 subs' P F R]; subst. exists subs'. split; [reflexivity|]. destruct (Forall2_nth F) as [F1 F2]. split; [|split].
  - eapply perm_trans; [apply Permutation_map, P|]. clear -F. induction F as [|a b l l' E F IH]; [constructor|]. cbn. rewrite E. constructor. exact IH.
  - intros s su' Hs. destruct (F1 _ Hs) as (k & [s0 su] & E1 & E2 & E). cbn in E. subst s0. exists su.
    split; [eapply Permutation_in; [apply Permutation_sym, P|]; eapply nth_error_In, E1|]. exact (R _ _ _ E1 E2).
  - intros s su Hs. apply (Permutation_in _ P) in Hs. destruct (F2 _ Hs) as (k & [s0 su'] & E1 & E2 & E). cbn in E. subst s0. exists su'.
    split; [eapply nth_error_In, E2|]. exact (R _ _ _ E1 E2).
Qed.
Lemma reordered_graph u u' : reordered u u' -> ug_graph u' = ug_graph u.
Proof. intros H. destruct H. reflexivity. Qed.
Lemma reordered_at u : forall u' q gq, reordered u u' -> (graph_at u q gq <-> graph_at u' q gq).
Proof.
  induction u as [g subs IH] using ugraph_ind'. intros u' q gq H. destruct (reordered_subs H) as (subs' & -> & _ & S1 & S2). rewrite Forall_forall in IH.
  split; intros G; inversion G as [|? ? s su p ? Hs G']; subst; try apply ga_here.
  - destruct (S2 _ _ Hs) as (su' & Hs' & R). apply ga_sub with (su := su'); [exact Hs'|]. apply (IH (s, su) Hs su' p gq R), G'.
  - destruct (S1 _ _ Hs) as (su0 & Hs' & R). apply ga_sub with (su := su0); [exact Hs'|]. apply (IH (s, su0) Hs' su p gq R), G'.
Qed.
Lemma reordered_refl u : reordered u u.
Proof.
  induction u as [g subs IH] using ugraph_ind'. rewrite Forall_forall in IH. apply Reordered with (subs1 := subs); [apply Permutation_refl| |].
  - clear. induction subs; constructor; auto.
  - intros k a b Ea Eb. rewrite Ea in Eb. injection Eb as <-. apply IH. eapply nth_error_In, Ea.
Qed.
Lemma reordered_ok u : forall p u', ug_ok p u -> reordered u u' -> ug_ok p u'.
Proof.
  induction u as [g subs IH] using ugraph_ind'. intros p u' K H. destruct (reordered_subs H) as (subs' & -> & P & S1 & S2). rewrite Forall_forall in IH.
  inversion K as [? ? ? Wg Nd ND Ks]; subst. constructor.
  - exact Wg.
  - intros x Hx. destruct (Nd x Hx) as [E|(s & E & Hs)]; [left; exact E|right]. exists s. split; [exact E|]. eapply Permutation_in; eassumption.
  - eapply Permutation_NoDup; eassumption.
  - intros s su' Hs. destruct (S1 _ _ Hs) as (su & Hs' & R). apply (IH (s, su) Hs'); [apply Ks, Hs'|exact R].
Qed.

Lemma built_self h um u : construct_all h [] um = Ok u -> built h um u.
Proof. intros H. exists u. split; [exact H|apply reordered_refl]. Qed.
Lemma built_ug_ok h um u : inputs_exist h um -> built h um u -> ug_ok [] u.
Proof. intros I (u0 & C & R). eapply reordered_ok; [|exact R]. exact (construct_ug_ok I _ C). Qed.
Lemma built_at h um u q gq : built h um u -> graph_at u q gq -> exists um' u', um_at um q um' /\ construct_all h q um' = Ok u' /\ ug_graph u' = gq.
Proof. intros (u0 & C & R) G. apply (reordered_at _ _ R) in G. exact (@graph_at_model _ _ _ _ _ _ C G). Qed.

(** What a node of the graph of one model stands for. *)
Lemma model_graph_nodes h p ins outs decls subs u : (forall i, In i ins -> i < length h) ->
  construct_all h p (UM ins outs decls subs) = Ok u ->
  (forall o, node (ug_graph u) (NObj p o) -> scope h ins (outs ++ decls) o) /\
  (forall o o' n, node (ug_graph u) (NObj p o) -> node (ug_graph u) (NObj p o') -> named h o n -> named h o' n -> o = o') /\
  (forall a b, edge (ug_graph u) (NObj p a) (NObj p b) -> exists x y, flows h x y /\
      (forall k, named h x k <-> named h a k) /\ (forall k, named h y k <-> named h b k)) /\
  (forall s, node (ug_graph u) (NModel p s) -> In s (map fst subs)).
Proof.
  intros I H. destruct (@graph_of_model h p ins outs decls subs u I H) as (f & F1 & F2 & F3 & F4 & F5 & F6).
  (* every object node is f of something in scope with the same name *)
  assert (NF : forall o, node (ug_graph u) (NObj p o) -> exists x, scope h ins (outs ++ decls) x /\ f x = NObj p o).
  { intros o Ho. apply F4 in Ho. destruct Ho as [(s & _ & E)|[(i & Hi & E)|(a & b & Ha & Hb & _ & [E|E])]]; [discriminate| | |].
    - exists i. split; [left; exact Hi|auto].
    - exists a. split; [right; exact Ha|auto].
    - exists b. split; [right; exact Hb|auto]. }
  assert (NG : forall x o, scope h ins (outs ++ decls) x -> f x = NObj p o -> scope h ins (outs ++ decls) o /\ forall k, named h x k <-> named h o k).
  { intros x o Hx E. destruct (F1 x Hx) as [(o' & E' & Ho & N)|(s & E' & _)]; rewrite E in E'; [injection E' as <-; auto|discriminate]. }
  split; [|split; [|split]].
  - intros o Ho. destruct (NF o Ho) as (x & Hx & E). apply (NG x o Hx E).
  - intros o o' n Ho Ho' N N'. destruct (NF o Ho) as (x & Hx & E), (NF o' Ho') as (y & Hy & E').
    destruct (NG x o Hx E) as [_ Nx], (NG y o' Hy E') as [_ Ny].
    assert (f x = f y) by (apply (F2 x y n n Hx Hy); [apply Nx, N|apply Ny, N'|reflexivity]). congruence.
  - intros a b He. apply F3 in He. destruct He as (x & y & Hx & Hy & Hf & Ea & Eb). exists x, y. split; [exact Hf|].
    split; [apply (NG x a); [right; exact Hx|auto]|apply (NG y b); [right; exact Hy|auto]].
  - intros s Hs. apply F4 in Hs. destruct Hs as [(s' & Hs & E)|[(i & Hi & E)|(a & b & Ha & Hb & _ & [E|E])]].
    + injection E as <-. exact Hs.
    + destruct (F1 i (or_introl Hi)) as [(o' & E' & _)|(s' & E' & Hs & _)]; rewrite <- E in E'; [discriminate|injection E' as <-; exact Hs].
    + destruct (F1 a (or_intror Ha)) as [(o' & E' & _)|(s' & E' & Hs & _)]; rewrite <- E in E'; [discriminate|injection E' as <-; exact Hs].
    + destruct (F1 b (or_intror Hb)) as [(o' & E' & _)|(s' & E' & Hs & _)]; rewrite <- E in E'; [discriminate|injection E' as <-; exact Hs].
Qed.

(** ** Names *)
Lemma ns_path_of p q : Forall (fun n => n <> ""%string) (p ++ q) -> ns_path (ns_of p) q = ns_of (p ++ q).
Proof.
  revert p. induction q as [|n q IH]; intros p F; cbn; [rewrite app_nil_r; reflexivity|].
  assert (E : prepend_namespace (ns_of p) n = ns_of (p ++ [n])).
  { rewrite prepend_ns_of by (apply Forall_app in F; apply F). reflexivity. }
  rewrite E. change (fold_left prepend_namespace q (ns_of (p ++ [n]))) with (ns_path (ns_of (p ++ [n])) q).
  rewrite IH; rewrite <- app_assoc; [reflexivity|exact F].
Qed.
Lemma count_dots_cons c s : has_dot (String c s) = false <-> Ascii.eqb c "."%char = false /\ has_dot s = false.
Proof. unfold has_dot. cbn. destruct (Ascii.eqb c "."%char); cbn; split; try tauto; try (intros [? ?]; discriminate); discriminate. Qed.
Lemma split_dots_app s t : has_dot s = false -> split_dots (s ++ "." ++ t)%string = s :: split_dots t.
Proof.
  induction s as [|c s IH]; intros D; [reflexivity|]. apply count_dots_cons in D. destruct D as [D1 D2].
  specialize (IH D2). cbn [append split_dots] in *. rewrite D1, IH. reflexivity.
Qed.
Lemma split_dots_none s : has_dot s = false -> split_dots s = [s].
Proof.
  induction s as [|c s IH]; intros D; [reflexivity|]. apply count_dots_cons in D. destruct D as [D1 D2].
  cbn [split_dots]. rewrite D1, (IH D2). reflexivity.
Qed.
Lemma split_dots_concat l : l <> [] -> Forall (fun n => has_dot n = false) l -> split_dots (String.concat "." l) = l.
Proof.
  induction l as [|n l IH]; intros NE F; [congruence|]. inversion F as [|? ? Fn Fl]; subst. destruct l as [|n' l].
  - cbn. apply split_dots_none, Fn.
  - change (String.concat "." (n :: n' :: l)) with (n ++ "." ++ String.concat "." (n' :: l))%string. rewrite split_dots_app by exact Fn.
    rewrite IH; [reflexivity|discriminate|exact Fl].
Qed.
Lemma namespace_part_dotted q x : Forall (fun n => has_dot n = false) q -> has_dot x = false -> namespace_part (dotted q x) = ns_of q.
Proof.
  intros F D. unfold namespace_part, dotted. rewrite split_dots_concat.
  - rewrite removelast_last. reflexivity.
  - destruct q; discriminate.
  - apply Forall_app. split; [exact F|constructor; [exact D|constructor]].
Qed.
Lemma hex_no_dot k : has_dot (hex_id k) = false.
Proof.
  unfold hex_id. destruct (gen_hex_name k) as [x|] eqn:E; [|reflexivity]. apply gen_hex_name_chars, check_ok_spec, chars_no_dot in E.
  unfold has_dot. rewrite E. reflexivity.
Qed.

(** ** Promoted names *)
Section Promoted.
  Context (m : model) (r : rp).
  Hypothesis (W : well_named m) (R : resolve m None = Ok r).
  Local Notation p2u := (rp_p2u r).
  Local Notation u2p := (create_reverse_map (rp_p2u r)).

  Lemma p2u_key k : In k (dkeys p2u) -> exists p kd x s q, has_var m p kd x s /\ promoted_ns m p x q /\ k = dotted q x.
  Proof.
    intros Hk. destruct (p2u_correct _ _ _ W R) as (_ & HR). pose proof (filled_p2u _ _ _ R) as HF.
    apply In_key_dget in Hk. destruct Hk as [l Hl]. pose proof (dget_In _ _ Hl) as Hi. apply HF in Hi.
    destruct l as [|un l]; [congruence|]. assert (M : maps_to p2u k un) by (exists (un :: l); split; [exact Hl|left; reflexivity]).
    apply HR in M. destruct M as (p & kd & x & s & q & Hv & Hp & _ & ->). exists p, kd, x, s, q. auto.
  Qed.
  Lemma no_dots p : Forall (fun n => has_dot n = false /\ n <> ""%string) p -> Forall (fun n => has_dot n = false) p.
  Proof. apply Forall_impl. intros a [H _]. exact H. Qed.

  Lemma nspart_promoted p k x s q : has_var m p k x s -> promoted_ns m p x q ->
    known p2u u2p (prepend_namespace (ns_of p) x) /\ nspart_of p2u u2p (ns_of p) x = ns_of q.
  Proof.
    intros Hv Hp. pose proof (has_var_path_names _ _ _ _ _ W Hv) as Np. pose proof (promoted_ns_names _ _ _ _ _ _ W Hv Hp) as Nq.
    pose proof (has_var_no_dot _ _ _ _ _ W Hv) as Dx. destruct (p2u_correct _ _ _ W R) as (_ & HR).
    assert (Mq : maps_to p2u (dotted q x) (dotted p x)) by (apply HR; exists p, k, x, s, q; auto).
    apply (u2p_correct _ _ _ _ _ W R) in Mq. unfold known, nspart_of. rewrite prepend_ns_of by (apply names_nonempty, Np). cbv zeta.
    split; [right; eauto|]. destruct (dmem (dotted p x) p2u) eqn:D.
    - apply dmem_spec, p2u_key in D. destruct D as (p' & kd' & x' & s' & q' & Hv' & Hp' & E).
      apply dotted_inj in E; [|assumption|eapply promoted_ns_names; eassumption|assumption|eapply has_var_no_dot; eassumption].
      destruct E as [-> ->]. apply promoted_ns_self in Hp'. rewrite (promoted_ns_fun _ _ _ _ _ W Hp Hp'). reflexivity.
    - rewrite Mq. apply namespace_part_dotted; [apply no_dots, Nq|exact Dx].
  Qed.
  Lemma nspart_auto p m' k h : chosen_names_only h m -> sub_at m p m' -> (exists i ob, nth_error h i = Some ob /\ ob_num ob = k) -> nspart_of p2u u2p (ns_of p) (hex_id k) = EmptyString.
  Proof.
    intros C A (i & ob & Ei & Ek). pose proof (sub_at_names _ _ _ W A) as Np. unfold nspart_of. rewrite prepend_ns_of by (apply names_nonempty, Np). cbv zeta.
    destruct (dmem (dotted p (hex_id k)) p2u) eqn:D.
    - exfalso. apply dmem_spec, p2u_key in D. destruct D as (p' & kd' & x' & s' & q' & Hv' & Hp' & E).
      apply dotted_inj in E; [|assumption|eapply promoted_ns_names; eassumption|apply hex_no_dot|eapply has_var_no_dot; eassumption].
      destruct E as [_ E]. rewrite <- Ek in E. exact (C _ _ _ _ Hv' _ _ Ei E).
    - destruct (dget u2p (dotted p (hex_id k))) as [pn|] eqn:G; [|reflexivity]. exfalso.
      apply (u2p_correct _ _ _ _ _ W R) in G. destruct (p2u_correct _ _ _ W R) as (_ & HR). apply HR in G.
      destruct G as (p' & kd' & x' & s' & q' & Hv' & Hp' & E & _).
      apply dotted_inj in E; [|assumption|eapply has_var_path_names; eassumption|apply hex_no_dot|eapply has_var_no_dot; eassumption].
      destruct E as [_ E]. rewrite <- Ek in E. exact (C _ _ _ _ Hv' _ _ Ei E).
  Qed.
End Promoted.

(** ** Correspondence of the objects with the hierarchy *)
Lemma Forall2_len {A B} (R : A -> B -> Prop) l l' : Forall2 R l l' -> length l = length l'.
Proof. induction 1; cbn; congruence. Qed.
Lemma hier_at h shp um : forall m p um', hierarchy h shp um m -> um_at um p um' -> exists m', sub_at m p m' /\ hierarchy h shp um' m'.
Proof.
  intros m p um' H A. revert m H. induction A as [um|ins outs decls subs s sm p um' Hs A IH]; intros m H.
  - exists m. split; [constructor|exact H].
  - inversion H as [? ? ? ? ? _ _ _ FS HS]; subst. apply In_nth_error in Hs. destruct Hs as [k Hk].
    assert (L : k < length subs) by (apply nth_error_Some; congruence). rewrite (Forall2_len FS) in L.
    destruct (nth_error (m_subs m) k) as [b|] eqn:Eb; [|apply nth_error_None in Eb; lia].
    assert (Nm : s = fst (fst b)).
    { clear -FS Hk Eb. revert k Hk Eb. induction FS as [|a b' l l' E FS IH]; intros [|k] Hk Eb; try discriminate; cbn in Hk, Eb.
      - injection Hk as ->. injection Eb as ->. exact E.
      - eapply IH; eassumption. }
    destruct (IH (snd b) (HS k _ _ Hk Eb)) as (m' & A' & H'). exists m'. split; [|exact H'].
    destruct b as [[nm pr] sm']. cbn in Nm, A'. subst nm. econstructor; [|exact A']. eapply nth_error_In; exact Eb.
Qed.
Lemma um_at_fun h shp um m : well_named m -> hierarchy h shp um m -> forall p a b, um_at um p a -> um_at um p b -> a = b.
Proof.
  intros W H p a b A. revert m W H b. induction A as [um|ins outs decls subs s sm p um' Hs A IH]; intros m W H b B.
  - inversion B; subst. reflexivity.
  - inversion B as [|? ? ? ? ? sm2 ? ? Hs2 B']; subst. inversion H as [? ? ? ? ? _ _ _ FS HS]; subst.
    assert (ND : NoDup (map fst subs)).
    { assert (E : map fst subs = map (fun t => fst (fst t)) (m_subs m)).
      { clear -FS. induction FS as [|x y l l' E FS IH]; [reflexivity|]. cbn. congruence. }
      rewrite E. apply (W [] m). constructor. }
    assert (E : sm2 = sm).
    { clear -ND Hs Hs2. induction subs as [|[t tm] l IH]; [destruct Hs|]. cbn in ND. inversion ND as [|? ? N1 N2]; subst.
      destruct Hs as [E|Hs], Hs2 as [E2|Hs2].
      - congruence.
      - exfalso. apply N1. injection E as -> ->. apply (in_map fst) in Hs2. exact Hs2.
      - exfalso. apply N1. injection E2 as -> ->. apply (in_map fst) in Hs. exact Hs.
      - auto. }
    subst sm2. apply In_nth_error in Hs. destruct Hs as [k Hk].
    assert (L : k < length subs) by (apply nth_error_Some; congruence). rewrite (Forall2_len FS) in L.
    destruct (nth_error (m_subs m) k) as [c|] eqn:Ec; [|apply nth_error_None in Ec; lia].
    apply (IH (snd c)); [|exact (HS k _ _ Hk Ec)|exact B']. destruct c as [[nm pr] cm]. eapply well_named_sub; [exact W|]. eapply nth_error_In; exact Ec.
Qed.
Lemma own_var h shp ins outs decls subs m o : hierarchy h shp (UM ins outs decls subs) m -> In o (ins ++ outs ++ decls) ->
  exists k x s, In (x, s) (vars k m) /\ named h o x /\
    (In o ins /\ k = KInput /\ input_object h o \/ In o outs /\ k = KOutput /\ output_object h o \/ In o decls /\ k = KDeclared /\ declared_object h o).
Proof.
  intros H Ho. inversion H as [? ? ? ? ? F1 F2 F3 _ _]; subst. rewrite !in_app_iff in Ho. destruct Ho as [Ho|[Ho|Ho]].
  - destruct (Forall2_In_l _ _ _ _ F1 Ho) as ([x s] & Hx & K & N & _). exists KInput, x, s. cbn in *. auto 6.
  - destruct (Forall2_In_l _ _ _ _ F2 Ho) as ([x s] & Hx & K & N & _). exists KOutput, x, s. cbn in *. auto 8.
  - destruct (Forall2_In_l _ _ _ _ F3 Ho) as ([x s] & Hx & K & N & _). exists KDeclared, x, s. cbn in *. auto 8.
Qed.
