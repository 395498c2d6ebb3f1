(** Deciding, for concrete hierarchies, the hypotheses of the theorems about linked variables. *)
From Verif Require Import PyBase NamesModel PromotionsModel PromotionsSpec HierModel HierSpec HierProofs Digraph TopoModel FlatModel ExprModel UnflatModel UnflatSpec UnflatProofs
  FlattenModel FlattenSpec FlattenProofs4 CompileModel CompileSpec IterModel IterSpec AcceptSpec LinkSpec LinkProofs.
Local Open Scope list_scope.

(** No connection leads to an input. *)
Definition targetsb (m : model) : bool :=
  match maps_of m with
  | Ok mp =>
    forallb (fun pc => match find_promoted_name (dotted (fst pc) (snd (snd pc))) mp with
      | Ok t => forallb (fun pm => forallb (fun xs => match find_promoted_name (dotted (fst pm) (fst xs)) mp with Ok i => negb (String.eqb i t) | Err _ => true end) (vars KInput (snd pm))) (postorder m)
      | Err _ => true end) (conns_declared m)
  | Err _ => false
  end.
Lemma targets_check h shp um m : well_formed h um m shp -> targetsb m = true -> inputs_not_targets h um m.
Proof.
  intros WF T p o n (p0 & a & b & (y & A & Hc) & R) (x & q & Hm & P & ->). unfold targetsb in T. destruct (maps_of m) as [mp|] eqn:MP; [|discriminate].
  rewrite forallb_forall in T. specialize (T (p0, (a, b))). cbn [fst snd] in T. rewrite (proj2 (find_promoted_iff m mp _ _ (f_named WF) MP) R) in T.
  assert (Hi : In (p0, (a, b)) (conns_declared m)).
  { unfold conns_declared. apply in_flat_map. exists (p0, y). split; [apply postorder_spec, A|]. apply in_map_iff. exists (a, b). auto. }
  specialize (T Hi). rewrite forallb_forall in T. destruct (@member_own h shp um m p KInput o x (f_hierarchy WF) Hm) as (s & (m1 & A1 & Hv) & _).
  specialize (T (p, m1) (proj2 (postorder_spec _ _ _) A1)). rewrite forallb_forall in T. specialize (T (x, s) Hv). cbn [fst snd] in T.
  assert (R1 : resolves_to m (dotted p x) (dotted q x)). { exists p, KInput, x, s, q. split; [exists m1; auto|]. auto. }
  rewrite (proj2 (find_promoted_iff m mp _ _ (f_named WF) MP) R1), String.eqb_refl in T. discriminate.
Qed.

(** All objects of a hierarchy. *)
Fixpoint um_list (um : umodel) : list (list string * (list nat * list nat)) :=
  match um with UM ins outs _ subs => ([], (ins, outs)) :: flat_map (fun t => map (fun x => (fst t :: fst x, snd x)) (um_list (snd t))) subs end.
Lemma um_listed um p ins outs decls subs : um_at um p (UM ins outs decls subs) -> In (p, (ins, outs)) (um_list um).
Proof.
  intros A. remember (UM ins outs decls subs) as y. induction A as [y|i o d s nm sm p y Hs A IH]; subst; [left; reflexivity|]. cbn [um_list]. right. apply in_flat_map. exists (nm, sm). split; [exact Hs|].
  apply in_map_iff. exists (p, (ins, outs)). auto.
Qed.
Definition inb (x : nat) (l : list nat) : bool := existsb (Nat.eqb x) l.
Lemma inb_ok x l : inb x l = true <-> In x l.
Proof. unfold inb. rewrite existsb_exists. split; [intros (y & Hy & E); apply Nat.eqb_eq in E; subst; exact Hy|intros Hi; exists x; split; [exact Hi|apply Nat.eqb_refl]]. Qed.
(** One step, and [length h] steps, of following references. *)
Definition more (h : list obj) (l : list nat) : list nat :=
  l ++ flat_map (fun x => match nth_error h x with Some ob => ob_deps ob ++ (if is_op ob then ob_outs ob else []) | None => [] end) l.
Definition reach (h : list obj) (l : list nat) : list nat := Nat.iter (length h) (fun l => nodup Nat.eq_dec (more h l)) l.
Definition all_objects (h : list obj) (um : umodel) : list (list string * nat) :=
  flat_map (fun x => map (pair (fst x)) (fst (snd x) ++ reach h (snd (snd x)))) (um_list um).
Definition closedb (h : list obj) (um : umodel) : bool :=
  forallb (fun x => let l := reach h (snd (snd x)) in forallb (fun i => inb i l) (snd (snd x)) && forallb (fun i => inb i l) (more h l)) (um_list um).
Lemma occurs_listed h um p o : closedb h um = true -> occurs h um p o -> In (p, o) (all_objects h um).
Proof.
  intros T (ins & outs & decls & subs & A & Ho). pose proof (um_listed _ _ _ _ _ _ A) as Hu. unfold all_objects. apply in_flat_map. exists (p, (ins, outs)). split; [exact Hu|]. apply in_map. cbn [fst snd]. apply in_app_iff.
  destruct Ho as [Ho|Ho]; [auto|right]. unfold closedb in T. rewrite forallb_forall in T. specialize (T _ Hu). cbn [fst snd] in T. apply andb_true_iff in T. destruct T as [T1 T2]. rewrite forallb_forall in T1, T2.
  assert (S : forall x y ob, In x (reach h outs) -> nth_error h x = Some ob -> In y (ob_deps ob ++ (if is_op ob then ob_outs ob else [])) -> In y (reach h outs)).
  { intros x y ob Hx E Hy. apply inb_ok, T2. unfold more. apply in_app_iff. right. apply in_flat_map. exists x. rewrite E. auto. }
  induction Ho as [x Hx|x y _ IH (ob & E & Hy)|x y _ IH (ob & E & O & Hy)].
  - apply inb_ok, T1, Hx.
  - eapply S; [exact IH|exact E|]. apply in_app_iff. auto.
  - eapply S; [exact IH|exact E|]. rewrite O. apply in_app_iff. auto.
Qed.
(** The same variables are linked. *)
Definition linkedb (h : list obj) (um : umodel) (c c' : compiled) : bool :=
  forallb (fun x => forallb (fun y => Bool.eqb (irnode_eqb (node_of h c (fst x) (snd x)) (node_of h c (fst y) (snd y))) (irnode_eqb (node_of h c' (fst x) (snd x)) (node_of h c' (fst y) (snd y)))) (all_objects h um)) (all_objects h um).
Lemma linked_check it it' h shp dflt dflt' um m m' c c' : lawful it -> lawful it' -> well_formed h um m shp -> well_formed h um m' shp -> inputs_not_targets h um m -> inputs_not_targets h um m' ->
  compile_in it h shp dflt um m = Ok c -> compile_in it' h shp dflt' um m' = Ok c' -> closedb h um = true -> linkedb h um c c' = true ->
  forall p o p' o', linked h um m p o p' o' <-> linked h um m' p o p' o'.
Proof.
  intros L L' WF WF' TI TI' H H' CL K p o p' o'. rewrite (same_node it h shp dflt um m c L WF TI H), (same_node it' h shp dflt' um m' c' L' WF' TI' H').
  assert (G : occurs h um p o -> occurs h um p' o' -> (node_of h c p o = node_of h c p' o' <-> node_of h c' p o = node_of h c' p' o')).
  { intros Ho Ho'. unfold linkedb in K. rewrite forallb_forall in K. specialize (K _ (occurs_listed h um p o CL Ho)). rewrite forallb_forall in K. specialize (K _ (occurs_listed h um p' o' CL Ho')). cbn [fst snd] in K.
    apply Bool.eqb_prop in K. rewrite <- !irnode_eqb_spec, K. tauto. }
  tauto.
Qed.
