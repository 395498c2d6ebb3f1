(** Deciding, for concrete hierarchies, the hypotheses of the theorem about restructured models. *)
From Verif Require Import PyBase NamesModel PromotionsModel PromotionsSpec HierModel HierSpec Digraph TopoModel FlatModel ExprModel UnflatModel UnflatSpec UnflatProofs
  FlattenModel FlattenSpec FlattenProofs3 CompileModel CompileSpec CompileProofs IterModel IterSpec LookupProofs DependSpec DependProofs LinkSpec LinkProofs LinkCheck RefactorSpec.
Local Open Scope list_scope.

Definition vplace := (list string * nat)%type.
Definition place_eqb (x y : vplace) : bool := irnode_eqb (NObj (fst x) (snd x)) (NObj (fst y) (snd y)).
Lemma place_eqb_ok x y : place_eqb x y = true <-> x = y.
Proof. unfold place_eqb. rewrite irnode_eqb_spec. destruct x, y; cbn. split; [intros E; injection E as <- <-; reflexivity|intros E; injection E as <- <-; reflexivity]. Qed.
Definition counterparts (l : list (vplace * vplace)) (p : list string) (o : nat) (p' : list string) (o' : nat) : Prop := In ((p, o), (p', o')) l.
Definition pairb (l : list (vplace * vplace)) (x y : vplace) : bool := existsb (fun e => place_eqb (fst e) x && place_eqb (snd e) y) l.
Lemma pairb_ok l x y : pairb l x y = true -> counterparts l (fst x) (snd x) (fst y) (snd y).
Proof.
  unfold pairb. intros E. apply existsb_exists in E. destruct E as ([a b] & Hi & E). apply andb_true_iff in E. destruct E as [E1 E2]. apply place_eqb_ok in E1, E2. cbn [fst snd] in *. subst.
  destruct x, y. exact Hi.
Qed.
Definition all_pairs (l : list (vplace * vplace)) (p q : list string) (a b : list nat) : bool :=
  Nat.eqb (length a) (length b) && forallb (fun xy => pairb l (p, fst xy) (q, snd xy)) (combine a b).
Lemma all_pairs_ok l p q a b : all_pairs l p q a b = true -> Forall2 (fun d d' => counterparts l p d q d') a b.
Proof.
  unfold all_pairs. revert b. induction a as [|x a IH]; intros [|y b] E; cbn in E; try discriminate; [constructor|].
  apply andb_true_iff in E. destruct E as [E1 E]. apply andb_true_iff in E. destruct E as [E2 E3]. constructor; [exact (pairb_ok l (p, x) (q, y) E2)|]. apply IH. rewrite E1, E3. reflexivity.
Qed.

(** All listed objects occur. *)
Lemma um_listed_at um p ins outs : In (p, (ins, outs)) (um_list um) -> exists decls subs, um_at um p (UM ins outs decls subs).
Proof.
  revert p. induction um as [i o d s IH] using umodel_ind'; intros p Hi. cbn [um_list] in Hi. destruct Hi as [E|Hi].
  - injection E as <- <- <-. exists d, s. constructor.
  - apply in_flat_map in Hi. destruct Hi as ([nm sm] & Hs & Hi). apply in_map_iff in Hi. destruct Hi as ([q [i1 o1]] & E & Hi). cbn [fst snd] in *. injection E as <- <- <-.
    rewrite Forall_forall in IH. destruct (IH _ Hs q Hi) as (d1 & s1 & A). exists d1, s1. eapply um_step; eassumption.
Qed.
Lemma reach_needed h outs n x : In x (Nat.iter n (fun l => nodup Nat.eq_dec (more h l)) outs) -> needed h outs x.
Proof.
  revert x. induction n as [|n IH]; intros x Hx; [now apply needed_leaf|]. cbn in Hx. apply nodup_In in Hx. unfold more in Hx. apply in_app_iff in Hx. destruct Hx as [Hx|Hx]; [auto|].
  apply in_flat_map in Hx. destruct Hx as (y & Hy & Hx). destruct (nth_error h y) as [ob|] eqn:E; [|destruct Hx]. apply in_app_iff in Hx. destruct Hx as [Hx|Hx].
  - eapply needed_dep; [apply IH, Hy|exists ob; auto].
  - destruct (is_op ob) eqn:O; [|destruct Hx]. eapply needed_out; [apply IH, Hy|exists ob; auto].
Qed.
Lemma listed_occurs h um p o : In (p, o) (all_objects h um) -> occurs h um p o.
Proof.
  unfold all_objects. intros Hi. apply in_flat_map in Hi. destruct Hi as ([q [ins outs]] & Hu & Hi). apply in_map_iff in Hi. destruct Hi as (x & E & Hi). cbn [fst snd] in *. injection E as <- <-.
  destruct (um_listed_at _ _ _ _ Hu) as (decls & subs & A). exists ins, outs, decls, subs. split; [exact A|]. apply in_app_iff in Hi. destruct Hi as [Hi|Hi]; [auto|right]. eapply reach_needed, Hi.
Qed.

Definition variableb (h : list obj) (o : nat) : bool := match nth_error h o with Some ob => negb (is_op ob) | None => false end.
Lemma variableb_ok h o : variableb h o = true <-> variable h o.
Proof.
  unfold variableb, variable. split; [destruct (nth_error h o) as [ob|]; [|discriminate]; intros E; exists ob; split; [reflexivity|now apply negb_true_iff]|intros (ob & -> & E); now rewrite E].
Qed.
Definition listedb (h : list obj) (um : umodel) (x : vplace) : bool := existsb (place_eqb x) (all_objects h um).
Lemma listedb_ok h um x : listedb h um x = true -> occurs h um (fst x) (snd x).
Proof. intros E. apply existsb_exists in E. destruct E as (y & Hy & E). apply place_eqb_ok in E. subst. apply listed_occurs. destruct y. exact Hy. Qed.

Definition restructuredb (h h' : list obj) (um um' : umodel) (c c' : compiled) (same : nat -> nat -> bool) (l : list (vplace * vplace)) : bool :=
  forallb (fun x => negb (variableb h (snd x)) || existsb (fun e => place_eqb (fst e) x) l) (all_objects h um) &&
  forallb (fun e => listedb h' um' (snd e) && variableb h' (snd (snd e))) l &&
  forallb (fun e => forallb (fun d => negb (irnode_eqb (node_of h c (fst (fst e)) (snd (fst e))) (node_of h c (fst (fst d)) (snd (fst d)))) ||
     irnode_eqb (node_of h' c' (fst (snd e)) (snd (snd e))) (node_of h' c' (fst (snd d)) (snd (snd d)))) l) l &&
  forallb (fun x => match nth_error h (snd x) with
    | Some ob => negb (is_op ob) || existsb (fun y => match nth_error h' (snd y) with
        | Some ob' => is_op ob' && same (snd x) (snd y) && all_pairs l (fst x) (fst y) (ob_deps ob) (ob_deps ob') && all_pairs l (fst x) (fst y) (ob_outs ob) (ob_outs ob')
        | None => false end) (all_objects h' um')
    | None => true end) (all_objects h um).
Lemma restructured_check it it' h h' shp shp' dflt dflt' um um' m m' c c' same l : lawful it -> lawful it' -> well_formed h um m shp -> well_formed h' um' m' shp' -> inputs_not_targets h um m -> inputs_not_targets h' um' m' ->
  compile_in it h shp dflt um m = Ok c -> compile_in it' h' shp' dflt' um' m' = Ok c' -> closedb h um = true -> restructuredb h h' um um' c c' same l = true ->
  restructured h um m h' um' m' (fun a a' => same a a' = true) (counterparts l).
Proof.
  intros L L' WF WF' TI TI' H H' CL K. unfold restructuredb in K. apply andb_true_iff in K. destruct K as [K K4]. apply andb_true_iff in K. destruct K as [K K3]. apply andb_true_iff in K. destruct K as [K1 K2].
  rewrite forallb_forall in K1, K2, K3, K4. split.
  - intros p o Ho Vo. specialize (K1 _ (occurs_listed h um p o CL Ho)). cbn [fst snd] in K1. rewrite (proj2 (variableb_ok h o) Vo) in K1. cbn [negb orb] in K1. apply existsb_exists in K1. destruct K1 as ([a [p' o']] & Hi & E).
    apply place_eqb_ok in E. cbn in E. subst. exists p', o'. exact Hi.
  - intros p o p' o' q u q' u' R1 R2 Hl. apply (same_node it h shp dflt um m c L WF TI H) in Hl. destruct Hl as (_ & _ & _ & _ & E). apply (same_node it' h' shp' dflt' um' m' c' L' WF' TI' H').
    pose proof (K2 _ R1) as A1. pose proof (K2 _ R2) as A2. apply andb_true_iff in A1, A2. destruct A1 as [A1 B1], A2 as [A2 B2]. cbn [fst snd] in *. apply listedb_ok in A1, A2. apply variableb_ok in B1, B2.
    specialize (K3 _ R1). rewrite forallb_forall in K3. specialize (K3 _ R2). cbn [fst snd] in *. rewrite E in K3. rewrite (proj2 (irnode_eqb_spec _ _) eq_refl) in K3. cbn [negb orb] in K3. apply irnode_eqb_spec in K3. auto.
  - intros p a ob Ha E O. specialize (K4 _ (occurs_listed h um p a CL Ha)). cbn [fst snd] in K4. rewrite E, O in K4. cbn [negb orb] in K4. apply existsb_exists in K4. destruct K4 as ([q a'] & Hi & T). cbn [fst snd] in T.
    destruct (nth_error h' a') as [ob'|] eqn:E'; [|discriminate]. repeat (apply andb_true_iff in T; destruct T as [T ?]).
    exists q, a', ob'. split; [now apply listed_occurs|]. split; [exact E'|]. split; [exact T|]. split; [assumption|]. split; apply all_pairs_ok; assumption.
Qed.

(** Inputs have inputs as counterparts, and no variable is left to be supplied. *)
Definition declaredb (h : list obj) (o : nat) : bool := match nth_error h o with Some ob => match ob_kind ob with KDecl => true | _ => false end | None => false end.
Definition givenb (h h' : list obj) (um um' : umodel) (c : compiled) (l : list (vplace * vplace)) : bool :=
  forallb (fun x => forallb (fun o => existsb (fun e => place_eqb (fst e) (fst x, o) &&
     existsb (fun y => place_eqb (fst y, 0) (fst (snd e), 0) && inb (snd (snd e)) (fst (snd y))) (um_list um')) l) (fst (snd x))) (um_list um) &&
  forallb (fun x => negb (declaredb h (snd x)) || existsb (fun y => variableb h (snd y) && negb (declaredb h (snd y)) && irnode_eqb (node_of h c (fst x) (snd x)) (node_of h c (fst y) (snd y))) (all_objects h um)) (all_objects h um).
Lemma given_check it h h' shp shp' dflt um um' m m' c l : lawful it -> well_formed h um m shp -> well_formed h' um' m' shp' -> inputs_not_targets h um m -> 
  compile_in it h shp dflt um m = Ok c -> closedb h um = true -> givenb h h' um um' c l = true ->
  forall p o n, given h um m p o n -> exists p' o' n', counterparts l p o p' o' /\ given h' um' m' p' o' n'.
Proof.
  intros L WF WF' TI H CL K p o n G. unfold givenb in K. apply andb_true_iff in K. destruct K as [K1 K2]. rewrite forallb_forall in K1, K2. destruct G as [(x & q & M & _)|(Ho & C & U)].
  - destruct M as (_ & ins & outs & decls & subs & A & Hi). specialize (K1 _ (um_listed _ _ _ _ _ _ A)). cbn [fst snd] in K1. rewrite forallb_forall in K1. specialize (K1 _ Hi).
    apply existsb_exists in K1. destruct K1 as ([a [p' o']] & He & E). apply andb_true_iff in E. destruct E as [E E2]. apply place_eqb_ok in E. cbn [fst snd] in *. subst.
    apply existsb_exists in E2. destruct E2 as ([p1 [ins1 outs1]] & Hu & E). cbn [fst snd] in E. apply andb_true_iff in E. destruct E as [E1 E2]. apply place_eqb_ok in E1. injection E1 as ->. apply inb_ok in E2.
    destruct (um_listed_at _ _ _ _ Hu) as (d1 & s1 & A1). exists p', o'.
    assert (N : exists x', named h' o' x').
    { assert (I : input_object h' o') by (eapply in_object; eassumption). destruct I as (ob & E & _). exists (ob_name ob), ob. auto. }
    destruct N as (x' & N). destruct (called_total h' shp' um' m' WF' p' KInput o' x') as (q' & _ & C').
    { split; [exact N|]. exists ins1, outs1, d1, s1. auto. }
    eexists. split; [exact He|left; exact C'].
  - exfalso. specialize (K2 _ (occurs_listed h um p o CL Ho)). cbn [fst snd] in K2.
    assert (KD : forall p o n, called h um m p KDeclared o n -> declared_object h o). { intros p1 o1 n1 (x & q & (_ & i & oo & d & s & A & Hi) & _). eapply decl_object; eassumption. }
    assert (DB : forall o, declared_object h o -> declaredb h o = true). { intros o1 (ob & E & KK). unfold declaredb. rewrite E, KK. reflexivity. }
    rewrite (DB o (KD p o n C)) in K2. cbn [negb orb] in K2. apply existsb_exists in K2. destruct K2 as ([q u] & Hy & E). cbn [fst snd] in E. apply andb_true_iff in E. destruct E as [E E3]. apply andb_true_iff in E. destruct E as [E1 E2].
    apply variableb_ok in E1. apply irnode_eqb_spec in E3. apply listed_occurs in Hy.
    assert (Vo : variable h o). { destruct (KD p o n C) as (ob & E & KK). exists ob. split; [exact E|]. unfold is_op. now rewrite KK. }
    assert (Lk : linked h um m p o q u) by (apply (same_node it h shp dflt um m c L WF TI H); auto).
    destruct (proj1 (free_linked it h shp dflt um m c L WF TI H _ _ _ _ Lk) (ex_intro _ n (conj C U))) as (n2 & C2 & _).
    rewrite (DB u (KD q u n2 C2)) in E2. discriminate.
Qed.
