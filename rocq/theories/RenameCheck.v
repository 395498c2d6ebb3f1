(** Deciding, for concrete programs, the hypotheses of the theorems about renaming. *)
From Verif Require Import PyBase NamesModel PromotionsModel PromotionsSpec HierModel HierSpec Digraph TopoModel FlatModel ExprModel UnflatModel UnflatSpec UnflatProofs
  FlattenModel FlattenSpec CompileModel CompileSpec IterModel IterSpec WorldModel LinkSpec LinkProofs LinkCheck RenameSpec RenameProofs.
Local Open Scope list_scope.

Fixpoint acceptedb (w : world) (l : list wevent) : bool :=
  match l with
  | [] => true
  | e :: r => (negb (gives_name e) || negb (Nat.eqb (entries (wstep w e) (called_on e)) (entries w (called_on e)))) && acceptedb (wstep w e) r
  end.
Lemma accepted_check l : acceptedb world0 l = true -> names_accepted l.
Proof.
  intros T before e after -> G. unfold whistory. rewrite fold_left_app. cbn [fold_left]. revert T. generalize world0. induction before as [|x before IH]; intros w T; cbn [app acceptedb fold_left] in *; apply andb_true_iff in T; destruct T as [T1 T2].
  - rewrite G in T1. cbn in T1. intros E. rewrite E, Nat.eqb_refl in T1. discriminate.
  - apply IH, T2.
Qed.
Definition renamedb (h h' : list obj) (um um' : umodel) (c c' : compiled) : bool :=
  forallb (fun x => forallb (fun y => Bool.eqb (irnode_eqb (node_of h c (fst x) (snd x)) (node_of h c (fst y) (snd y)))
    (irnode_eqb (node_of h' c' (place um um' (fst x)) (snd x)) (node_of h' c' (place um um' (fst y)) (snd y)))) (all_objects h um)) (all_objects h um).
Lemma renamed_check it it' h h' shp shp' dflt dflt' um um' m m' c c' : lawful it -> lawful it' -> well_formed h um m shp -> well_formed h' um' m' shp' -> inputs_not_targets h um m -> inputs_not_targets h' um' m' ->
  compile_in it h shp dflt um m = Ok c -> compile_in it' h' shp' dflt' um' m' = Ok c' -> same_objects h h' -> same_models um um' -> closedb h um = true -> renamedb h h' um um' c c' = true ->
  forall p q p' q' o o', same_place um um' p p' -> same_place um um' q q' -> (linked h um m p o q o' <-> linked h' um' m' p' o q' o').
Proof.
  intros L L' WF WF' TI TI' H H' SO SM CL K p q p' q' o o' P Q. rewrite (same_node it h shp dflt um m c L WF TI H), (same_node it' h' shp' dflt' um' m' c' L' WF' TI' H').
  pose proof (wf_distinct h shp um m WF) as D. pose proof (wf_distinct h' shp' um' m' WF') as D'.
  assert (OC : forall p p' o, same_place um um' p p' -> (occurs h um p o <-> occurs h' um' p' o)).
  { intros p1 p1' o1 P1. split; intros Ho.
    - destruct (occurs_at h h' SO um um' p1 o1 SM Ho) as (p2 & P2 & Ho2). rewrite <- (place_ok _ _ _ _ P1 D), (place_ok _ _ _ _ P2 D). exact Ho2.
    - destruct (occurs_at h' h (objects_sym _ _ SO) um' um p1' o1 (models_sym _ _ SM) Ho) as (p2 & P2 & Ho2). rewrite <- (place_ok _ _ _ _ (place_sym _ _ _ _ P1) D'), (place_ok _ _ _ _ P2 D'). exact Ho2. }
  assert (VA : forall o, variable h o <-> variable h' o) by (intros o1; split; apply variable_same; [exact SO|apply objects_sym, SO]).
  assert (G : occurs h um p o -> occurs h um q o' -> (node_of h c p o = node_of h c q o' <-> node_of h' c' p' o = node_of h' c' q' o')).
  { intros Ho Ho'. unfold renamedb in K. rewrite forallb_forall in K. specialize (K _ (occurs_listed h um p o CL Ho)). rewrite forallb_forall in K. specialize (K _ (occurs_listed h um q o' CL Ho')). cbn [fst snd] in K.
    rewrite (place_ok _ _ _ _ P D), (place_ok _ _ _ _ Q D) in K. apply Bool.eqb_prop in K. rewrite <- !irnode_eqb_spec, K. tauto. }
  rewrite <- (OC p p' o P), <- (OC q q' o' Q), <- (VA o), <- (VA o'). tauto.
Qed.
