(** The objects of two hierarchies that differ by a renaming; renamings that replace characters. *)
From Verif Require Import PyBase NamesModel PromotionsModel PromotionsSpec PromotionsProofs HierModel HierSpec ExprModel UnflatModel UnflatSpec
  FlattenModel FlattenSpec FlattenProofs3 CompileModel CompileSpec RenameSpec RenameProofs ConsistentSpec ConsistentProofs ConsistentProofs2.
Local Open Scope list_scope.

Lemma Forall2_at {A B} (P : A -> B -> Prop) l l' i a : Forall2 P l l' -> nth_error l i = Some a -> exists b, nth_error l' i = Some b /\ P a b.
Proof.
  intros F. revert i. induction F as [|x y l l' H F IH]; intros [|i]; cbn; try discriminate.
  - intros E. injection E as <-. eauto.
  - apply IH.
Qed.
Lemma hierarchies_renamed r h h' shp shp' um p um0 : um_at um p um0 -> forall m, hierarchy h shp um m -> hierarchy h' shp' (rename_um r um) (rename_model r m) ->
  exists m0, hierarchy h shp um0 m0 /\ hierarchy h' shp' (rename_um r um0) (rename_model r m0).
Proof.
  induction 1 as [um|ins outs decls subs nm sm p um0 Hi A IH]; intros m H H'; [eauto|].
  apply In_nth_error in Hi. destruct Hi as (i & Ei). inversion H as [? ? ? ? ? _ _ _ F4 F5]; subst. cbn [rename_um] in H'. inversion H' as [? ? ? ? ? _ _ _ _ F5']; subst.
  destruct (Forall2_at _ _ _ _ _ F4 Ei) as ([[n pr] sm'] & Eb & _). apply (IH sm').
  - exact (F5 _ _ _ Ei Eb).
  - refine (F5' i _ (r n, option_map (map r) pr, rename_model r sm') (map_nth_error _ _ _ Ei) _). rewrite ren_subs. exact (map_nth_error _ _ _ Eb).
Qed.
Lemma members_renamed r h h' shp shp' um m : same_objects h h' -> well_formed h um m shp -> well_formed h' (rename_um r um) (rename_model r m) shp' -> renamed_objects r h h' um.
Proof.
  intros SO WF WF'. split; [exact SO|]. intros p k o x (Nx & ins & outs & decls & subs & A & Hi).
  destruct (hierarchies_renamed r h h' shp shp' um p _ A m (f_hierarchy WF) (f_hierarchy WF')) as (m0 & H & H').
  inversion H as [? ? ? ? ? F1 F2 F3 _ _]; subst. cbn [rename_um] in H'. inversion H' as [? ? ? ? ? F1' F2' F3' _ _]; subst. clear H H'. destruct m0 as [i0 o0 d0 cs dv cn ob su]. cbn in *.
  assert (G : forall (P P' : nat -> string * shape -> Prop) l e, (forall o xs, P o xs -> named h o (fst xs)) -> (forall o xs, P' o xs -> named h' o (fst xs)) ->
    Forall2 P l e -> Forall2 P' l (map (fun xs => (r (fst xs), snd xs)) e) -> In o l -> named h' o (r x)).
  { intros P P' l e HP HP' F F' I. apply In_nth_error in I. destruct I as (i & Ei). destruct (Forall2_at _ _ _ _ _ F Ei) as (b & Eb & Pb). destruct (Forall2_at _ _ _ _ _ F' Ei) as (b' & Eb' & Pb').
    rewrite (map_nth_error _ _ _ Eb) in Eb'. injection Eb' as <-. apply HP in Pb. apply HP' in Pb'. cbn [fst] in Pb'. destruct Pb as (ob1 & E1 & N1), Nx as (ob2 & E2 & N2). rewrite E1 in E2. injection E2 as <-. rewrite <- N2, N1. exact Pb'. }
  destruct k; [eapply (G _ _ _ _ ) with (5 := Hi); [| |exact F1|exact F1']|eapply (G _ _ _ _ ) with (5 := Hi); [| |exact F2|exact F2']|eapply (G _ _ _ _ ) with (5 := Hi); [| |exact F3|exact F3']]; cbn; tauto.
Qed.
Lemma rename_same_models r um : same_models um (rename_um r um).
Proof.
  induction um as [i o d subs IH] using umodel_ind'. cbn [rename_um]. constructor; [now rewrite map_length|]. intros j a b Ea Eb. rewrite (map_nth_error _ _ _ Ea) in Eb. injection Eb as <-. cbn [snd].
  rewrite Forall_forall in IH. exact (IH _ (nth_error_In _ _ Ea)).
Qed.
Lemma rename_place r um : forall p p', same_place um (rename_um r um) p p' -> p' = map r p.
Proof.
  induction um as [i o d subs IH] using umodel_ind'. intros p p' S. remember (UM i o d subs) as a. remember (rename_um r a) as b. destruct S as [|ins outs decls subs1 ins' outs' decls' subs' j n n' um um' p p' E E' S]; [reflexivity|].
  injection Heqa as -> -> -> ->. cbn [rename_um] in Heqb. injection Heqb as -> -> -> ->. rewrite (map_nth_error _ _ _ E) in E'. injection E' as <- <-. cbn [map]. f_equal.
  rewrite Forall_forall in IH. exact (IH _ (nth_error_In _ _ E) p p' S).
Qed.
Lemma rename_place_at r um p y : um_at um p y -> same_place um (rename_um r um) p (map r p).
Proof.
  induction 1 as [y|i o d ss nm sm p y Hi _ IH]; [constructor|]. cbn [map rename_um]. apply In_nth_error in Hi. destruct Hi as (j & Ej). eapply sp_sub; [exact Ej|exact (map_nth_error _ _ _ Ej)|exact IH].
Qed.

(** Replacing characters. *)
Fixpoint replace_chars (f : Ascii.ascii -> Ascii.ascii) (x : string) : string :=
  match x with EmptyString => EmptyString | String c x' => String (f c) (replace_chars f x') end.
Lemma replace_app f a b : replace_chars f (a ++ b)%string = (replace_chars f a ++ replace_chars f b)%string.
Proof. induction a as [|c a IH]; [reflexivity|]. cbn. now rewrite IH. Qed.
Lemma replace_renaming f g : (forall c, g (f c) = c) -> (forall c, f (g c) = c) -> f "."%char = "."%char -> renaming (replace_chars f) (replace_chars g).
Proof.
  intros B F D. split.
  - intros x. induction x as [|c x IH]; [reflexivity|]. cbn. now rewrite B, IH.
  - intros x. induction x as [|c x IH]; [reflexivity|]. cbn. now rewrite F, IH.
  - intros p x. unfold dotted. induction p as [|n p IH]; [reflexivity|]. cbn [map app]. cbn [String.concat].
    destruct (p ++ [x]) as [|y l] eqn:E; [destruct p; discriminate|]. destruct (map (replace_chars f) p ++ [replace_chars f x]) as [|y' l'] eqn:E'; [destruct p; discriminate|].
    rewrite replace_app. f_equal. rewrite replace_app, IH. f_equal. cbn. now rewrite D.
Qed.
