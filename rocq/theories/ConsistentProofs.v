(** A consistently renamed hierarchy has the same structure. *)
From Verif Require Import PyBase NamesModel PromotionsModel PromotionsSpec PromotionsProofs HierModel HierSpec ExprModel UnflatModel UnflatSpec
  FlattenModel FlattenSpec FlattenProofs3 CompileModel CompileSpec AcceptSpec LinkSpec RenameSpec RenameProofs ConsistentSpec.
Local Open Scope list_scope.

Lemma renaming_sym r s : renaming r s -> renaming s r.
Proof.
  intros [B F P]. split; [exact F|exact B|]. intros p x.
  transitivity (s (dotted (map r (map s p)) (r (s x)))).
  - rewrite F, map_map. rewrite (map_ext (fun y => r (s y)) (fun y => y)) by (intros; apply F). now rewrite map_id.
  - rewrite <- P. apply B.
Qed.
Lemma map_back r s : renaming r s -> forall p, map s (map r p) = p.
Proof. intros [B _ _] p. rewrite map_map. rewrite (map_ext _ (fun y => y)) by (intros; apply B). apply map_id. Qed.
Lemma ren_inj r s : renaming r s -> forall x y, r x = r y -> x = y.
Proof. intros [B _ _] x y E. rewrite <- (B x), <- (B y), E. reflexivity. Qed.
Lemma rename_back r s : renaming r s -> forall m, rename_model s (rename_model r m) = m.
Proof.
  intros RN. pose proof (rn_back _ _ RN) as B. intros m. induction m as [m IH] using model_ind'; destruct m as [ins outs decl conns dvs csts obj subs]; cbn [m_subs] in IH. cbn [rename_model].
  assert (E1 : forall l : list (string * shape), map (fun xs => (s (fst xs), snd xs)) (map (fun xs => (r (fst xs), snd xs)) l) = l).
  { intros l. rewrite map_map. rewrite (map_ext _ (fun y => y)); [apply map_id|]. intros [x y]. cbn. now rewrite B. }
  rewrite !E1. f_equal.
  - rewrite map_map. rewrite (map_ext _ (fun y => y)); [apply map_id|]. intros [x y]. cbn. now rewrite !B.
  - apply (map_back r s RN).
  - apply (map_back r s RN).
  - destruct obj as [x|]; cbn; [now rewrite B|reflexivity].
  - rewrite map_map. cbn. rewrite <- (map_id subs) at 2. apply map_ext_in. intros [[n pr] sm] Hi. cbn. rewrite B. f_equal; [f_equal|].
    + destruct pr as [l|]; cbn; [now rewrite (map_back r s RN)|reflexivity].
    + exact (IH _ _ _ Hi).
Qed.
Lemma rename_um_back r s : renaming r s -> forall um, rename_um s (rename_um r um) = um.
Proof.
  intros RN um. induction um as [i o d subs IH] using umodel_ind'. cbn [rename_um]. f_equal. rewrite map_map. cbn. rewrite <- (map_id subs) at 2. apply map_ext_in. intros [n sm] Hi. cbn.
  rewrite (rn_back _ _ RN). f_equal. rewrite Forall_forall in IH. exact (IH _ Hi).
Qed.

Section Forward.
  Context (r s : string -> string) (RN : renaming r s).
  Lemma ren_subs m : m_subs (rename_model r m) = map (fun t => (r (fst (fst t)), option_map (map r) (snd (fst t)), rename_model r (snd t))) (m_subs m).
  Proof. destruct m. reflexivity. Qed.
  Lemma ren_in_subs m nm pr sm : In (nm, pr, sm) (m_subs m) -> In (r nm, option_map (map r) pr, rename_model r sm) (m_subs (rename_model r m)).
  Proof. intros Hi. rewrite ren_subs. apply in_map_iff. exists (nm, pr, sm). auto. Qed.
  Lemma ren_sub_at m p y : sub_at m p y -> sub_at (rename_model r m) (map r p) (rename_model r y).
  Proof. induction 1 as [m|m nm pr sm p y Hi _ IH]; [constructor|]. cbn [map]. eapply sub_step; [apply ren_in_subs; exact Hi|exact IH]. Qed.
  Lemma ren_vars k m x t : In (x, t) (vars k m) -> In (r x, t) (vars k (rename_model r m)).
  Proof. intros Hi. destruct m, k; cbn in *; apply in_map_iff; exists (x, t); auto. Qed.
  Lemma ren_has_var m p k x t : has_var m p k x t -> has_var (rename_model r m) (map r p) k (r x) t.
  Proof. intros (y & A & Hi). exists (rename_model r y). split; [now apply ren_sub_at|now apply ren_vars]. Qed.
  Lemma ren_lifts pr x : lifts (option_map (map r) pr) (r x) <-> lifts pr x.
  Proof.
    destruct pr as [l|]; cbn; [|tauto]. split; intros H; [|now apply in_map]. apply in_map_iff in H. destruct H as (y & E & Hy). apply (ren_inj r s RN) in E. now subst.
  Qed.
  Lemma ren_promoted m p x q : promoted_ns m p x q -> promoted_ns (rename_model r m) (map r p) (r x) (map r q).
  Proof.
    induction 1 as [m x|m nm pr sm p x Hi _ IH Hl|m nm pr sm p x q Hi _ IH Hl]; cbn [map].
    - constructor.
    - eapply pn_lifted; [apply ren_in_subs; exact Hi|exact IH|now apply ren_lifts].
    - eapply pn_prefixed; [apply ren_in_subs; exact Hi|exact IH|]. destruct Hl as [Hl|Hl]; [left; destruct q; [congruence|discriminate]|right; now rewrite ren_lifts].
  Qed.
  Lemma ren_resolves m f n : resolves_to m f n -> resolves_to (rename_model r m) (r f) (r n).
  Proof.
    intros (p & k & x & t & q & Hv & P & -> & E). exists (map r p), k, (r x), t, (map r q). split; [now apply ren_has_var|]. split; [now apply ren_promoted|].
    split; [apply (rn_parts _ _ RN)|]. destruct E as [-> | ->]; [left|right]; apply (rn_parts _ _ RN).
  Qed.
  Lemma ren_conn m p a b : declared_conn m p a b -> declared_conn (rename_model r m) (map r p) (r a) (r b).
  Proof. intros (y & A & Hi). exists (rename_model r y). split; [now apply ren_sub_at|]. destruct y. cbn in *. apply in_map_iff. exists (a, b). auto. Qed.
  Lemma ren_um_at um p y : um_at um p y -> um_at (rename_um r um) (map r p) (rename_um r y).
  Proof.
    induction 1 as [y|i o d ss nm sm p y Hi _ IH]; [constructor|]. cbn [map rename_um]. eapply um_step; [|exact IH]. apply in_map_iff. exists (nm, sm). auto.
  Qed.
  Context (h h' : list obj) (um : umodel) (RO : renamed_objects r h h' um).
  Lemma ren_occurs p o : occurs h um p o -> occurs h' (rename_um r um) (map r p) o.
  Proof.
    intros (ins & outs & decls & subs & A & Ho). apply ren_um_at in A. cbn [rename_um] in A. eexists _, _, _, _. split; [exact A|]. destruct Ho as [Ho|Ho]; [auto|right; eapply needed_same; [apply RO|exact Ho]].
  Qed.
  Lemma ren_member p k o x : member h um p k o x -> member h' (rename_um r um) (map r p) k o (r x).
  Proof.
    intros M. split; [exact (proj2 RO _ _ _ _ M)|]. destruct M as (_ & ins & outs & decls & subs & A & Hi). apply ren_um_at in A. cbn [rename_um] in A. eexists _, _, _, _. split; [exact A|exact Hi].
  Qed.
  Lemma ren_called m p k o n : called h um m p k o n -> called h' (rename_um r um) (rename_model r m) (map r p) k o (r n).
  Proof.
    intros (x & q & M & P & ->). exists (r x), (map r q). split; [now apply ren_member|]. split; [now apply ren_promoted|]. apply (rn_parts _ _ RN).
  Qed.
  Lemma ren_linked m p o q u : linked h um m p o q u -> linked h' (rename_um r um) (rename_model r m) (map r p) o (map r q) u.
  Proof.
    induction 1 as [p o Ho Vo|p k o p' k' o' n Ho Ho' C C'|p0 a b na nb p k o p' k' o' D R R' Ho Ho' C C'|p o p' o' _ IH|p o p' o' p'' o'' _ IH1 _ IH2].
    - apply l_self; [now apply ren_occurs|eapply variable_same; [apply RO|exact Vo]].
    - eapply l_name; [now apply ren_occurs|now apply ren_occurs|eapply ren_called; exact C|eapply ren_called; exact C'].
    - apply ren_conn in D. apply ren_resolves in R, R'. rewrite (rn_parts _ _ RN) in R, R'. apply ren_called in C, C'. eapply l_conn; try eassumption; now apply ren_occurs.
    - now apply l_sym.
    - eapply l_trans; eassumption.
  Qed.
End Forward.

(** The renamed objects, taken back. *)
Lemma renamed_back r s h h' um m shp : renaming r s -> well_formed h um m shp -> renamed_objects r h h' um -> renamed_objects s h' h (rename_um r um).
Proof.
  intros RN WF [SO NM]. split; [now apply objects_sym|]. intros p' k o x' M. pose proof M as (Nx & ins & outs & decls & subs & A & Hi).
  apply (ren_um_at s) in A. rewrite (rename_um_back r s RN) in A. cbn [rename_um] in A.
  assert (E : exists x, named h o x).
  { destruct Nx as (ob & E & _). destruct (objects_at h' h (objects_sym _ _ SO) o ob E) as (ob' & E' & _). exists (ob_name ob'), ob'. auto. }
  destruct E as (x & Nh). assert (M0 : member h um (map s p') k o x) by (split; [exact Nh|eexists _, _, _, _; split; [exact A|exact Hi]]).
  apply NM in M0. destruct Nx as (ob & E & En). destruct M0 as (ob1 & E1 & En1). rewrite E in E1. injection E1 as <-. rewrite <- En, En1, (rn_back _ _ RN). exact Nh.
Qed.
