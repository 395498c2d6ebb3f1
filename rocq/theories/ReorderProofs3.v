(** Programs that make the same declarations in another order. *)
From Verif Require Import PyBase NamesModel PromotionsModel PromotionsSpec PromotionsProofs ExprModel ExprProofs UnflatModel EffectSpec EffectProofs WorldModel WorldSpec WorldSpec2 WorldProofs WorldProofs2 WorldProofs4 WorldProofs5 WorldProofs7 ReorderSpec ReorderProofs.
From Coq Require Import Permutation Lia.
Local Open Scope list_scope.

(** ** Methods do not look at the submodels *)
Definition set_subs (x : list string) (s : bst) : bst := Bst (b_heap s) (b_count s) (b_ins s) (b_outs s) (b_decls s) x.
Lemma new_outputs_subs x op ns : forall s, new_outputs (set_subs x s) op ns = (set_subs x (fst (new_outputs s op ns)), snd (new_outputs s op ns)).
Proof.
  induction ns as [|n r IH]; intros s; [reflexivity|]. cbn [new_outputs]. destruct (alloc s KOut n [op]) as [s1 v] eqn:A.
  assert (A' : alloc (set_subs x s) KOut n [op] = (set_subs x s1, v)) by (unfold alloc in *; injection A as <- <-; reflexivity). rewrite A', IH. destruct (new_outputs s1 op r). reflexivity.
Qed.
Lemma new_op_subs x args ns s : new_op (set_subs x s) args ns = (set_subs x (fst (new_op s args ns)), snd (new_op s args ns)).
Proof.
  unfold new_op. destruct (alloc s (KOp false) None args) as [s1 op] eqn:A.
  assert (A' : alloc (set_subs x s) (KOp false) None args = (set_subs x s1, op)) by (unfold alloc in *; injection A as <- <-; reflexivity). rewrite A', new_outputs_subs.
  destruct (new_outputs s1 op ns). reflexivity.
Qed.
Lemma dedup_subs x args : forall s seen, dedup_args (set_subs x s) seen args = (set_subs x (fst (dedup_args s seen args)), snd (dedup_args s seen args)).
Proof.
  induction args as [|a r IH]; intros s seen; [reflexivity|]. cbn [dedup_args]. destruct (memn a seen).
  - rewrite new_op_subs. destruct (new_op s [a] [None]) as [s1 vs]. cbn [fst snd]. rewrite IH. destruct (dedup_args s1 _ r). reflexivity.
  - rewrite IH. destruct (dedup_args s _ r). reflexivity.
Qed.
Lemma register_subs x s n v : register (set_subs x s) n v = set_subs x (register s n v).
Proof. unfold register. change (kind_is is_output (set_subs x s) v) with (kind_is is_output s v). cbn [set_subs b_heap b_outs b_ins b_decls]. repeat match goal with |- context [if ?b then _ else _] => destruct b; try reflexivity end. Qed.
Lemma bstep_subs x s e : (forall on, e <> EAdd on) -> bstep (set_subs x s) e = set_subs x (bstep s e).
Proof.
  intros N. assert (KI : forall f i, kind_is f (set_subs x s) i = kind_is f s i) by reflexivity.
  assert (KF : forall f l, forallb (kind_is f (set_subs x s)) l = forallb (kind_is f s) l) by reflexivity.
  destruct e as [n|n|n|n|args n|args os| |op args os|y fresh|y z|v op|n v|on]; cbn [bstep]; rewrite ?KF, ?KI.
  - reflexivity.
  - destruct (is_ok _); reflexivity.
  - reflexivity.
  - destruct (is_ok _); [|reflexivity]. destruct (alloc s KConcat (Some n) []) as [s1 v] eqn:A.
    assert (A' : alloc (set_subs x s) KConcat (Some n) [] = (set_subs x s1, v)) by (unfold alloc in *; injection A as <- <-; reflexivity). rewrite A', register_subs.
    cbn [set_subs b_outs]. destruct (memn v (b_outs (register s1 n v))); reflexivity.
  - destruct (forallb _ _); [|reflexivity]. rewrite dedup_subs. destruct (dedup_args s [] args) as [s1 l]. cbn [fst snd]. rewrite new_op_subs. reflexivity.
  - destruct (forallb _ _); [|reflexivity]. rewrite new_op_subs. reflexivity.
  - reflexivity.
  - destruct (_ && _); [|reflexivity]. change (with_objs (set_subs x s) (upd (b_heap (set_subs x s)) op (app_deps args))) with (set_subs x (with_objs s (upd (b_heap s) op (app_deps args)))).
    rewrite new_outputs_subs. destruct (new_outputs _ op _). reflexivity.
  - cbn [set_subs b_heap]. destruct (nth_error (b_heap s) y) as [o|]; [|reflexivity]. destruct (is_variable o); [|reflexivity]. destruct (ob_decomp o); destruct fresh; reflexivity.
  - cbn [set_subs b_heap]. destruct (nth_error (b_heap s) y) as [o|]; [|reflexivity]. destruct (ob_kind o); try reflexivity. destruct (kind_is is_variable s z); [|reflexivity].
    destruct (ob_defined o); [destruct (ob_deps o)|]; reflexivity.
  - cbn [set_subs b_heap]. destruct (nth_error (b_heap s) v) as [o|]; [|reflexivity]. destruct (_ && _); reflexivity.
  - apply register_subs.
  - exfalso. eapply N. reflexivity.
Qed.

(** ** Worlds that differ in the order of declarations *)
Record msim (a b : wmodel) : Prop := {
  ms_ins : wm_ins a = wm_ins b; ms_outs : wm_outs a = wm_outs b; ms_decls : wm_decls a = wm_decls b; ms_obj : wm_obj a = wm_obj b;
  ms_subs : Permutation (wm_subs a) (wm_subs b); ms_conns : Permutation (wm_conns a) (wm_conns b);
  ms_dvs : Permutation (wm_dvs a) (wm_dvs b); ms_cons : Permutation (wm_cons a) (wm_cons b) }.
Lemma msim_refl a : msim a a.
Proof. split; auto. Qed.
Lemma msim_trans a b c : msim a b -> msim b c -> msim a c.
Proof. intros [A1 A2 A3 A4 A5 A6 A7 A8] [B1 B2 B3 B4 B5 B6 B7 B8]. split; try congruence; eapply perm_trans; eassumption. Qed.
Record wsim (w w' : world) : Prop := { ws_heap : w_heap w = w_heap w'; ws_count : w_count w = w_count w'; ws_models : Forall2 msim (w_models w) (w_models w') }.
Lemma wsim_refl w : wsim w w.
Proof. split; auto. induction (w_models w); constructor; auto using msim_refl. Qed.
Lemma wsim_trans a b c : wsim a b -> wsim b c -> wsim a c.
Proof.
  intros [A1 A2 A3] [B1 B2 B3]. split; [congruence..|]. clear - A3 B3. revert B3. generalize (w_models c) as z. induction A3 as [|x y l k Rxy F IH]; intros z B3; inversion B3; subst; constructor; eauto using msim_trans.
Qed.
Lemma sim_nth ms ms' k : Forall2 msim ms ms' -> match nth_error ms k, nth_error ms' k with Some a, Some b => msim a b | None, None => True | _, _ => False end.
Proof. intros F. revert k. induction F as [|a b l l' R F IH]; intros [|k]; cbn; auto. apply IH. Qed.
Lemma sim_upd ms ms' k f g : Forall2 msim ms ms' -> (forall a b, nth_error ms k = Some a -> nth_error ms' k = Some b -> msim a b -> msim (f a) (g b)) -> Forall2 msim (upd ms k f) (upd ms' k g).
Proof.
  intros F. revert k. induction F as [|a b l l' R F IH]; intros [|k] H; cbn; constructor; auto.
Qed.
Lemma existsb_perm {A} (f : A -> bool) l l' : Permutation l l' -> existsb f l = existsb f l'.
Proof. induction 1 as [|x l l' P IH|x y l|]; cbn; [reflexivity|rewrite IH; reflexivity|destruct (f x), (f y); reflexivity|congruence]. Qed.
Lemma smem_perm2 x l l' : Permutation l l' -> smem x l = smem x l'.
Proof. induction 1 as [|y l l' P IH|y z l|]; cbn; [reflexivity|rewrite IH; reflexivity|destruct (String.eqb x y), (String.eqb x z); reflexivity|congruence]. Qed.
Lemma sim_view w w' a b : wsim w w' -> msim a b -> view w' b = set_subs (sub_names b) (view w a).
Proof. intros [H C _] [A1 A2 A3 _ _ _ _ _]. unfold view, set_subs. cbn. congruence. Qed.
Lemma sim_sub_names a b : msim a b -> Permutation (sub_names a) (sub_names b).
Proof. intros M. apply Permutation_map, (ms_subs _ _ M). Qed.
Lemma wstep_sim w w' e : wsim w w' -> wsim (wstep w e) (wstep w' e).
Proof.
  intros S. pose proof S as [H C F].
  assert (U : forall k f g c c', c = c' -> (forall a b, nth_error (w_models w) k = Some a -> nth_error (w_models w') k = Some b -> msim a b -> msim (f a) (g b)) ->
    wsim (World (w_heap w) c (upd (w_models w) k f)) (World (w_heap w') c' (upd (w_models w') k g))) by (intros; split; cbn; auto; apply sim_upd; auto).
  destruct e as [|k ev|k on pr c|k x y|k n|k n|k n]; cbn [wstep].
  - split; cbn; auto. apply Forall2_app; [exact F|]. constructor; [apply msim_refl|constructor].
  - pose proof (sim_nth _ _ k F) as N. destruct (nth_error (w_models w) k) as [a|] eqn:Ea; destruct (nth_error (w_models w') k) as [b|] eqn:Eb; try contradiction; [|destruct ev; exact S].
    assert (NE : (exists on, ev = EAdd on) \/ forall on, ev <> EAdd on) by (destruct ev; eauto; right; discriminate).
    destruct NE as [[on ->]|NE]; [exact S|].
    assert (Q : wsim (put w k (bstep (view w a) ev)) (put w' k (bstep (view w' b) ev))).
    { rewrite (sim_view w w' a b S N), (bstep_subs _ _ _ NE). unfold put. split; cbn [w_heap w_count w_models set_subs b_heap b_count]; auto.
      apply sim_upd; [exact F|]. intros a' b' _ _ [M1 M2 M3 M4 M5 M6 M7 M8]. split; cbn; auto. }
    destruct ev; first [exact Q|exact S].
  - pose proof (sim_nth _ _ k F) as N. pose proof (sim_nth _ _ c F) as Nc. destruct (nth_error (w_models w) k) as [a|]; destruct (nth_error (w_models w') k) as [b|]; try contradiction; [|exact S].
    destruct (nth_error (w_models w) c); destruct (nth_error (w_models w') c); try contradiction; [|exact S].
    assert (Q : forall t a' b', msim a' b' -> msim (app_sub t a') (app_sub t b')) by (intros t a' b' [M1 M2 M3 M4 M5 M6 M7 M8]; split; cbn; auto; apply Permutation_app_tail; assumption).
    destruct on as [n|].
    + rewrite (smem_perm2 n _ _ (sim_sub_names _ _ N)). destruct (_ && _); [|exact S]. apply U; [congruence|]. auto.
    + rewrite C. apply U; [congruence|]. auto.
  - pose proof (sim_nth _ _ k F) as N. destruct (nth_error (w_models w) k) as [a|]; destruct (nth_error (w_models w') k) as [b|]; try contradiction; [|exact S].
    destruct (String.eqb x y); [exact S|]. rewrite (existsb_perm _ _ _ (ms_conns _ _ N)). destruct (existsb _ _); [exact S|].
    apply U; [exact C|]. intros a' b' _ _ [M1 M2 M3 M4 M5 M6 M7 M8]. split; cbn; auto. apply Permutation_app_tail; assumption.
  - pose proof (sim_nth _ _ k F) as N. destruct (nth_error (w_models w) k) as [a|]; destruct (nth_error (w_models w') k) as [b|]; try contradiction; [|exact S].
    rewrite H, (ms_ins _ _ N), (smem_perm2 n _ _ (ms_dvs _ _ N)). destruct (negb _); [exact S|]. destruct (smem _ _); [exact S|].
    unfold on_model. apply U; [exact C|]. intros a' b' _ _ [M1 M2 M3 M4 M5 M6 M7 M8]. split; cbn; auto. apply Permutation_app_tail; assumption.
  - pose proof (sim_nth _ _ k F) as N. destruct (nth_error (w_models w) k) as [a|]; destruct (nth_error (w_models w') k) as [b|]; try contradiction; [|exact S].
    rewrite (smem_perm2 n _ _ (ms_cons _ _ N)). destruct (smem _ _); [exact S|]. apply U; [exact C|]. intros a' b' _ _ [M1 M2 M3 M4 M5 M6 M7 M8]. split; cbn; auto. apply Permutation_app_tail; assumption.
  - pose proof (sim_nth _ _ k F) as N. destruct (nth_error (w_models w) k) as [a|]; destruct (nth_error (w_models w') k) as [b|]; try contradiction; [|exact S].
    rewrite (ms_obj _ _ N). destruct (wm_obj b); [exact S|]. apply U; [exact C|]. intros a' b' _ _ [M1 M2 M3 M4 M5 M6 M7 M8]. split; cbn; auto.
Qed.
Lemma run_sim l : forall w w', wsim w w' -> wsim (fold_left wstep l w) (fold_left wstep l w').
Proof. induction l as [|e l IH]; intros w w' S; [exact S|]. apply IH, wstep_sim, S. Qed.
