(** Calls and what they record; calls on one model leave the others alone. *)
From Verif Require Import PyBase NamesModel NamesProofs PromotionsModel ExprModel ExprSpec ExprProofs UnflatModel EffectSpec EffectProofs Prop_Expr
  WorldModel WorldSpec WorldSpec2 WorldProofs WorldProofs2 WorldProofs3 WorldProofs4 WorldProofs5 WorldProofs6.
From Coq Require Import Lia.
Set Implicit Arguments.
Local Open Scope list_scope.

(** ** Objects changed by a call *)
Definition touched (s : bst) (e : event) : list nat :=
  match e with
  | ECustom op _ _ => [op]
  | EGetitem x _ => x :: match nth_error (b_heap s) x with Some o => match ob_decomp o with Some d => [d] | None => [] end | None => [] end
  | ESetitem y _ => y :: match nth_error (b_heap s) y with Some o => ob_deps o | None => [] end
  | EDepend v _ => [v]
  | ERegister _ v => [v]
  | _ => []
  end.
Lemma kept_refl L s : kept_except L s s.
Proof. intros i o E _. exact E. Qed.
Lemma nth_upd_other {A} (h : list A) i j f : i <> j -> nth_error (upd h j f) i = nth_error h i.
Proof. intros H. rewrite nth_upd. destruct (Nat.eqb_spec j i); [congruence|reflexivity]. Qed.
Lemma nth_snoc {A} (h : list A) i x y : nth_error h i = Some x -> nth_error (h ++ [y]) i = Some x.
Proof. intros E. rewrite nth_error_app1; [exact E|eapply nth_lt, E]. Qed.

Lemma bstep_kept s e : kept_except (touched s e) s (bstep s e).
Proof.
  destruct e as [n|n|n|n|args n|args os| |op args os|x fresh|y x|v op|n v|on]; cbn [touched].
  - intros i o E _. exact E.
  - cbn [bstep]. destruct (is_ok _); [|apply kept_refl]. intros i o E _. cbn. apply nth_snoc, E.
  - cbn [bstep]. intros i o E _. cbn. apply nth_snoc, E.
  - cbn [bstep]. destruct (is_ok _); [|apply kept_refl]. destruct (alloc s KConcat (Some n) []) as [s1 v] eqn:A. destruct (memn v (b_outs (register s1 n v))); [|intros i o E _; exact E].
    unfold alloc in A. injection A as <- <-. intros i o E _. pose proof (nth_lt _ _ E) as L.
    match goal with |- nth_error (b_heap (register ?s1 n ?v)) i = _ => destruct (register_cases s1 n v) as [->|(-> & _)] end; cbn; [apply nth_snoc, E|].
    rewrite nth_upd_other by lia. apply nth_snoc, E.
  - destruct (forallb (kind_is is_variable s) args) eqn:F.
    + destruct (@c76_operation s args n) as (_ & K & _); [|exact K]. rewrite forallb_forall in F. intros a Ha. apply kind_is_variable, F, Ha.
    + cbn [bstep]. rewrite F. apply kept_refl.
  - destruct (forallb (kind_is is_variable s) args) eqn:F.
    + destruct (@c76_implicit s args os) as (_ & K & _); [|exact K]. rewrite forallb_forall in F. intros a Ha. apply kind_is_variable, F, Ha.
    + cbn [bstep]. rewrite F. apply kept_refl.
  - cbn [bstep]. intros i o E _. cbn. apply nth_snoc, E.
  - destruct (kind_is (fun o => match ob_kind o with KOp true => true | _ => false end) s op && forallb (kind_is is_variable s) args) eqn:F.
    + apply andb_prop in F. destruct F as [F1 F2]. unfold kind_is in F1. destruct (nth_error (b_heap s) op) as [o0|] eqn:Eo; [|discriminate].
      destruct (ob_kind o0) as [| | | |[]] eqn:Ko; try discriminate.
      destruct (@c76_custom s op args os o0 Eo Ko) as (_ & K & _); [|exact K]. rewrite forallb_forall in F2. intros a Ha. apply kind_is_variable, F2, Ha.
    + cbn [bstep]. rewrite F. apply kept_refl.
  - intros i o E NI. cbn [bstep]. destruct (nth_error (b_heap s) x) as [ox|] eqn:Ex; [|exact E]. destruct (is_variable ox); [|exact E].
    pose proof (nth_lt _ _ E) as L. destruct (ob_decomp ox) as [d|].
    + destruct fresh; [|exact E]. cbn. rewrite nth_upd_other; [apply nth_snoc, E|]. intros ->. apply NI. cbn. auto.
    + cbn. destruct fresh; cbn.
      * rewrite nth_upd_other by lia. apply nth_snoc. rewrite nth_upd_other; [apply nth_snoc, E|]. intros ->. apply NI. cbn. auto.
      * rewrite nth_upd_other; [apply nth_snoc, E|]. intros ->. apply NI. cbn. auto.
  - intros i o E NI. cbn [bstep]. destruct (nth_error (b_heap s) y) as [oy|] eqn:Ey; [|exact E]. destruct (ob_kind oy); try exact E.
    destruct (kind_is is_variable s x); [|exact E]. pose proof (nth_lt _ _ E) as L. destruct (ob_defined oy).
    + destruct (ob_deps oy) as [|op r]; [exact E|]. cbn. rewrite nth_upd_other; [exact E|]. intros ->. apply NI. cbn. auto.
    + cbn. rewrite nth_upd_other by (intros ->; apply NI; cbn; auto). rewrite nth_upd_other by lia. apply nth_snoc, E.
  - intros i o E NI. cbn [bstep]. destruct (nth_error (b_heap s) v) as [ov|]; [|exact E]. destruct (_ && _); [|exact E].
    cbn. rewrite nth_upd_other; [exact E|]. intros ->. apply NI. cbn. auto.
  - intros i o E NI. cbn [bstep]. destruct (register_cases s n v) as [->|(-> & _)]; [exact E|]. cbn. rewrite nth_upd_other; [exact E|]. intros ->. apply NI. cbn. auto.
  - intros i o E _. cbn [bstep]. destruct on as [n|]; [destruct (_ && _)|]; exact E.
Qed.

(** ** Frame *)
Lemma wstep_model w e j : j < length (w_models w) -> j <> actor e -> nth_error (w_models (wstep w e)) j = nth_error (w_models w) j.
Proof.
  intros L N. assert (U : forall h c k g, k <> j -> nth_error (w_models (World h c (upd (w_models w) k g))) j = nth_error (w_models w) j).
  { intros h c k g Hk. cbn. apply nth_upd_other. congruence. }
  destruct e as [|k ev|k on pr c|k a b|k n|k n|k n]; cbn [wstep actor] in *.
  - cbn. apply nth_error_app1, L.
  - destruct (nth_error (w_models w) k) as [m|]; destruct ev; try reflexivity; apply U; congruence.
  - destruct (nth_error (w_models w) k); [|reflexivity]. destruct (nth_error (w_models w) c); [|reflexivity]. destruct on as [n|]; [destruct (_ && _); [|reflexivity]|]; apply U; congruence.
  - destruct (nth_error (w_models w) k); [|reflexivity]. destruct (String.eqb a b); [reflexivity|]. destruct (existsb _ _); [reflexivity|]. apply U; congruence.
  - destruct (nth_error (w_models w) k); [|reflexivity]. destruct (negb _); [reflexivity|]. destruct (smem _ _); [reflexivity|]. apply U; congruence.
  - destruct (nth_error (w_models w) k); [|reflexivity]. destruct (smem _ _); [reflexivity|]. apply U; congruence.
  - destruct (nth_error (w_models w) k) as [m|]; [|reflexivity]. destruct (wm_obj m); [reflexivity|]. apply U; congruence.
Qed.
Lemma wstep_heap w e : (forall k ev, e <> WOn k ev) -> w_heap (wstep w e) = w_heap w.
Proof.
  intros N. destruct e as [|k ev|k on pr c|k a b|k n|k n|k n]; cbn [wstep].
  - reflexivity.
  - exfalso. eapply N. reflexivity.
  - destruct (nth_error (w_models w) k); [|reflexivity]. destruct (nth_error (w_models w) c); [|reflexivity]. destruct on as [n|]; [destruct (_ && _); reflexivity|reflexivity].
  - destruct (nth_error (w_models w) k); [|reflexivity]. destruct (String.eqb a b); [reflexivity|]. destruct (existsb _ _); reflexivity.
  - destruct (nth_error (w_models w) k); [|reflexivity]. destruct (negb _); [reflexivity|]. destruct (smem _ _); reflexivity.
  - destruct (nth_error (w_models w) k); [|reflexivity]. destruct (smem _ _); reflexivity.
  - destruct (nth_error (w_models w) k) as [m|]; [|reflexivity]. destruct (wm_obj m); reflexivity.
Qed.
Lemma wstep_on w k ev m : nth_error (w_models w) k = Some m -> (forall on, ev <> EAdd on) -> wstep w (WOn k ev) = put w k (bstep (view w m) ev).
Proof. intros E N. cbn [wstep]. rewrite E. destruct ev; try reflexivity. exfalso. eapply N. reflexivity. Qed.

Lemma frame_objects l e o j : follows_rules (l ++ [e]) -> nth_error (owners l) o = Some j -> j <> actor e ->
  nth_error (w_heap (whistory (l ++ [e]))) o = nth_error (w_heap (whistory l)) o.
Proof.
  intros FR OW NA. apply rules_snoc in FR. destruct FR as [FR RU]. pose proof (inv_history FR) as IV. rewrite whistory_snoc. set (w := whistory l) in *.
  assert (LO : o < length (w_heap w)). { pose proof (i_own IV) as Q. cbn in Q. fold w in Q. rewrite <- Q. eapply nth_lt, OW. }
  destruct e as [|k ev|k on pr c|k a b|k n|k n|k n]; try (rewrite wstep_heap by (intros; discriminate); reflexivity).
  destruct (nth_error (w_models w) k) as [m|] eqn:Em; [|cbn [wstep]; rewrite Em; destruct ev; reflexivity].
  assert (NE : (exists on, ev = EAdd on) \/ forall on, ev <> EAdd on) by (destruct ev; eauto; right; discriminate).
  destruct NE as [[on ->]|NE]; [cbn [wstep]; rewrite Em; reflexivity|]. rewrite (wstep_on _ _ Em NE). cbn [put w_heap].
  destruct (nth_error (w_heap w) o) as [ob|] eqn:Eo; [|apply nth_error_None in Eo; lia].
  assert (K : nth_error (b_heap (view w m)) o = Some ob) by exact Eo. cbn [actor] in NA.
  apply (@bstep_kept (view w m) ev o ob K). intros HT. destruct RU as (_ & _ & R3 & _).
  assert (OWN : forall x d ox, nth_error (owners l) x = Some k -> nth_error (w_heap w) x = Some ox -> In d (ob_deps ox) \/ ob_decomp ox = Some d -> nth_error (owners l) d = Some k).
  { intros x d ox Ox Ex H. assert (OI : oinv (small l) (wst l) x k ox) by (eapply i_obj; [exact IV|exact Ex|exact Ox]). destruct H as [H|H]; [exact (o_deps OI _ H)|exact (proj1 (o_dec OI H))]. }
  assert (G : nth_error (owners l) o = Some k); [|congruence].
  destruct ev as [t|t|t|t|args t|args os| |op args os|x fresh|y x|v op|n v|on]; cbn [touched mentions] in *; try destruct HT as [<-|HT]; try contradiction.
  - apply R3. cbn. auto.
  - apply R3. cbn. auto.
  - destruct (nth_error (b_heap (view w m)) x) as [ox|] eqn:Ex; [|destruct HT]. destruct (ob_decomp ox) as [d|] eqn:Ed; [|destruct HT]. destruct HT as [<-|[]].
    apply (OWN x d ox); [apply R3; cbn; auto|exact Ex|auto].
  - apply R3. cbn. auto.
  - destruct (nth_error (b_heap (view w m)) y) as [oy|] eqn:Ey; [|destruct HT]. apply (OWN y o oy); [apply R3; cbn; auto|exact Ey|auto].
  - apply R3. cbn. auto.
  - apply R3. cbn. auto.
Qed.

(** ** What calls record *)
Lemma called_snoc l x e P : called_when (l ++ [x]) e P <-> called_when l e P \/ (e = x /\ P l).
Proof.
  split.
  - intros (b & a & E & H). destruct a as [|y a] using rev_ind.
    + apply app_inj_tail in E. destruct E as [-> ->]. auto.
    + clear IHa. rewrite app_comm_cons, app_assoc in E. apply app_inj_tail in E. destruct E as [-> _]. left. exists b, a. auto.
  - intros [(b & a & -> & H)|[-> H]]; [exists b, (a ++ [x]); rewrite <- app_assoc; auto|exists l, []; auto].
Qed.
Lemma called_nil e P : ~ called_when [] e P.
Proof. intros (b & a & E & _). destruct b; discriminate. Qed.
Lemma wstep_length w e : length (w_models (wstep w e)) = match e with WNew => S (length (w_models w)) | _ => length (w_models w) end.
Proof.
  destruct e as [|k ev|k on pr c|k a b|k n|k n|k n]; cbn [wstep].
  - cbn. rewrite app_length. cbn. lia.
  - destruct (nth_error (w_models w) k) as [m|]; destruct ev; try reflexivity; cbn; apply upd_length.
  - destruct (nth_error (w_models w) k); [|reflexivity]. destruct (nth_error (w_models w) c); [|reflexivity]. destruct on as [n|]; [destruct (_ && _); [|reflexivity]|]; cbn; apply upd_length.
  - destruct (nth_error (w_models w) k); [|reflexivity]. destruct (String.eqb a b); [reflexivity|]. destruct (existsb _ _); [reflexivity|]. cbn; apply upd_length.
  - destruct (nth_error (w_models w) k); [|reflexivity]. destruct (negb _); [reflexivity|]. destruct (smem _ _); [reflexivity|]. cbn; apply upd_length.
  - destruct (nth_error (w_models w) k); [|reflexivity]. destruct (smem _ _); [reflexivity|]. cbn; apply upd_length.
  - destruct (nth_error (w_models w) k) as [m|]; [|reflexivity]. destruct (wm_obj m); [reflexivity|]. cbn; apply upd_length.
Qed.
Lemma created_iff l k : created l k <-> k < length (w_models (whistory l)).
Proof.
  unfold created. assert (E : length (filter (fun e => match e with WNew => true | _ => false end) l) = length (w_models (whistory l))); [|rewrite E; reflexivity].
  induction l as [|e l IH] using rev_ind; [reflexivity|]. rewrite whistory_snoc, wstep_length, filter_app, app_length, IH. destruct e; cbn; lia.
Qed.
Lemma model_some l k : created l k -> nth_error (w_models (whistory l)) k = Some (the_model l k).
Proof. intros C. apply created_iff in C. unfold the_model. destruct (nth_error _ k) eqn:E; [reflexivity|apply nth_error_None in E; lia]. Qed.
Lemma model_none l k : ~ created l k -> nth_error (w_models (whistory l)) k = None.
Proof. intros C. apply nth_error_None. destruct (Nat.le_gt_cases (length (w_models (whistory l))) k) as [H|H]; [exact H|]. exfalso. apply C, created_iff, H. Qed.
Lemma created_dec l k : {created l k} + {~ created l k}.
Proof. apply lt_dec. Qed.

Lemma the_model_other l e k : (forall x, e = x -> k <> actor x) \/ e = WNew -> the_model (l ++ [e]) k = the_model l k.
Proof.
  intros H. unfold the_model. rewrite whistory_snoc. set (w := whistory l). destruct (Nat.lt_ge_cases k (length (w_models w))) as [L|L].
  - destruct H as [H| ->]; [rewrite wstep_model by (auto; apply H; reflexivity); reflexivity|]. cbn. rewrite nth_error_app1 by exact L. reflexivity.
  - replace (nth_error (w_models w) k) with (@None wmodel) by (symmetry; apply nth_error_None, L). destruct H as [H| ->].
    + destruct (nth_error (w_models (wstep w e)) k) as [m|] eqn:E; [|reflexivity]. pose proof (nth_lt _ _ E) as Q. rewrite wstep_length in Q. destruct e; try lia.
      cbn in E. rewrite nth_error_app2 in E by exact L. destruct (k - length (w_models w)) as [|[|?]]; try discriminate. injection E as <-. reflexivity.
    + cbn. rewrite nth_error_app2 by exact L. destruct (k - length (w_models w)) as [|[|?]]; reflexivity.
Qed.
(** The model a call is made on. *)
Lemma the_model_self l e k : e <> WNew -> actor e = k ->
  the_model (l ++ [e]) k =
  if created_dec l k then
    match e with
    | WOn _ ev => match ev with EAdd _ => the_model l k | _ => with_lists (bstep (view (whistory l) (the_model l k)) ev) (the_model l k) end
    | WAdd _ on pr c =>
      if created_dec l c then
        match on with
        | None => app_sub (match subgraph_auto_name (w_count (whistory l)) with Some x => x | None => EmptyString end, pr, c) (the_model l k)
        | Some n => if is_ok (check_banned_chars n) && negb (smem n (sub_names (the_model l k))) then app_sub (n, pr, c) (the_model l k) else the_model l k
        end
      else the_model l k
    | WConnect _ a b => if String.eqb a b then the_model l k else
        if existsb (fun p => String.eqb a (fst p) && String.eqb b (snd p)) (wm_conns (the_model l k)) then the_model l k else app_conn (a, b) (the_model l k)
    | WDesign _ n => if negb (smem n (map (name_of l) (wm_ins (the_model l k)))) then the_model l k else
        if smem n (wm_dvs (the_model l k)) then the_model l k else app_dv n (the_model l k)
    | WConstraint _ n => if smem n (wm_cons (the_model l k)) then the_model l k else app_con n (the_model l k)
    | WObjective _ n => match wm_obj (the_model l k) with Some _ => the_model l k | None => set_obj n (the_model l k) end
    | WNew => the_model l k
    end
  else wm0.
Proof.
  intros NW A. destruct (created_dec l k) as [C|C].
  2:{ unfold the_model. assert (Q : ~ created (l ++ [e]) k). { rewrite created_iff in *. rewrite whistory_snoc, wstep_length. destruct e; [congruence|exact C..]. }
      rewrite (model_none Q). reflexivity. }
  pose proof (model_some C) as E. set (M := the_model l k) in *. unfold the_model. rewrite whistory_snoc.
  assert (SAME : match nth_error (w_models (whistory l)) k with Some m => m | None => wm0 end = M) by reflexivity.
  assert (U : forall h c g, match nth_error (w_models (World h c (upd (w_models (whistory l)) k g))) k with Some m => m | None => wm0 end = g M).
  { intros h c g. cbn. rewrite nth_upd, Nat.eqb_refl, E. reflexivity. }
  destruct e as [|j ev|j on pr c|j a b|j n|j n|j n]; cbn [actor] in A; try congruence; subst j; cbn [wstep]; rewrite E.
  - destruct ev; try exact SAME; unfold put; rewrite U; reflexivity.
  - destruct (created_dec l c) as [Cc|Cc]; [rewrite (model_some Cc)|rewrite (model_none Cc); exact SAME].
    destruct on as [n|]; [|rewrite U; reflexivity]. destruct (_ && _); [rewrite U; reflexivity|exact SAME].
  - destruct (String.eqb a b); [exact SAME|]. destruct (existsb _ _); [exact SAME|]. unfold on_model. rewrite U. reflexivity.
  - destruct (negb _); [exact SAME|]. destruct (smem n (wm_dvs M)); [exact SAME|]. unfold on_model. rewrite U. reflexivity.
  - destruct (smem n (wm_cons M)); [exact SAME|]. unfold on_model. rewrite U. reflexivity.
  - destruct (wm_obj M); [exact SAME|]. unfold on_model. rewrite U. reflexivity.
Qed.
