(** C76: what each call that builds an expression records. *)
From Verif Require Import PyBase NamesModel ExprModel UnflatSpec ExprProofs EffectSpec EffectProofs.
From Coq Require Import Lia.
Set Implicit Arguments.
Open Scope list_scope.

(** A standard operation applied to variables: one new operation, [n] new results; arguments that
    occur again are replaced by copies so that all are distinct; nothing else is created and nothing
    that existed changes. *)
Theorem c76_operation : forall s args n, (forall a, In a args -> variable_in s a) ->
  let s' := bstep s (EApply args n) in
  same_lists s s' /\ kept_except [] s s' /\
  exists op args' vs, computes s s' op args' vs /\ length vs = n /\
    NoDup args' /\ length args' = length args /\
    (forall i a, nth_error args i = Some a -> exists a', nth_error args' i = Some a' /\
       (~ In a (firstn i args) -> a' = a) /\ (In a (firstn i args) -> copy_of s s' a a')) /\
    (forall i o, new s s' i o -> i = op \/ In i vs \/
       exists a a' c, In a args /\ In a' args' /\ computes s s' c [a] [a'] /\ (i = c \/ i = a')).
Proof.
  intros s args n Ha. cbn [bstep].
  replace (forallb (kind_is is_variable s) args) with true by (symmetry; apply forallb_forall; intros a H; apply kind_is_variable, Ha, H).
  destruct (@dedup_spec (length (b_heap s)) args [] [] s) as (G & (P1 & P2) & Nl & Hl & Nw).
  - lia.
  - intros a H. apply variable_lt, Ha, H.
  - tauto.
  - intros a [].
  - destruct (dedup_args s [] args) as [s1 l] eqn:Ed. cbn [fst snd] in *.
    pose proof (new_op_spec s1 l (repeat None n)) as HO. destruct (new_op s1 l (repeat None n)) as [s2 vs] eqn:En. cbn [fst snd] in *.
    destruct HO as (G2 & C & Lv & Nw2 & Bd). rewrite repeat_length in Lv.
    assert (G12 : grows s s2) by (eapply grows_trans; eauto).
    split; [apply G12|]. split; [apply grows_kept, G12|].
    exists (length (b_heap s1)), l, vs. split; [eapply computes_mono; [exact G|apply grows_refl|exact C]|]. split; [exact Lv|].
    split; [exact Nl|]. split; [exact P1|]. split.
    + intros i a E. destruct (P2 i a E) as (a' & E' & H). exists a'. split; [exact E'|]. cbn [app] in H.
      destruct (memn a (firstn i args)) eqn:M.
      * split; [intros K; exfalso; apply K, memn_In, M|]. intros _. destruct H as (op & H). exists op. eapply computes_mono; [apply grows_refl|exact G2|exact H].
      * split; [intros _; exact H|]. intros K. apply memn_In in K. congruence.
    + intros i o [H1 H2]. destruct (nth_error (b_heap s1) i) as [o1|] eqn:E1.
      * right; right. destruct (Nw i o1 (conj H1 E1)) as (a & a' & c & Hia & Hi & Hc & H). exists a, a', c.
        split; [exact Hia|split; [exact Hi|split; [eapply computes_mono; [apply grows_refl|exact G2|exact Hc]|exact H]]].
      * destruct (Nw2 i o (conj E1 H2)) as [H|H]; auto.
Qed.
Print Assumptions c76_operation.
Theorem c76_rejected : forall s args n, (exists a, In a args /\ ~ variable_in s a) -> bstep s (EApply args n) = s.
Proof.
  intros s args n (a & Ha & Hv). cbn [bstep]. replace (forallb (kind_is is_variable s) args) with false; [reflexivity|].
  symmetry. apply not_true_is_false. intros H. rewrite forallb_forall in H. apply Hv, kind_is_variable, H, Ha.
Qed.
Print Assumptions c76_rejected.

(** An implicit operation: its arguments as given, one result for each name. *)
Theorem c76_implicit : forall s args names, (forall a, In a args -> variable_in s a) ->
  let s' := bstep s (EImplicit args names) in
  same_lists s s' /\ kept_except [] s s' /\
  exists op vs, computes s s' op args vs /\ (forall i o, new s s' i o -> i = op \/ In i vs) /\
    Forall2 (fun v n => exists o, nth_error (b_heap s') v = Some o /\ ob_name o = n) vs names.
Proof.
  intros s args names Ha. cbn [bstep].
  replace (forallb (kind_is is_variable s) args) with true by (symmetry; apply forallb_forall; intros a H; apply kind_is_variable, Ha, H).
  destruct (new_op_spec s args (map Some names)) as (G & C & Lv & Nw & Bd).
  split; [apply G|]. split; [apply grows_kept, G|]. exists (length (b_heap s)), (snd (new_op s args (map Some names))). split; [exact C|]. split; [exact Nw|].
  assert (K : forall op k h, Forall2 (fun v n => exists o, nth_error (h ++ out_objs op k (map Some names)) v = Some o /\ ob_name o = n) (seq (length h) (length names)) names).
  { clear. induction names as [|n r IH]; intros op k h; cbn [seq length map out_objs]; constructor.
    - exists (Obj KOut k n [op] [] None false). split; [|reflexivity]. rewrite nth_error_app2, Nat.sub_diag by lia. reflexivity.
    - specialize (IH op (k + 1)%N (h ++ [Obj KOut k n [op] [] None false])). rewrite app_length in IH. cbn [length] in IH. rewrite Nat.add_1_r in IH.
      rewrite <- app_assoc in IH. exact IH. }
  rewrite new_op_eq. cbn [fst snd b_heap]. rewrite map_length.
  match goal with |- Forall2 (fun v n => exists o, nth_error (?h ++ ?o9 :: ?r) v = _ /\ _) _ _ =>
    specialize (K (length h) (b_count s + 1)%N (h ++ [o9])); rewrite app_length in K; cbn [length] in K; rewrite Nat.add_1_r in K; rewrite <- app_assoc in K; exact K end.
Qed.
Print Assumptions c76_implicit.

(** csdl.custom: the arguments are added to those the operation has, the results are new. *)
Theorem c76_custom : forall s op args names o0, nth_error (b_heap s) op = Some o0 -> ob_kind o0 = KOp true ->
  (forall a, In a args -> variable_in s a) ->
  let s' := bstep s (ECustom op args names) in
  same_lists s s' /\ kept_except [op] s s' /\
  exists o vs, nth_error (b_heap s') op = Some o /\ ob_kind o = KOp true /\ ob_name o = ob_name o0 /\
    ob_deps o = ob_deps o0 ++ args /\ ob_outs o = vs /\ length vs = length names /\ NoDup vs /\
    (forall v, In v vs -> result_of s s' op v) /\ (forall i o', new s s' i o' -> In i vs).
Proof.
  intros s op args names o0 E K Ha. cbn [bstep].
  replace (kind_is (fun o => match ob_kind o with KOp true => true | _ => false end) s op) with true by (unfold kind_is; rewrite E, K; reflexivity).
  replace (forallb (kind_is is_variable s) args) with true by (symmetry; apply forallb_forall; intros a H; apply kind_is_variable, Ha, H). cbn [andb].
  rewrite new_outputs_eq. cbn [b_heap with_objs b_count b_ins b_outs b_decls b_subs].
  assert (U : forall h i (f : obj -> obj), length (upd h i f) = length h) by (induction h; intros [|i] f; cbn; congruence).
  assert (Un : forall h i j (f : obj -> obj), nth_error (upd h i f) j = if Nat.eqb j i then option_map f (nth_error h j) else nth_error h j).
  { induction h as [|x h IH]; intros [|i] [|j] f; cbn; try reflexivity.
    - destruct (Nat.eqb j i); reflexivity.
    - apply IH. }
  rewrite U, map_length. set (vs := seq (length (b_heap s)) (length names)).
  assert (Hop : op < length (b_heap s)) by (apply nth_error_Some; congruence).
  set (os := out_objs op (b_count s) (map Some names)). assert (Los : length os = length names) by (unfold os; rewrite out_objs_length, map_length; reflexivity).
  set (h1 := upd (b_heap s) op (app_deps args)).
  assert (Old : forall i, i < length (b_heap s) -> nth_error (upd (h1 ++ os) op (set_outs vs)) i =
     if Nat.eqb i op then option_map (fun o => set_outs vs (app_deps args o)) (nth_error (b_heap s) i) else nth_error (b_heap s) i).
  { intros i Hi. rewrite Un, nth_error_app1 by (unfold h1; rewrite U; exact Hi). unfold h1. rewrite Un. destruct (Nat.eqb i op); [|reflexivity].
    destruct (nth_error (b_heap s) i); reflexivity. }
  assert (Nw : forall i, length (b_heap s) <= i -> nth_error (upd (h1 ++ os) op (set_outs vs)) i = nth_error os (i - length (b_heap s))).
  { intros i Hi. rewrite Un. replace (Nat.eqb i op) with false by (symmetry; apply Nat.eqb_neq; lia). rewrite nth_error_app2 by (unfold h1; rewrite U; exact Hi). unfold h1. rewrite U. reflexivity. }
  split; [repeat split|]. split.
  - intros i o H Hn. cbn [b_heap]. assert (Hi : i < length (b_heap s)) by (apply nth_error_Some; congruence). rewrite Old by exact Hi.
    destruct (Nat.eqb i op) eqn:Ei; [apply Nat.eqb_eq in Ei; subst; exfalso; apply Hn; left; reflexivity|exact H].
  - exists (set_outs vs (app_deps args o0)), vs. cbn [b_heap]. rewrite Old by exact Hop. rewrite Nat.eqb_refl, E. split; [reflexivity|]. split; [exact K|]. split; [reflexivity|]. split; [reflexivity|]. split; [reflexivity|].
    split; [apply seq_length|]. split; [apply seq_NoDup|]. split.
    + intros v Hv. apply in_seq in Hv. destruct (nth_error os (v - length (b_heap s))) as [o|] eqn:Eo; [|apply nth_error_None in Eo; lia].
      exists o. split; [split; [apply nth_error_None; lia|cbn [b_heap]; rewrite Nw by lia; exact Eo]|]. apply nth_error_In in Eo. unfold os in Eo. apply out_objs_In in Eo. exact Eo.
    + intros i o' [H1 H2]. cbn [b_heap] in H2. apply nth_error_None in H1. rewrite Nw in H2 by exact H1. apply in_seq. assert (i - length (b_heap s) < length os) by (apply nth_error_Some; congruence). lia.
Qed.
Print Assumptions c76_custom.

(** The same custom operation object used twice: results of the first use are no longer among the
    results the operation lists, although the operation computes them. *)
Theorem c76_custom_twice_refuted : exists l op v o ov, let h := b_heap (history l) in
  nth_error h op = Some o /\ nth_error h v = Some ov /\ ob_deps ov = [op] /\ ~ In v (ob_outs o).
Proof.
  exists [EInput "x"; ENewCustom; ECustom 1 [0] ["y"%string]; ECustom 1 [0] ["z"%string]], 1, 2. eexists. eexists.
  split; [vm_compute; reflexivity|]. split; [vm_compute; reflexivity|]. split; [reflexivity|]. cbn. intros [H|[]]. discriminate H.
Qed.
Print Assumptions c76_custom_twice_refuted.

Lemma upd_nth {A} (h : list A) : forall i j f, nth_error (upd h i f) j = if Nat.eqb j i then option_map f (nth_error h j) else nth_error h j.
Proof.
  induction h as [|x h IH]; intros [|i] [|j] f; cbn; try reflexivity.
  - destruct (Nat.eqb j i); reflexivity.
  - apply IH.
Qed.

Lemma read_step : forall s x o fresh, nth_error (b_heap s) x = Some o -> variable_in s x ->
  (forall d, ob_decomp o = Some d -> d <> x /\ exists od, nth_error (b_heap s) d = Some od) ->
  let s' := bstep s (EGetitem x fresh) in
  same_lists s s' /\
  exists d od, nth_error (b_heap s') d = Some od /\
    (exists o', nth_error (b_heap s') x = Some o' /\ ob_decomp o' = Some d /\ ob_name o' = ob_name o /\ ob_deps o' = ob_deps o /\ ob_kind o' = ob_kind o) /\
    kept_except [x; d] s s' /\
    match ob_decomp o with
    | None => nth_error (b_heap s) d = None /\ ob_kind od = KOp false /\ ob_deps od = [x]
    | Some d0 => d = d0 /\ exists od0, nth_error (b_heap s) d = Some od0 /\ ob_deps od = ob_deps od0 /\ ob_kind od = ob_kind od0
    end /\
    (let before := match nth_error (b_heap s) d with Some od0 => ob_outs od0 | None => [] end in
     if fresh then exists v, ob_outs od = before ++ [v] /\ result_of s s' d v /\ (forall i o', new s s' i o' -> i = v \/ i = d)
     else ob_outs od = before /\ (forall i o', new s s' i o' -> i = d)).
Proof.
  intros s x o fresh E V D. cbn [bstep]. rewrite E.
  replace (is_variable o) with true. 2:{ symmetry. apply kind_is_variable in V. unfold kind_is in V. rewrite E in V. exact V. }
  assert (Hx : x < length (b_heap s)) by (apply nth_error_Some; congruence).
  destruct (ob_decomp o) as [d|] eqn:Ed.
  - destruct (D d eq_refl) as (Hdx & od & Eod). assert (Hd : d < length (b_heap s)) by (apply nth_error_Some; congruence).
    destruct fresh; cbn [alloc fst snd bump with_objs b_heap b_count b_ins b_outs b_decls b_subs].
    + set (v := length (b_heap s)). set (ov := Obj KOut (b_count s) (hex_id (b_count s)) [d] [] None false).
      assert (R : forall i, nth_error (upd (b_heap s ++ [ov]) d (add_outs v)) i = if Nat.eqb i d then Some (add_outs v od) else if Nat.eqb i v then Some ov else nth_error (b_heap s) i).
      { intros i. rewrite upd_nth. destruct (Nat.eqb i d) eqn:Ei.
        - apply Nat.eqb_eq in Ei. subst. rewrite nth_error_app1 by exact Hd. rewrite Eod. reflexivity.
        - destruct (Nat.eqb i v) eqn:Ev.
          + apply Nat.eqb_eq in Ev. subst. rewrite nth_error_app2, Nat.sub_diag by (unfold v; lia). reflexivity.
          + apply Nat.eqb_neq in Ev. destruct (Nat.lt_ge_cases i (length (b_heap s))).
            * rewrite nth_error_app1 by assumption. reflexivity.
            * rewrite nth_error_app2 by assumption. replace (nth_error (b_heap s) i) with (@None obj) by (symmetry; apply nth_error_None; assumption).
              apply nth_error_None. cbn. unfold v in Ev. lia. }
      split; [repeat split|]. exists d, (add_outs v od). cbn [b_heap]. rewrite !R, Nat.eqb_refl. split; [reflexivity|]. split; [|split; [|split; [|]]].
      * exists o. replace (Nat.eqb x d) with false by (symmetry; apply Nat.eqb_neq; auto). replace (Nat.eqb x v) with false by (symmetry; apply Nat.eqb_neq; unfold v; lia). auto.
      * intros i oi Hi Hn. cbn [b_heap]. rewrite R. destruct (Nat.eqb i d) eqn:E1; [apply Nat.eqb_eq in E1; subst; exfalso; apply Hn; right; left; reflexivity|].
        destruct (Nat.eqb i v) eqn:E2; [apply Nat.eqb_eq in E2; subst; exfalso; assert (v < length (b_heap s)) by (apply nth_error_Some; congruence); unfold v in *; lia|exact Hi].
      * split; [reflexivity|]. exists od. auto.
      * rewrite Eod. exists v. split; [reflexivity|]. split.
        -- exists ov. split; [split; [apply nth_error_None; unfold v; lia|]|split; reflexivity]. cbn [b_heap]. rewrite R. replace (Nat.eqb v d) with false by (symmetry; apply Nat.eqb_neq; unfold v; lia). rewrite Nat.eqb_refl. reflexivity.
        -- intros i o' [H1 H2]. cbn [b_heap] in H2. rewrite R in H2. destruct (Nat.eqb i d) eqn:E1; [right; apply Nat.eqb_eq, E1|]. destruct (Nat.eqb i v) eqn:E2; [left; apply Nat.eqb_eq, E2|congruence].
    + split; [repeat split|]. exists d, od. split; [exact Eod|]. split; [exists o; auto|]. split; [intros i oi Hi _; exact Hi|]. split; [split; [reflexivity|exists od; auto]|].
      rewrite Eod. split; [reflexivity|]. intros i o' [H1 H2]. congruence.
  - clear D. set (d := length (b_heap s)). set (od := Obj (KOp false) (b_count s) (hex_id (b_count s)) [x] [] None false).
    set (v := S d). set (ov := Obj KOut (b_count s + 1) (hex_id (b_count s + 1)) [d] [] None false).
    assert (Nd : nth_error (b_heap s) d = None) by (apply nth_error_None; unfold d; lia).
    assert (R1 : forall i, nth_error (upd (b_heap s ++ [od]) x (set_decomp d)) i = if Nat.eqb i x then Some (set_decomp d o) else if Nat.eqb i d then Some od else nth_error (b_heap s) i).
    { intros i. rewrite upd_nth. destruct (Nat.eqb i x) eqn:Ei.
      - apply Nat.eqb_eq in Ei. subst. rewrite nth_error_app1 by exact Hx. rewrite E. reflexivity.
      - destruct (Nat.eqb i d) eqn:Ev.
        + apply Nat.eqb_eq in Ev. subst. rewrite nth_error_app2, Nat.sub_diag by (unfold d; lia). reflexivity.
        + apply Nat.eqb_neq in Ev. destruct (Nat.lt_ge_cases i (length (b_heap s))).
          * rewrite nth_error_app1 by assumption. reflexivity.
          * rewrite nth_error_app2 by assumption. replace (nth_error (b_heap s) i) with (@None obj) by (symmetry; apply nth_error_None; assumption).
            apply nth_error_None. cbn. unfold d in Ev. lia. }
    set (h1 := upd (b_heap s ++ [od]) x (set_decomp d)) in *.
    assert (L1 : length h1 = v) by (unfold h1; rewrite upd_length, app_length; cbn; unfold v, d; lia).
    assert (Nxd : Nat.eqb x d = false) by (apply Nat.eqb_neq; unfold d; lia). assert (Ndx : Nat.eqb d x = false) by (rewrite Nat.eqb_sym; exact Nxd).
    destruct fresh; cbn [alloc fst snd bump with_objs b_heap b_count b_ins b_outs b_decls b_subs]; fold d; fold od; fold h1.
    + fold ov. rewrite L1.
      assert (R : forall i, nth_error (upd (h1 ++ [ov]) d (add_outs v)) i =
        if Nat.eqb i x then Some (set_decomp d o) else if Nat.eqb i d then Some (add_outs v od) else if Nat.eqb i v then Some ov else nth_error (b_heap s) i).
      { intros i. rewrite upd_nth. destruct (Nat.lt_ge_cases i v) as [Hl|Hl].
        - rewrite nth_error_app1 by (rewrite L1; exact Hl). rewrite R1. destruct (Nat.eqb i d) eqn:Ei.
          + apply Nat.eqb_eq in Ei. subst. rewrite Ndx. reflexivity.
          + destruct (Nat.eqb i x); [reflexivity|]. replace (Nat.eqb i v) with false by (symmetry; apply Nat.eqb_neq; lia). reflexivity.
        - rewrite nth_error_app2 by (rewrite L1; exact Hl). rewrite L1. replace (Nat.eqb i d) with false by (symmetry; apply Nat.eqb_neq; unfold v in Hl; lia).
          replace (Nat.eqb i x) with false by (symmetry; apply Nat.eqb_neq; unfold v, d in Hl; lia). destruct (Nat.eqb i v) eqn:Ev.
          + apply Nat.eqb_eq in Ev. subst. rewrite Nat.sub_diag. reflexivity.
          + apply Nat.eqb_neq in Ev. replace (nth_error (b_heap s) i) with (@None obj) by (symmetry; apply nth_error_None; unfold v, d in Hl; lia).
            apply nth_error_None. cbn. lia. }
      split; [repeat split|]. exists d, (add_outs v od). cbn [b_heap]. rewrite !R, Ndx, !Nat.eqb_refl. split; [reflexivity|]. split; [|split; [|split; [|]]].
      * exists (set_decomp d o). repeat split; reflexivity.
      * intros i oi Hi Hn. cbn [b_heap]. assert (Hi' : i < length (b_heap s)) by (apply nth_error_Some; congruence). rewrite R.
        destruct (Nat.eqb i x) eqn:E0; [apply Nat.eqb_eq in E0; subst; exfalso; apply Hn; left; reflexivity|].
        replace (Nat.eqb i d) with false by (symmetry; apply Nat.eqb_neq; unfold d; lia). replace (Nat.eqb i v) with false by (symmetry; apply Nat.eqb_neq; unfold v, d; lia). exact Hi.
      * split; [exact Nd|split; reflexivity].
      * rewrite Nd. exists v. split; [reflexivity|]. split.
        -- exists ov. split; [split; [apply nth_error_None; unfold v, d; lia|]|split; reflexivity]. cbn [b_heap]. rewrite R.
           replace (Nat.eqb v x) with false by (symmetry; apply Nat.eqb_neq; unfold v, d; lia). replace (Nat.eqb v d) with false by (symmetry; apply Nat.eqb_neq; unfold v; lia). rewrite Nat.eqb_refl. reflexivity.
        -- intros i o' [H1 H2]. cbn [b_heap] in H2. rewrite R in H2. destruct (Nat.eqb i x) eqn:E0; [apply Nat.eqb_eq in E0; subst; congruence|].
           destruct (Nat.eqb i d) eqn:E1; [right; apply Nat.eqb_eq, E1|]. destruct (Nat.eqb i v) eqn:E2; [left; apply Nat.eqb_eq, E2|congruence].
    + split; [repeat split|]. exists d, od. cbn [b_heap]. rewrite !R1, Ndx, !Nat.eqb_refl. split; [reflexivity|]. split; [exists (set_decomp d o); repeat split; reflexivity|]. split; [|split; [split; [exact Nd|split; reflexivity]|]].
      * intros i oi Hi Hn. cbn [b_heap]. assert (Hi' : i < length (b_heap s)) by (apply nth_error_Some; congruence). rewrite R1.
        destruct (Nat.eqb i x) eqn:E0; [apply Nat.eqb_eq in E0; subst; exfalso; apply Hn; left; reflexivity|].
        replace (Nat.eqb i d) with false by (symmetry; apply Nat.eqb_neq; unfold d; lia). exact Hi.
      * rewrite Nd. split; [reflexivity|]. intros i o' [H1 H2]. cbn [b_heap] in H2. rewrite R1 in H2. destruct (Nat.eqb i x) eqn:E0; [apply Nat.eqb_eq in E0; subst; congruence|].
        destruct (Nat.eqb i d) eqn:E1; [apply Nat.eqb_eq, E1|congruence].
Qed.

Lemma history_snoc l e : history (l ++ [e]) = bstep (history l) e.
Proof. unfold history. rewrite fold_left_app. reflexivity. Qed.
(** Reading [x[key]] in a model built by any history of calls: [x] gets one decomposition, which
    depends on [x] alone; a key not seen before adds one result to it, a key seen before adds
    nothing; nothing else changes. *)
Theorem c76_read : forall l x o fresh, nth_error (b_heap (history l)) x = Some o -> variable_in (history l) x ->
  let s := history l in
  let s' := history (l ++ [EGetitem x fresh]) in
  same_lists s s' /\
  exists d od, nth_error (b_heap s') d = Some od /\
    (exists o', nth_error (b_heap s') x = Some o' /\ ob_decomp o' = Some d /\ ob_name o' = ob_name o /\ ob_deps o' = ob_deps o /\ ob_kind o' = ob_kind o) /\
    kept_except [x; d] s s' /\
    match ob_decomp o with
    | None => nth_error (b_heap s) d = None /\ ob_kind od = KOp false /\ ob_deps od = [x]
    | Some d0 => d = d0 /\ exists od0, nth_error (b_heap s) d = Some od0 /\ ob_deps od = ob_deps od0 /\ ob_kind od = ob_kind od0
    end /\
    (let before := match nth_error (b_heap s) d with Some od0 => ob_outs od0 | None => [] end in
     if fresh then exists v, ob_outs od = before ++ [v] /\ result_of s s' d v /\ (forall i o', new s s' i o' -> i = v \/ i = d)
     else ob_outs od = before /\ (forall i o', new s s' i o' -> i = d)).
Proof.
  intros l x o fresh E V. cbn zeta. rewrite history_snoc.
  apply (@read_step (history l) x o fresh E V). intros d Ed.
  destruct (@history_sinv l x o E) as [_ _ Hd _ _]. destruct (Hd d Ed) as (od & Eod & Ho). split; [|eauto].
  intros ->. rewrite E in Eod. injection Eod as <-. apply kind_is_variable in V. unfold kind_is in V. rewrite E in V. unfold is_variable in V. rewrite Ho in V. discriminate V.
Qed.
Print Assumptions c76_read.

(** [y[key] = x] for an output [y] made by create_output. *)
Theorem c76_assign : forall l y x o, nth_error (b_heap (history l)) y = Some o -> ob_kind o = KConcat -> variable_in (history l) x ->
  let s := history l in
  let s' := history (l ++ [ESetitem y x]) in
  same_lists s s' /\
  if ob_defined o then
    exists op oo oo', ob_deps o = [op] /\ nth_error (b_heap s) op = Some oo /\ nth_error (b_heap s') op = Some oo' /\
      ob_deps oo' = ob_deps oo ++ [x] /\ ob_outs oo' = ob_outs oo /\ ob_kind oo' = ob_kind oo /\
      kept_except [op] s s' /\ (forall i o', ~ new s s' i o')
  else
    exists op oo oy, new s s' op oo /\ ob_kind oo = KOp false /\ ob_deps oo = [x] /\ ob_outs oo = [y] /\
      nth_error (b_heap s') y = Some oy /\ ob_kind oy = KConcat /\ ob_name oy = ob_name o /\ ob_deps oy = [op] /\ ob_defined oy = true /\
      kept_except [y] s s' /\ (forall i o', new s s' i o' -> i = op).
Proof.
  intros l y x o E K V. cbn zeta. rewrite history_snoc. cbn [bstep]. rewrite E, K.
  pose proof V as V'. apply kind_is_variable in V'. rewrite V'.
  destruct (@history_sinv l y o E) as [Hv _ _ Hc _].
  set (s := history l) in *. assert (Hy : y < length (b_heap s)) by (apply nth_error_Some; congruence).
  destruct (ob_defined o) eqn:D.
  - destruct Hv as [_ Hd]; [unfold is_op; rewrite K; reflexivity|]. destruct Hd as [Hd|(op & Hd & oo & Eo & Ho)]; [exfalso; apply Hc; auto|].
    rewrite Hd. split; [repeat split|]. exists op, oo, (app_deps [x] oo). split; [reflexivity|]. split; [exact Eo|]. cbn [b_heap with_objs].
    rewrite upd_nth, Nat.eqb_refl, Eo. split; [reflexivity|]. split; [reflexivity|]. split; [reflexivity|]. split; [reflexivity|]. split.
    + intros i oi Ei Hn. cbn [b_heap with_objs]. rewrite upd_nth. destruct (Nat.eqb i op) eqn:Ex; [|exact Ei]. apply Nat.eqb_eq in Ex. subst. exfalso. apply Hn. left. reflexivity.
    + intros i o' [H1 H2]. cbn [b_heap with_objs] in H2. rewrite upd_nth, H1 in H2. destruct (Nat.eqb i op); discriminate H2.
  - cbn [alloc bump with_objs b_heap b_count b_ins b_outs b_decls b_subs]. set (op := length (b_heap s)). set (o1 := Obj (KOp false) (b_count s) (hex_id (b_count s)) [x] [] None false).
    assert (R : forall i, nth_error (upd (upd (b_heap s ++ [o1]) op (set_outs [y])) y (set_defined op)) i =
       if Nat.eqb i y then Some (set_defined op o) else if Nat.eqb i op then Some (set_outs [y] o1) else nth_error (b_heap s) i).
    { intros i. rewrite !upd_nth. destruct (Nat.eqb i y) eqn:Ey.
      - apply Nat.eqb_eq in Ey. subst i. replace (Nat.eqb y op) with false by (symmetry; apply Nat.eqb_neq; unfold op; lia). rewrite nth_error_app1, E by exact Hy. reflexivity.
      - destruct (Nat.eqb i op) eqn:Eo.
        + apply Nat.eqb_eq in Eo. subst i. rewrite nth_error_app2, Nat.sub_diag by (unfold op; lia). reflexivity.
        + apply Nat.eqb_neq in Eo. destruct (Nat.lt_ge_cases i (length (b_heap s))).
          * rewrite nth_error_app1 by assumption. reflexivity.
          * rewrite nth_error_app2 by assumption. replace (nth_error (b_heap s) i) with (@None obj) by (symmetry; apply nth_error_None; assumption).
            apply nth_error_None. cbn. unfold op in Eo. lia. }
    assert (Nyo : Nat.eqb op y = false) by (apply Nat.eqb_neq; unfold op; lia).
    split; [repeat split|]. exists op, (set_outs [y] o1), (set_defined op o). unfold new. cbn [b_heap with_objs]. split; [split; [apply nth_error_None; unfold op; lia|rewrite R, Nyo, Nat.eqb_refl; reflexivity]|].
    split; [reflexivity|]. split; [reflexivity|]. split; [reflexivity|]. rewrite R, Nat.eqb_refl. split; [reflexivity|]. split; [exact K|]. split; [reflexivity|]. split; [reflexivity|]. split; [reflexivity|]. split.
    + intros i oi Ei Hn. cbn [b_heap with_objs]. rewrite R. destruct (Nat.eqb i y) eqn:Ey; [apply Nat.eqb_eq in Ey; subst; exfalso; apply Hn; left; reflexivity|].
      replace (Nat.eqb i op) with false; [exact Ei|]. symmetry. apply Nat.eqb_neq. assert (i < length (b_heap s)) by (apply nth_error_Some; congruence). unfold op. lia.
    + intros i o' [H1 H2]. rewrite R in H2. destruct (Nat.eqb i y) eqn:Ey; [apply Nat.eqb_eq in Ey; subst; congruence|]. destruct (Nat.eqb i op) eqn:Eo; [apply Nat.eqb_eq, Eo|congruence].
Qed.
Print Assumptions c76_assign.

(** [y[k1] = x1; ...; y[kn] = xn] right after one another: one operation whose arguments are
    [x1, ..., xn] in this order and whose result is [y]. *)
Theorem c76_assignments : forall l y xs o, nth_error (b_heap (history l)) y = Some o -> ob_kind o = KConcat -> ob_defined o = false ->
  (forall x, In x xs -> variable_in (history l) x) -> xs <> [] ->
  let s := history l in
  let s' := history (l ++ map (ESetitem y) xs) in
  same_lists s s' /\ kept_except [y] s s' /\
  exists op oo oy, new s s' op oo /\ ob_kind oo = KOp false /\ ob_deps oo = xs /\ ob_outs oo = [y] /\
    nth_error (b_heap s') y = Some oy /\ ob_kind oy = KConcat /\ ob_name oy = ob_name o /\ ob_deps oy = [op] /\
    (forall i o', new s s' i o' -> i = op).
Proof.
  intros l y xs o E K D Hx Hne. cbn zeta.
  enough (G : xs = [] \/ same_lists (history l) (history (l ++ map (ESetitem y) xs)) /\ kept_except [y] (history l) (history (l ++ map (ESetitem y) xs)) /\
    exists op oo oy, new (history l) (history (l ++ map (ESetitem y) xs)) op oo /\ ob_kind oo = KOp false /\ ob_deps oo = xs /\ ob_outs oo = [y] /\
    nth_error (b_heap (history (l ++ map (ESetitem y) xs))) y = Some oy /\ ob_kind oy = KConcat /\ ob_name oy = ob_name o /\ (ob_deps oy = [op] /\ ob_defined oy = true) /\
    (forall i o', new (history l) (history (l ++ map (ESetitem y) xs)) i o' -> i = op)).
  { destruct G as [G|(A & B & op & oo & oy & C1 & C2 & C3 & C4 & C5 & C6 & C7 & (C8 & _) & C9)]; [contradiction|]. split; [exact A|]. split; [exact B|]. exists op, oo, oy. auto 12. }
  clear Hne. induction xs as [|x r IH] using rev_ind; [left; reflexivity|]. right.
  assert (Hy : y < length (b_heap (history l))) by (apply nth_error_Some; congruence).
  rewrite map_app, app_assoc. cbn [map]. set (l1 := l ++ map (ESetitem y) r) in *.
  destruct IH as [-> |(A & B & op & oo & oy & C1 & C2 & C3 & C4 & C5 & C6 & C7 & (C8 & C8') & C9)].
  { intros z Hz. apply Hx, in_or_app. left; exact Hz. }
  - cbn [map] in l1. subst l1. rewrite app_nil_r. destruct (@c76_assign l y x o E K) as [A H]; [apply Hx; left; reflexivity|]. rewrite D in H.
    destruct H as (op & oo & oy & C1 & C2 & C3 & C4 & C5 & C6 & C7 & C8 & C8' & B & C9). split; [exact A|]. split; [exact B|]. exists op, oo, oy. auto 12.
  - destruct (@c76_assign l1 y x oy C5 C6) as [A' H].
    { destruct (Hx x) as (ox & Ex & Hk); [apply in_or_app; right; left; reflexivity|]. destruct (Nat.eq_dec x y) as [->|Ne].
      - exists oy. split; [exact C5|]. rewrite C6. exact I.
      - exists ox. split; [apply B; [exact Ex|intros [H|[]]; auto]|exact Hk]. }
    rewrite C8' in H. destruct H as (op' & o1 & o2 & E1 & E2 & E3 & E4 & E5 & E6 & E7 & E8). rewrite C8 in E1. injection E1 as <-.
    destruct C1 as [N1 N2]. rewrite N2 in E2. injection E2 as <-.
    assert (Nop : ~ op = y) by (intros ->; congruence).
    split; [|split].
    + destruct A as (A1 & A2 & A3 & A4). destruct A' as (B1 & B2 & B3 & B4). repeat split; congruence.
    + intros i oi Ei Hn. apply E7; [apply B; auto|]. intros [<- |[]]. congruence.
    + exists op, o2, oy. split; [split; [exact N1|exact E3]|]. split; [congruence|]. split; [rewrite E4, C3; reflexivity|]. split; [congruence|].
      split; [apply E7; [exact C5|intros [H|[]]; congruence]|]. split; [exact C6|]. split; [exact C7|]. split; [auto|].
      intros i o' [H1 H2]. destruct (nth_error (b_heap (history l1)) i) as [oi|] eqn:Ei; [apply (C9 i oi); split; assumption|]. exfalso. eapply E8; split; eauto.
Qed.
Print Assumptions c76_assignments.

(** add_dependency and registration: no object is created; register_output changes at most the
    name of the variable and appends it to the outputs of the model. *)
Theorem c76_register : forall s n v, let s' := bstep s (ERegister n v) in
  kept_except [v] s s' /\ (forall i o, ~ new s s' i o) /\
  (s' = s \/
   b_ins s' = b_ins s /\ b_outs s' = b_outs s ++ [v] /\ b_decls s' = b_decls s /\ b_subs s' = b_subs s /\
   exists o o', nth_error (b_heap s) v = Some o /\ nth_error (b_heap s') v = Some o' /\ ob_name o' = n /\
     ob_kind o' = ob_kind o /\ ob_deps o' = ob_deps o /\ ob_outs o' = ob_outs o /\ ob_decomp o' = ob_decomp o).
Proof.
  intros s n v. cbn [bstep]. cbn zeta.
  assert (C : register s n v = s \/ kind_is is_output s v = true /\ register s n v = add_out (with_objs s (upd (b_heap s) v (set_name n))) v).
  { unfold register. destruct (kind_is is_output s v); cbn [negb];
    repeat match goal with |- context [if ?b then _ else _] => destruct b; cbn [negb]; auto end. }
  destruct C as [-> |[Hk ->]].
  - split; [intros i o H _; exact H|]. split; [intros i o [H1 H2]; congruence|]. left; reflexivity.
  - split; [|split].
    + intros i o H Hn. cbn. rewrite upd_nth. destruct (Nat.eqb i v) eqn:Ei; [|exact H]. apply Nat.eqb_eq in Ei. subst. exfalso. apply Hn. left; reflexivity.
    + intros i o [H1 H2]. cbn in H2. rewrite upd_nth, H1 in H2. destruct (Nat.eqb i v); discriminate H2.
    + right. repeat split. unfold kind_is in Hk. destruct (nth_error (b_heap s) v) as [o|] eqn:E; [|discriminate]. exists o, (set_name n o).
      split; [reflexivity|]. cbn. rewrite upd_nth, Nat.eqb_refl, E. repeat split.
Qed.
Print Assumptions c76_register.

(** A model in which all of this happens: [z = x + x; w = z[0]; w2 = z[1]; y[0] = w; y[1] = w2]. *)
Example example_model :
  let s := history [EInput "x"; EApply [0; 0] 1; EGetitem 4 true; EGetitem 4 true; ECreateOut "y"; ESetitem 8 6; ESetitem 8 7; ERegister "z" 4] in
  length (b_heap s) = 10 /\ b_outs s = [8; 4] /\ option_map ob_deps (nth_error (b_heap s) 9) = Some [6; 7] /\
  option_map ob_deps (nth_error (b_heap s) 8) = Some [9] /\ option_map ob_deps (nth_error (b_heap s) 3) = Some [0; 2] /\
  option_map ob_outs (nth_error (b_heap s) 5) = Some [6; 7] /\ option_map ob_name (nth_error (b_heap s) 4) = Some "z"%string.
Proof. vm_compute. repeat split. Qed.
