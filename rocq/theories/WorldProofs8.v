(** Outputs of the models of a program. *)
From Verif Require Import PyBase NamesModel NamesProofs PromotionsModel ExprModel ExprSpec ExprProofs UnflatModel EffectSpec EffectProofs Prop_Expr
  WorldModel WorldSpec WorldSpec2 WorldProofs WorldProofs2 WorldProofs3 WorldProofs4 WorldProofs5 WorldProofs6 WorldProofs7.
From Coq Require Import Lia.
Set Implicit Arguments.
Local Open Scope list_scope.

(** The check of register_output. *)
Definition registrable (s : bst) (n : string) (v : nat) : Prop :=
  check_banned_chars n = Ok tt /\ kind_is is_output s v = true /\ ~ In v (b_outs s) /\ forall i, In i (b_outs s ++ b_ins s ++ b_decls s) -> name_in (b_heap s) i <> n.
Lemma register_spec s n v :
  (registrable s n v /\ register s n v = add_out (with_objs s (upd (b_heap s) v (set_name n))) v) \/ (~ registrable s n v /\ register s n v = s).
Proof.
  unfold register, registrable. fold (name_in (b_heap s)).
  change (fun i : nat => match nth_error (b_heap s) i with Some o => ob_name o | None => EmptyString end) with (name_in (b_heap s)).
  destruct (check_banned_chars n) as [[]|] eqn:E0; cbn [is_ok negb]; [|right; split; [intros (H & _); congruence|reflexivity]].
  destruct (kind_is is_output s v) eqn:E1; cbn [negb]; [|right; split; [intros (_ & H & _); congruence|reflexivity]].
  destruct (memn v (b_outs s)) eqn:E2; [right; split; [intros (_ & _ & H & _); apply H, memn_In, E2|reflexivity]|].
  assert (SN : forall l, smem n (map (name_in (b_heap s)) l) = true -> exists i, In i l /\ name_in (b_heap s) i = n).
  { intros l H. apply smem_spec, in_map_iff in H. destruct H as (i & E & Hi). eauto. }
  destruct (smem n (map (name_in (b_heap s)) (b_outs s))) eqn:E3.
  { right. split; [|reflexivity]. intros (_ & _ & _ & H). destruct (SN _ E3) as (i & Hi & E). apply (H i); [apply in_app_iff; auto|exact E]. }
  destruct (smem n (map (name_in (b_heap s)) (b_ins s))) eqn:E4.
  { right. split; [|reflexivity]. intros (_ & _ & _ & H). destruct (SN _ E4) as (i & Hi & E). apply (H i); [rewrite !in_app_iff; auto|exact E]. }
  destruct (smem n (map (name_in (b_heap s)) (b_decls s))) eqn:E5.
  { right. split; [|reflexivity]. intros (_ & _ & _ & H). destruct (SN _ E5) as (i & Hi & E). apply (H i); [rewrite !in_app_iff; auto|exact E]. }
  left. split; [|reflexivity]. split; [reflexivity|]. split; [reflexivity|]. split; [intros H; apply memn_In in H; congruence|].
  intros i Hi E. apply smem_false in E3, E4, E5. rewrite !in_app_iff in Hi. destruct Hi as [Hi|[Hi|Hi]]; [apply E3|apply E4|apply E5]; apply in_map_iff; eauto.
Qed.

(** Names and kinds of objects: only register_output renames. *)
Definition samekn (o o' : obj) : Prop := ob_kind o' = ob_kind o /\ ob_name o' = ob_name o.
Lemma bstep_name s e i ob : nth_error (b_heap s) i = Some ob ->
  exists ob', nth_error (b_heap (bstep s e)) i = Some ob' /\ ob_kind ob' = ob_kind ob /\ (ob_name ob' = ob_name ob \/ exists n, e = ERegister n i /\ ~ In i (b_outs s) /\ ob_name ob' = n).
Proof.
  intros E. destruct (in_dec Nat.eq_dec i (touched s e)) as [T|T]; [|exists ob; split; [apply (@bstep_kept s e i ob E T)|auto]].
  pose proof (nth_lt _ _ E) as L.
  assert (UP : forall h j f, nth_error h i = Some ob -> (forall o, samekn o (f o)) -> exists ob', nth_error (upd h j f) i = Some ob' /\ samekn ob ob').
  { intros h j f Eh Hf. rewrite nth_upd. destruct (Nat.eqb j i); rewrite Eh; cbn; [exists (f ob); auto|exists ob; unfold samekn; auto]. }
  assert (FIN : forall h, (exists ob', nth_error h i = Some ob' /\ samekn ob ob') -> exists ob', nth_error h i = Some ob' /\ ob_kind ob' = ob_kind ob /\
      (ob_name ob' = ob_name ob \/ exists n, e = ERegister n i /\ ~ In i (b_outs s) /\ ob_name ob' = n)).
  { intros h (ob' & A & [B C]). eauto. }
  destruct e as [n|n|n|n|args n|args os| |op args os|x fresh|y x|v op|n v|on]; cbn [touched] in T; try contradiction.
  - apply FIN. cbn [bstep]. destruct (_ && _); [|exists ob; unfold samekn; auto]. rewrite new_outputs_eq. cbn.
    match goal with |- context [upd ?h op (set_outs ?vs)] => assert (Q : exists ob', nth_error h i = Some ob' /\ samekn ob ob') end.
    { destruct (@UP (b_heap s) op (app_deps args) E) as (ob' & A & B); [intros o; split; reflexivity|]. exists ob'. split; [|exact B].
      rewrite nth_error_app1; [exact A|]. eapply nth_lt, A. }
    destruct Q as (ob' & A & B). rewrite nth_upd. destruct (Nat.eqb op i); rewrite A; cbn; eexists; (split; [reflexivity|]); [|exact B]. destruct B. split; assumption.
  - apply FIN. cbn [bstep]. destruct (nth_error (b_heap s) x) as [ox|]; [|exists ob; unfold samekn; auto]. destruct (is_variable ox); [|exists ob; unfold samekn; auto].
    destruct (ob_decomp ox) as [d|].
    + destruct fresh; [|exists ob; unfold samekn; auto]. cbn. apply UP; [apply nth_snoc, E|]. intros o. split; reflexivity.
    + cbn. destruct (@UP (b_heap s ++ [Obj (KOp false) (b_count s) (hex_id (b_count s)) [x] [] None false]) x (set_decomp (length (b_heap s)))) as (ob1 & A1 & B1);
        [apply nth_snoc, E|intros o; split; reflexivity|]. destruct fresh; [|exists ob1; auto]. cbn.
      rewrite nth_upd_other by lia. exists ob1. split; [apply nth_snoc, A1|exact B1].
  - apply FIN. cbn [bstep]. destruct (nth_error (b_heap s) y) as [oy|]; [|exists ob; unfold samekn; auto]. destruct (ob_kind oy); try (exists ob; unfold samekn; auto; fail).
    destruct (kind_is is_variable s x); [|exists ob; unfold samekn; auto]. destruct (ob_defined oy).
    + destruct (ob_deps oy) as [|op r]; [exists ob; unfold samekn; auto|]. cbn. apply UP; [exact E|]. intros o; split; reflexivity.
    + cbn. destruct (@UP (b_heap s ++ [Obj (KOp false) (b_count s) (hex_id (b_count s)) [x] [] None false]) (length (b_heap s)) (set_outs [y])) as (ob1 & A1 & B1);
        [apply nth_snoc, E|intros o; split; reflexivity|].
      rewrite nth_upd. destruct (Nat.eqb y i); rewrite A1; cbn; eexists; (split; [reflexivity|]); [|exact B1]. destruct B1. split; assumption.
  - apply FIN. cbn [bstep]. destruct (nth_error (b_heap s) v) as [ov|]; [|exists ob; unfold samekn; auto]. destruct (_ && _); [|exists ob; unfold samekn; auto].
    cbn. apply UP; [exact E|]. intros o; split; reflexivity.
  - cbn [bstep]. destruct T as [->|[]]. destruct (@register_spec s n i) as [[(_ & _ & NI & _) ->]|[_ ->]]; [|eauto 6].
    cbn. rewrite nth_upd, Nat.eqb_refl, E. cbn. eexists. split; [reflexivity|]. split; [reflexivity|]. right. exists n. auto.
Qed.

Lemma bstep_outs s e : (forall n v, e <> ERegister n v) -> (forall n, e <> ECreateOut n) -> b_outs (bstep s e) = b_outs s.
Proof.
  intros N1 N2. destruct e as [n|n|n|n|args n|args os| |op args os|x fresh|y x|v op|n v|on]; try reflexivity.
  - cbn [bstep]. destruct (is_ok _); reflexivity.
  - exfalso. eapply N2. reflexivity.
  - destruct (forallb (kind_is is_variable s) args) eqn:F.
    + destruct (@c76_operation s args n) as ((_ & K & _) & _); [|exact K]. rewrite forallb_forall in F. intros a Ha. apply kind_is_variable, F, Ha.
    + cbn [bstep]. rewrite F. reflexivity.
  - destruct (forallb (kind_is is_variable s) args) eqn:F.
    + destruct (@c76_implicit s args os) as ((_ & K & _) & _); [|exact K]. rewrite forallb_forall in F. intros a Ha. apply kind_is_variable, F, Ha.
    + cbn [bstep]. rewrite F. reflexivity.
  - cbn [bstep]. destruct (_ && _); [|reflexivity]. rewrite new_outputs_eq. reflexivity.
  - cbn [bstep]. destruct (nth_error (b_heap s) x) as [ox|]; [|reflexivity]. destruct (is_variable ox); [|reflexivity]. destruct (ob_decomp ox); cbn; destruct fresh; reflexivity.
  - cbn [bstep]. destruct (nth_error (b_heap s) y) as [oy|]; [|reflexivity]. destruct (ob_kind oy); try reflexivity. destruct (kind_is is_variable s x); [|reflexivity].
    destruct (ob_defined oy); [|reflexivity]. destruct (ob_deps oy); reflexivity.
  - cbn [bstep]. destruct (nth_error (b_heap s) v) as [ov|]; [|reflexivity]. destruct (_ && _); reflexivity.
  - exfalso. eapply N1. reflexivity.
  - cbn [bstep]. destruct on as [n|]; [destruct (_ && _)|]; reflexivity.
Qed.
Lemma bstep_create s n : (forall i, In i (b_outs s) -> i < length (b_heap s)) -> bstep s (ECreateOut n) = s \/ bstep s (ECreateOut n) = bump s 1 \/
  exists o, nth_error (b_heap (bstep s (ECreateOut n))) (length (b_heap s)) = Some o /\ ob_kind o = KConcat /\ b_outs (bstep s (ECreateOut n)) = b_outs s ++ [length (b_heap s)].
Proof.
  intros LT. cbn [bstep]. destruct (is_ok _); [|auto]. destruct (alloc s KConcat (Some n) []) as [s1 v] eqn:A. unfold alloc in A. injection A as <- <-.
  match goal with |- context [register ?s1 n ?v] => destruct (register_spec s1 n v) as [[(_ & _ & _ & _) ->]|[NR ->]] end.
  - match goal with |- context [if ?b then _ else _] => destruct b eqn:M end; [|auto]. right. right. cbn. rewrite nth_upd, Nat.eqb_refl.
    rewrite nth_error_app2 by lia. rewrite Nat.sub_diag. cbn. eexists. split; [reflexivity|]. split; reflexivity.
  - match goal with |- context [if ?b then _ else _] => destruct b eqn:M end; [|auto]. right. right. cbn in *.
    assert (Q : In (length (b_heap s)) (b_outs s)) by (apply memn_In, M). apply LT in Q. lia.
Qed.

Section Step.
  Variables (l : list wevent) (e : wevent).
  Hypothesis FR : follows_rules (l ++ [e]).
  Let FRl : follows_rules l := proj1 (@rules_snoc l e FR).
  Let IV : inv (small l) (wst l) := inv_history FRl.

  Lemma outs_owned k v : In v (wm_outs (the_model l k)) -> nth_error (owners l) v = Some k /\ exists ob, nth_error (w_heap (whistory l)) v = Some ob /\ is_output ob = true.
  Proof.
    intros H. destruct (@i_outs _ _ IV k v) as (ob & E & O & K & _); [|split; [exact O|exists ob; auto]].
    cbn. unfold lists. unfold the_model in H. destruct (nth_error (w_models (whistory l)) k); [exact H|destruct H].
  Qed.

  (** The effect of a call on model [j] on the objects. *)
  Lemma step_object i ob : nth_error (w_heap (whistory l)) i = Some ob ->
    exists ob', nth_error (w_heap (whistory (l ++ [e]))) i = Some ob' /\ ob_kind ob' = ob_kind ob /\
      (ob_name ob' = ob_name ob \/ exists j n, e = WOn j (ERegister n i) /\ ~ In i (wm_outs (the_model l j)) /\ ob_name ob' = n).
  Proof.
    intros E. rewrite whistory_snoc. destruct e as [|k ev|k on pr c|k a b|k n|k n|k n]; try (rewrite wstep_heap by (intros; discriminate); exists ob; auto; fail).
    destruct (created_dec l k) as [C|C]; [|cbn [wstep]; rewrite (model_none C); exists ob; destruct ev; auto]. pose proof (model_some C) as Em.
    assert (NE : (exists on, ev = EAdd on) \/ forall on, ev <> EAdd on) by (destruct ev; eauto; right; discriminate).
    destruct NE as [[on ->]|NE]; [cbn [wstep]; rewrite Em; exists ob; auto|]. rewrite (wstep_on _ _ Em NE). cbn [put w_heap].
    destruct (@bstep_name (view (whistory l) (the_model l k)) ev i ob E) as (ob' & A & B & D). exists ob'. split; [exact A|]. split; [exact B|].
    destruct D as [D|(n & -> & D1 & D2)]; [auto|]. right. exists k, n. auto.
  Qed.

  Lemma outs_step k : wm_outs (the_model (l ++ [e]) k) = wm_outs (the_model l k) \/
    (exists n v, e = WOn k (ERegister n v) /\ created l k /\ registrable (view (whistory l) (the_model l k)) n v /\ wm_outs (the_model (l ++ [e]) k) = wm_outs (the_model l k) ++ [v] /\
       name_of (l ++ [e]) v = n) \/
    (exists n v, e = WOn k (ECreateOut n) /\ wm_outs (the_model (l ++ [e]) k) = wm_outs (the_model l k) ++ [v] /\ kind_of (l ++ [e]) v = Some KConcat).
  Proof.
    assert (D : (exists ev, e = WOn k ev) \/ forall ev, e <> WOn k ev).
    { destruct e; try (right; discriminate). destruct (Nat.eq_dec k0 k) as [->|N]; [left; eauto|right; congruence]. }
    destruct D as [(ev & Ee)|D].
    2:{ left. destruct (Nat.eq_dec (actor e) k) as [A|A]; [|rewrite the_model_other; [reflexivity|left; intros x <-; congruence]].
        assert (W : e = WNew \/ e <> WNew) by (destruct e; auto; right; discriminate). destruct W as [W|W]; [rewrite the_model_other by auto; reflexivity|].
        rewrite (the_model_self l W A). destruct (created_dec l k) as [C|C]; [|unfold the_model; rewrite (model_none C); reflexivity].
        destruct e as [|j ev|j on pr c|j a b|j n|j n|j n]; cbn [actor] in A; subst; try reflexivity.
        - exfalso. eapply D. reflexivity.
        - destruct (created_dec l c); [|reflexivity]. destruct on as [n|]; [destruct (_ && _)|]; reflexivity.
        - destruct (String.eqb a b); [reflexivity|]. destruct (existsb _ _); reflexivity.
        - destruct (negb _); [reflexivity|]. destruct (smem _ _); reflexivity.
        - destruct (smem _ _); reflexivity.
        - destruct (wm_obj _); reflexivity. }
    clear IV FRl. rewrite Ee. assert (EW : forall C : created l k, (forall on, ev <> EAdd on) -> w_heap (whistory (l ++ [WOn k ev])) = b_heap (bstep (view (whistory l) (the_model l k)) ev)).
    { intros C N. rewrite whistory_snoc, (wstep_on _ _ (model_some C) N). reflexivity. }
    rewrite (@the_model_self l (WOn k ev) k) by (discriminate || reflexivity).
    destruct (created_dec l k) as [C|C]; [|left; unfold the_model; rewrite (model_none C); reflexivity].
    set (s := view (whistory l) (the_model l k)) in *.
    assert (G : b_outs s = wm_outs (the_model l k)) by reflexivity.
    assert (Q : (forall n v, ev <> ERegister n v) -> (forall n, ev <> ECreateOut n) -> wm_outs (match ev with EAdd _ => the_model l k | _ => with_lists (bstep s ev) (the_model l k) end) = wm_outs (the_model l k)).
    { intros N1 N2. pose proof (bstep_outs s N1 N2) as B. destruct ev; try exact B. reflexivity. }
    destruct ev as [n|n|n|n|args n|args os| |op args os|x fresh|y x|v op|n v|on]; try (left; apply Q; discriminate).
    - clear Q. cbn [with_lists wm_outs].
      destruct (@bstep_create s n) as [E|[E|(o & Eo & K & E)]].
      { intros i Hi. pose proof (inv_history (proj1 (@rules_snoc l e FR))) as IV2. destruct (@i_outs _ _ IV2 k i) as (ob & Eb & _); [|cbn in Eb; eapply nth_lt, Eb].
        cbn. unfold lists. rewrite (model_some C). exact Hi. }
      + left. rewrite E. reflexivity.
      + left. rewrite E. reflexivity.
      + right. right. exists n, (length (b_heap s)). split; [reflexivity|]. split; [rewrite E; reflexivity|]. unfold kind_of. rewrite EW by (auto || discriminate). rewrite Eo. cbn. rewrite K. reflexivity.
    - clear Q. cbn [with_lists wm_outs bstep]. destruct (register_spec s n v) as [[R E]|[_ E]]; [|left; rewrite E; reflexivity].
      right. left. exists n, v. split; [reflexivity|]. split; [exact C|]. split; [exact R|]. split; [rewrite E; reflexivity|].
      unfold name_of, name_in. rewrite EW by (auto || discriminate). cbn [bstep]. rewrite E. cbn. rewrite nth_upd, Nat.eqb_refl. destruct R as (_ & R & _). unfold kind_is in R. cbn in R.
      destruct (nth_error (w_heap (whistory l)) v); [reflexivity|discriminate].
  Qed.

  Lemma owner_kept v k : nth_error (owners l) v = Some k -> nth_error (owners (l ++ [e])) v = Some k.
  Proof. intros H. rewrite owners_snoc, nth_error_app1; [exact H|]. eapply nth_lt, H. Qed.

  Lemma outs_persist k v : In v (wm_outs (the_model l k)) -> In v (wm_outs (the_model (l ++ [e]) k)) /\ name_of (l ++ [e]) v = name_of l v.
  Proof.
    intros H. split.
    - destruct (outs_step k) as [->|[(n & x & _ & _ & _ & -> & _)|(n & x & _ & -> & _)]]; [exact H|apply in_app_iff; auto..].
    - destruct (outs_owned k v H) as (O & ob & E & _). destruct (step_object v E) as (ob' & E' & _ & D). unfold name_of, name_in. rewrite E, E'.
      destruct D as [D|(j & n & -> & NI & _)]; [exact D|]. exfalso. pose proof (proj2 (@rules_snoc _ _ FR)) as (_ & _ & R3 & _).
      assert (Q : nth_error (owners l) v = Some j) by (apply R3; cbn; auto). rewrite O in Q. injection Q as <-. contradiction.
  Qed.
End Step.
