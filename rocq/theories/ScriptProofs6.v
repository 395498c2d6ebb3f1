(** Which lines of a script are accepted: proofs. *)
From Verif Require Import PyBase NamesModel PromotionsModel ExprModel UnflatModel UnflatSpec ExprProofs EffectSpec EffectProofs WorldModel WorldSpec
  IndexModel IndexSpec IndexSpec2 IndexProofs IndexProofs2 ArithModel ArithSpec ScriptModel ScriptSpec ScriptSpec2 ScriptProofs ScriptProofs2 ScriptProofs3 ScriptProofs4.
From Coq Require Import Lia.
Set Implicit Arguments.
Local Open Scope list_scope.
Local Open Scope nat_scope.

Section S.
  Context (N : numbers).
  Notation pstate := (pstate N). Notation opdata := (opdata N). Notation scall := (scall N).
  Notation attrs := (list (shape * option opdata)).

  Lemma prun_snoc (l : list scall) c : prun (l ++ [c]) = fst (pstep (prun l) c).
  Proof. unfold prun. rewrite fold_left_app. reflexivity. Qed.
  Lemma prun_app (l l' : list scall) : prun (l ++ l') = steps (prun l) l'.
  Proof. unfold prun, steps. rewrite fold_left_app. reflexivity. Qed.
  Lemma front_pinv (l : list scall) : Forall (@front N) l -> pinv (prun l).
  Proof. intros F. destruct (@steps_ok N l (pstate0 N) (pinv0 N) F) as (A & _). exact A. Qed.

  (** Operations *)
  Lemma record_op_accepted (s : pstate) k args outs d : snd (record_op s k args outs d) <> None <-> is_model s k = true /\ forall a, In a args -> is_var s a = true.
  Proof.
    unfold record_op. destruct (is_model s k) eqn:M; cbn [andb].
    - destruct (forallb (is_var s) args) eqn:F; cbn [snd].
      + rewrite forallb_forall in F. split; [auto|discriminate].
      + split; [intros H; exfalso; apply H; reflexivity|]. intros [_ H]. assert (forallb (is_var s) args = true) by (apply forallb_forall; exact H). congruence.
    - cbn. split; [intros H; exfalso; apply H; reflexivity|intros [H _]; discriminate].
  Qed.
  Lemma record_op_fresh (s : pstate) k args outs d r : pinv s -> fixed d -> snd (record_op s k args outs d) = Some r ->
    length (p_heap s) <= r /\ r + length outs = length (p_heap (fst (record_op s k args outs d))) /\
    forall i, i < length outs -> is_var (fst (record_op s k args outs d)) (r + i) = true.
  Proof.
    intros P FX R. pose proof (@record_op_ok N s k args outs d P FX) as Q. cbv zeta in Q. destruct Q as (P' & _ & X & Q). rewrite R in Q. destruct Q as ((op & args' & _ & _ & C) & Q1 & _ & _).
    assert (R' := R). unfold record_op in R. unfold record_op in *. destruct (is_model s k && forallb (is_var s) args) eqn:G; [|discriminate]. cbn [fst snd] in *.
    set (s' := emit s _ _) in *. injection R as ER. 
    assert (V : forall i, i < length outs -> is_var s' (r + i) = true).
    { intros i Hi. destruct (C i Hi) as (ob & E & _ & K). unfold is_var. rewrite E. unfold is_variable, is_op. destruct K as [->|[-> _]]; reflexivity. }
    apply andb_prop in G. destruct G as [G1 G2]. destruct (is_model_get _ _ G1) as (m & M).
    assert (L : length (p_heap s) + length outs <= length (p_heap s')).
    { pose proof (v_len (i_hinv P')) as VL'. pose proof (v_len (i_hinv P)) as VL.
      unfold s' in VL' at 1. cbn [emit p_attr] in VL'. rewrite !app_length in VL'. cbn [length] in VL'. rewrite map_length in VL'. lia. }
    split; [lia|]. split; [lia|exact V].
  Qed.

  Lemma recorded_spec (t : stmt N) : (forall x, t <> SPos _ x) -> (recorded t = None /\ ~ supported t) \/ (exists d, recorded t = Some (operands t, d) /\ supported t /\ fixed d).
  Proof.
    intros NP. destruct t as [x|x|o x y|o x l|o l x|f x]; try (exfalso; eapply NP; reflexivity).
    - right. eexists. split; [reflexivity|split; [exact I|exact I]].
    - destruct o; first [right; eexists; split; [reflexivity|split; exact I]|left; split; [reflexivity|intros []]].
    - destruct o; try (right; eexists; split; [reflexivity|split; exact I]). cbn [recorded supported operands]. destruct l as [c|sh a]; cbn [lit_inv].
      + destruct (feqb N c f0) eqn:E.
        * left. split; [reflexivity|]. intros H. apply H. apply feqb_spec. exact E.
        * right. eexists. split; [reflexivity|]. split; [|exact I]. intros ->. assert (feqb N f0 f0 = true) by (apply feqb_spec; reflexivity). congruence.
      + right. eexists. split; [reflexivity|]. split; exact I.
    - destruct o; first [right; eexists; split; [reflexivity|split; exact I]|left; split; [reflexivity|intros []]].
    - right. eexists. split; [reflexivity|split; exact I].
  Qed.
  Lemma one_shape_spec (s : pstate) (t : stmt N) : one_shape s (operands t) = true <-> forall x, In x (operands t) -> p_shape s x = p_shape s (first_operand N t).
  Proof.
    destruct t; cbn [operands one_shape forallb first_operand]; try (split; [intros _ y [<-|[]]; reflexivity|reflexivity]).
    rewrite andb_true_r, shape_eqb_spec. split.
    - intros E z [<-|[<-|[]]]; congruence.
    - intros H. symmetry. apply H. right. left. reflexivity.
  Qed.
  Lemma first_operand_nth (t : stmt N) : nth 0 (operands t) 0 = first_operand N t.
  Proof. destruct t; reflexivity. Qed.

  Lemma arith_plain (s : pstate) k (t : stmt N) : (forall x, t <> SPos _ x) ->
    arith s k t = match recorded t with None => (s, None) | Some (args, d) => if one_shape s args then record_op s k args [p_shape s (nth 0 args 0)] d else (s, None) end.
  Proof. intros NP. destruct t; try reflexivity. exfalso. eapply NP. reflexivity. Qed.

  Theorem arith_accepted (s : pstate) k (t : stmt N) : (forall x, t <> SPos _ x) ->
    (snd (arith s k t) <> None <->
     is_model s k = true /\ (forall x, In x (operands t) -> is_var s x = true /\ p_shape s x = p_shape s (first_operand N t)) /\ supported t).
  Proof.
    intros NP. rewrite (arith_plain _ _ NP). destruct (recorded_spec NP) as [[-> U]|(d & -> & U & _)].
    - cbn. split; [intros H; exfalso; apply H; reflexivity|intros (_ & _ & H); contradiction].
    - destruct (one_shape s (operands t)) eqn:O.
      + rewrite record_op_accepted. rewrite one_shape_spec in O. split.
        * intros [A B]. split; [exact A|]. split; [|exact U]. intros x Hx. split; [apply B, Hx|apply O, Hx].
        * intros (A & B & _). split; [exact A|]. intros x Hx. apply B, Hx.
      + cbn. split; [intros H; exfalso; apply H; reflexivity|]. intros (_ & B & _). assert (one_shape s (operands t) = true); [|congruence].
        apply one_shape_spec. intros x Hx. apply B, Hx.
  Qed.
  Theorem arith_fresh (s : pstate) k (t : stmt N) r : pinv s -> (forall x, t <> SPos _ x) -> snd (arith s k t) = Some r ->
    length (p_heap s) <= r /\ is_var (fst (arith s k t)) r = true.
  Proof.
    intros P NP. rewrite (arith_plain _ _ NP). destruct (recorded_spec NP) as [[-> U]|(d & -> & U & FX)]; [discriminate|].
    destruct (one_shape s (operands t)); [|discriminate]. intros R. destruct (@record_op_fresh s k (operands t) [p_shape s (nth 0 (operands t) 0)] d r P FX R) as (A & _ & C). split; [exact A|].
    specialize (C 0 (Nat.lt_0_succ _)). rewrite Nat.add_0_r in C. exact C.
  Qed.

  (** ** Reads *)
  Lemma step_decomp (s : pstate) c x ox d : pinv s -> nth_error (p_heap s) x = Some ox -> ob_decomp ox = Some d ->
    exists ox', nth_error (p_heap (fst (pstep s c))) x = Some ox' /\ ob_decomp ox' = Some d.
  Proof.
    intros P E D. pose proof P as [L S H].
    assert (PL : forall e A, plain_call e = true -> exists ox', nth_error (p_heap (emit s e A)) x = Some ox' /\ ob_decomp ox' = Some d).
    { intros e A PC. destruct (wstep_plain N (p_world s) e PC) as (_ & K & _). destruct (K _ _ E) as (o' & E' & _ & D' & _). exists o'. split; [exact E'|congruence]. }
    assert (RO : forall k args outs dd, exists ox', nth_error (p_heap (fst (record_op s k args outs dd))) x = Some ox' /\ ob_decomp ox' = Some d).
    { intros k args outs dd. unfold record_op. destruct (is_model s k && forallb (is_var s) args); [|eauto]. cbn [fst]. apply PL. reflexivity. }
    destruct c as [e sh|k t|k args outs f|k z key|k y key z]; cbn [pstep].
    - destruct (plain_call e) eqn:PC; [apply PL, PC|eauto].
    - unfold arith. destruct t as [p|p|o p q|o p l|o l p|f p];
        try (match goal with |- context [recorded ?t] => destruct (recorded t) as [[args dd]|]; [|eauto]; destruct (one_shape s args); [apply RO|eauto] end).
      destruct (is_var s p); eauto.
    - apply RO.
    - unfold read. destruct (nth_error (p_heap s) z) as [oz|] eqn:Ez; [|eauto]. destruct (is_model s k && is_variable oz) eqn:G; [|eauto]. apply andb_prop in G. destruct G as [G1 G2].
      destruct (is_model_get _ _ G1) as (m & M). destruct (getitem (p_shape s z) (p_dec s z) key) as [d' r]. cbn [fst]. unfold p_heap at 1. cbn [p_world emit].
      match goal with |- context [EGetitem z ?F] => destruct (@read_heap (p_world s) k m z oz F M Ez G2) as (n & nm & HH); destruct F end; rewrite HH; clear HH; change (w_heap (p_world s)) with (p_heap s).
      all: destruct (ob_decomp oz) as [dz|] eqn:Dz; rewrite ?nth_upd', ?(nth_app1 _ _ _ E); try solve [eauto].
      + destruct (Nat.eqb_spec dz x) as [->|]; cbn [option_map]; eauto.
      + match goal with |- context [(upd ?A z ?F ++ _)] => assert (Q : nth_error (upd A z F) x = Some ox) end.
        { rewrite nth_upd', (nth_app1 _ _ _ E). destruct (Nat.eqb_spec z x) as [->|]; [|reflexivity]. rewrite E in Ez. injection Ez as ->. congruence. }
        rewrite (nth_app1 _ _ _ Q). destruct (Nat.eqb_spec (length (p_heap s)) x) as [->|]; cbn [option_map]; eauto.
      + destruct (Nat.eqb_spec z x) as [->|]; [|eauto]. rewrite E in Ez. injection Ez as ->. congruence.
    - unfold assign. destruct (nth_error (p_heap s) y) as [oy|] eqn:Ey; [|eauto]. destruct (nth_error (p_heap s) z) as [oz|] eqn:Ez; [|eauto].
      destruct (is_model s k && _ && is_variable oz) eqn:G; [|eauto]. apply andb_prop in G. destruct G as [G V]. apply andb_prop in G. destruct G as [G1 G2].
      destruct (is_model_get _ _ G1) as (m & M). assert (K : ob_kind oy = KConcat) by (destruct (ob_kind oy); try discriminate; reflexivity).
      destruct (setitem (p_shape s y) (p_cat s y) key (ob_name oz) (p_shape s z)) as [c' [u|er]]; [|cbn; eauto].
      destruct (tgt_indices_of (p_shape s y) key) as [[ts ix]|er]; [|cbn; eauto]. cbn [fst]. unfold p_heap at 1. cbn [p_world emit].
      destruct (@assign_heap _ _ _ _ _ _ _ M Ey K Ez V) as (n & nm & HH). rewrite HH. clear HH. change (w_heap (p_world s)) with (p_heap s).
      destruct (ob_defined oy); [destruct (ob_deps oy) as [|op rest]; [eauto|]|]; rewrite ?nth_upd', ?(nth_app1 _ _ _ E), ?E.
      + destruct (Nat.eqb_spec op x); cbn [option_map]; eauto.
      + destruct (Nat.eqb_spec (length (p_heap s)) x); destruct (Nat.eqb_spec y x); cbn [option_map]; eauto.
  Qed.
End S.
