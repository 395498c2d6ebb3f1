(** A solution of the equations of a script's objects agrees with the script's lines. *)
From Coq Require Import Field.
From Verif Require Import PyBase NamesModel PromotionsModel ExprModel UnflatModel UnflatSpec FlattenSpec ExprProofs EffectSpec EffectProofs WorldModel
  CompileModel CompileSpec CompileProofs
  IndexModel IndexSpec IndexProofs ArithModel ArithSpec ArithProofs ScriptModel ScriptSpec ScriptProofs ScriptProofs2 ScriptProofs3 ScriptProofs4.
From Coq Require Import Lia.
Set Implicit Arguments.
Local Open Scope list_scope.
Local Open Scope nat_scope.

Section S.
  Context (N : numbers).
  Notation pstate := (pstate N). Notation opdata := (opdata N). Notation scall := (scall N).
  Notation attrs := (list (shape * option opdata)).
  Definition ringN := F_R (num_field N).
  Add Ring sring : ringN.

  (** ** Assigned elements *)
  Lemma same_element_spec size z i : (0 <= z)%Z -> same_element size z i = true <-> z = Z.of_nat i.
  Proof. intros H. unfold same_element. destruct (Z.ltb_spec z 0); [lia|]. apply Z.eqb_eq. Qed.
  Lemma index_of_miss size ix i : Forall (fun z => (0 <= z < size)%Z) ix -> ~ In (Z.of_nat i) ix -> index_of size ix i = None.
  Proof.
    induction 1 as [|z r [Hz _] _ IH]; intros NI; cbn; [reflexivity|]. destruct (same_element size z i) eqn:E.
    - apply same_element_spec in E; [|exact Hz]. subst z. exfalso. apply NI. left. reflexivity.
    - rewrite IH; [reflexivity|]. intros H. apply NI. right. exact H.
  Qed.
  Lemma index_of_hit size ix i q : NoDup ix -> Forall (fun z => (0 <= z < size)%Z) ix -> nth_error ix q = Some (Z.of_nat i) -> index_of size ix i = Some q.
  Proof.
    intros ND F. revert q ND. induction F as [|z r [Hz _] _ IH]; intros q ND E; [destruct q; discriminate|]. inversion ND as [|? ? N1 N2]; subst. cbn.
    destruct q as [|q]; cbn in E.
    - injection E as ->. rewrite (proj2 (same_element_spec size i Hz) eq_refl). reflexivity.
    - destruct (same_element size z i) eqn:S.
      + apply same_element_spec in S; [|exact Hz]. subst z. exfalso. apply N1. eapply nth_error_In, E.
      + rewrite (IH _ N2 E). reflexivity.
  Qed.
  Lemma assigned_miss size tgt i : (forall ix, In ix tgt -> Forall (fun z => (0 <= z < size)%Z) ix /\ ~ In (Z.of_nat i) ix) ->
    forall args, assigned N size tgt args i = None.
  Proof.
    induction tgt as [|ix r IH]; intros H args; cbn; [reflexivity|]. destruct args as [|a args]; [reflexivity|].
    rewrite IH by (intros; apply H; right; assumption). destruct (H ix (or_introl eq_refl)) as [F NI]. rewrite index_of_miss by assumption. reflexivity.
  Qed.
  Lemma assigned_hit size tgt : forall args j ix a i q,
    (forall ix, In ix tgt -> NoDup ix /\ Forall (fun z => (0 <= z < size)%Z) ix) ->
    ForallOrdPairs (fun a b => forall i : Z, In i a -> In i b -> False) tgt ->
    nth_error tgt j = Some ix -> nth_error args j = Some a -> nth_error ix q = Some (Z.of_nat i) -> assigned N size tgt args i = Some (a q).
  Proof.
    induction tgt as [|t r IH]; intros args j ix a i q H D J A Q; [destruct j; discriminate|]. destruct args as [|b args]; [destruct j; discriminate|].
    inversion D as [|? ? D1 D2]; subst. cbn. destruct j as [|j]; cbn in J, A.
    - injection J as ->. injection A as ->. destruct (H ix (or_introl eq_refl)) as [ND F].
      rewrite assigned_miss; [rewrite (@index_of_hit size ix i q ND F Q); reflexivity|]. intros ix' Hi. split; [apply H; right; exact Hi|].
      intros Hin. rewrite Forall_forall in D1. eapply (D1 _ Hi); [eapply nth_error_In, Q|exact Hin].
    - erewrite IH; [reflexivity| |exact D2|exact J|exact A|exact Q]. intros ix' Hi. apply H. right. exact Hi.
  Qed.

  Section Solution.
    Context (s : pstate) (um : umodel) (m : model) (other : nat -> list (arr N) -> nat -> arr N) (left : nat -> arr N)
      (init : string -> arr N) (val : list string -> nat -> arr N).
    Notation h := (p_heap s).
    Hypothesis P : pinv s.
    Hypothesis WF : well_formed h um m (p_shape s).
    Hypothesis SV : solves h um m (backend N s other left) init val.

    Lemma occurs_op p v op : occurs h um p v -> computed_by h v op -> occurs h um p op.
    Proof.
      intros (ins & outs & decls & subs & U & [I|R]) (ob & E & D & K).
      - exfalso. pose proof (@in_object _ _ _ _ WF _ _ _ _ _ _ U I) as (ob' & E' & K'). rewrite E in E'. injection E' as <-. destruct K as [K|[K _]]; congruence.
      - exists ins, outs, decls, subs. split; [exact U|]. right. eapply needed_dep; [exact R|]. exists ob. split; [exact E|]. rewrite D. left. reflexivity.
    Qed.
    Lemma occurs_arg p op oo a : occurs h um p op -> nth_error h op = Some oo -> is_op oo = true -> In a (ob_deps oo) -> occurs h um p a.
    Proof.
      intros (ins & outs & decls & subs & U & [I|R]) E K A.
      - exfalso. pose proof (@in_object _ _ _ _ WF _ _ _ _ _ _ U I) as (ob' & E' & K'). rewrite E in E'. injection E' as <-. unfold is_op in K. rewrite K' in K. discriminate.
      - exists ins, outs, decls, subs. split; [exact U|]. right. eapply needed_dep; [exact R|]. exists oo. auto.
    Qed.
    Lemma kop_op oo : ob_kind oo = KOp false -> is_op oo = true.
    Proof. unfold is_op. intros ->. reflexivity. Qed.
    Lemma value_is p v op oo d k : occurs h um p v -> computed_by h v op -> nth_error h op = Some oo -> ob_kind oo = KOp false ->
      data_in (p_attr s) op = Some d -> nth_error (ob_outs oo) k = Some v -> val p v = op_value N (left op) d (map (val p) (ob_deps oo)) k.
    Proof.
      intros O C E K D J. rewrite (@s_operations _ _ _ _ _ _ _ SV _ _ _ _ _ (occurs_op O C) E (kop_op _ K) J). unfold backend. change (p_data s op) with (data_in (p_attr s) op). rewrite D. reflexivity.
    Qed.
    Lemma copy_value p a a' : occurs h um p a' -> copied h (p_attr s) a a' -> forall i, val p a' i = val p a i.
    Proof.
      intros O [->|(c & (oc & E & K & D & U & A) & C)] i; [reflexivity|]. rewrite (@value_is p a' c oc _ 0 O C E K A); [|rewrite U; reflexivity].
      rewrite D. cbn. unfold powcomb. cbn. rewrite (pow_one N). ring.
    Qed.
    Lemma args_values' p op oo args d outs : occurs h um p op -> op_is h (p_attr s) op (ob_deps oo) outs d -> nth_error h op = Some oo ->
      Forall2 (copied h (p_attr s)) args (ob_deps oo) -> Forall2 (fun a b => forall i, a i = b i) (map (val p) (ob_deps oo)) (map (val p) args).
    Proof.
      intros O (oo' & E & K & _) E' F. rewrite E' in E. injection E as <-.
      assert (Q : forall b, In b (ob_deps oo) -> occurs h um p b) by (intros b Hb; eapply occurs_arg; [exact O|exact E'|apply kop_op, K|exact Hb]).
      revert Q. generalize dependent (ob_deps oo). intros l F Q. induction F as [|a b la lb C F IH]; cbn; constructor.
      - intros i. apply copy_value; [apply Q; left; reflexivity|exact C].
      - apply IH. intros c Hc. apply Q. right. exact Hc.
    Qed.
    Lemma applied_value p args d r n v : applied h (p_attr s) args d r n -> r <= v < r + n -> occurs h um p v ->
      exists op args', Forall2 (fun a b => forall i, a i = b i) args' (map (val p) args) /\ val p v = op_value N (left op) d args' (v - r).
    Proof.
      intros (op & args' & OI & F & C) Hv O. pose proof OI as (oo & E & K & D & U & A). specialize (C (v - r)). replace (r + (v - r)) with v in C by lia.
      assert (CV : computed_by h v op) by (apply C; lia). exists op, (map (val p) (ob_deps oo)). split.
      - rewrite <- D in OI, F. eapply args_values'; [eapply occurs_op; [exact O|exact CV]|exact OI|exact E|exact F].
      - eapply value_is; [exact O|exact CV|exact E|exact K|exact A|]. rewrite U. rewrite nth_error_nth' with (d := 0) by (rewrite seq_length; lia). rewrite seq_nth by lia. f_equal. lia.
    Qed.

    Lemma recorded_value p t args d args' lf : recorded t = Some (args, d) -> Forall2 (fun a b => forall i, a i = b i) args' (map (val p) args) ->
      nth 0 args 0 = first_operand N t /\
      forall i, op_value N lf d args' 0 i = match t with
                          | SPos _ x => val p x i
                          | SNeg _ x => fopp N (val p x i)
                          | SBin _ o x y => bin_meaning N o (val p x) (val p y) i
                          | SBinL o x l => bin_meaning N o (val p x) (lit_at l) i
                          | SLBin o l x => bin_meaning N o (lit_at l) (val p x) i
                          | SFun _ f x => function N f (val p x i)
                          end.
    Proof.
      intros R F.
      assert (F1 : forall x, args = [x] -> exists a, args' = [a] /\ forall i, a i = val p x i).
      { intros x ->. inversion F as [|? ? ? ? Q1 Q2]; subst. inversion Q2; subst. eauto. }
      assert (F2 : forall x y, args = [x; y] -> exists a b, args' = [a; b] /\ (forall i, a i = val p x i) /\ (forall i, b i = val p y i)).
      { intros x y ->. inversion F as [|? ? ? ? Q1 Q2]; subst. inversion Q2 as [|? ? ? ? Q3 Q4]; subst. inversion Q4; subst. eauto. }
      destruct t as [x|x|o x y|o x l|o l x|f x]; cbn [recorded] in R.
      - injection R as <- <-. destruct (F1 _ eq_refl) as (a & -> & A). split; [reflexivity|]. intros i. cbn. unfold lincomb, m1. cbn. rewrite A. ring.
      - discriminate.
      - destruct o; try discriminate; injection R as <- <-; destruct (F2 _ _ eq_refl) as (a & b & -> & A & B); (split; [reflexivity|]); intros i; cbn; unfold lincomb, powcomb, m1; cbn; rewrite ?(pow_one N), ?(pow_minus_one N), A, B, ?(fdiv_mul N); ring.
      - destruct o; try (injection R as <- <-; destruct (F1 _ eq_refl) as (a & -> & A); (split; [reflexivity|]); intros i; cbn; unfold lincomb, powcomb, m1; cbn; rewrite ?(pow_one N), A, ?(lit_opp_at N); ring).
        destruct (lit_inv l) as [l'|] eqn:LI; [|discriminate]. injection R as <- <-. destruct (F1 _ eq_refl) as (a & -> & A). split; [reflexivity|]. intros i. cbn. unfold powcomb. cbn.
        rewrite (pow_one N), A, (fdiv_mul N), (lit_inv_at N _ _ i LI). ring.
      - destruct o; try discriminate; injection R as <- <-; destruct (F1 _ eq_refl) as (a & -> & A); (split; [reflexivity|]); intros i; cbn; unfold lincomb, powcomb, m1; cbn; rewrite ?(pow_one N), ?(pow_minus_one N), A, ?(fdiv_mul N); ring.
      - injection R as <- <-. destruct (F1 _ eq_refl) as (a & -> & A). split; [reflexivity|]. intros i. cbn. rewrite A. reflexivity.
    Qed.

    Theorem line_says p c r v : keeps h (p_attr s) c r -> defines N c r v -> occurs h um p v -> says N (p_shape s) (val p) c r v.
    Proof.
      intros KP DF O. destruct c as [e sh|k t|k args outs f|k x key|k y key x]; cbn [defines] in DF; [exact I| | | |].
      - subst v. cbn [says]. change (p_shape s) with (shape_in (p_attr s)).
        assert (G : (exists args d, recorded t = Some (args, d) /\ applied h (p_attr s) args d r 1 /\ nth 0 args 0 < length h /\ r < length h /\ shape_in (p_attr s) r = shape_in (p_attr s) (nth 0 args 0)) ->
          says N (p_shape s) (val p) (CArith k t) r r).
        { intros (args & d & R & A & _ & _ & S). destruct (applied_value A (v := r) ltac:(lia) O) as (op & args' & F & V).
          rewrite Nat.sub_diag in V. destruct (recorded_value p t (left op) R F) as [F0 W]. split; [change (p_shape s) with (shape_in (p_attr s)); rewrite S, F0; reflexivity|].
          intros i. rewrite V. apply W. }
        destruct t; try exact (G KP). cbn [keeps] in KP. subst r. split; [reflexivity|]. reflexivity.
      - destruct KP as (A & _ & S). cbn [says]. split.
        + rewrite S by lia. do 2 f_equal. change (p_shape s) with (shape_in (p_attr s)). f_equal. lia.
        + intros EL i. destruct (applied_value A DF O) as (op & args' & F & V). rewrite V. cbn [op_value]. apply EL, F.
      - subst v. intros NO. destruct (KP NO) as (d & od & j & src & ls & ix & E & K & D & J & C & A & X & _ & _ & S1 & S2 & S3).
        exists ls, ix. split; [exact S1|]. split; [exact S2|]. split; [exact S3|]. intros q f Q.
        rewrite (@value_is p r d od _ j O C E K A J), D. cbn [op_value map nth]. rewrite (nth_error_nth _ _ _ X), (nth_error_nth _ _ _ Q). reflexivity.
      - destruct KP as (-> & op & oo & j & tgt & ix & E & K & D & J & C & (oy & Ey & Ky) & A & X & _ & _ & T & B). subst v. intros KY.
        pose proof C as (oy' & Ey' & Dy & Kd). rewrite Ey in Ey'. injection Ey' as <-.
        assert (DE : ob_defined oy = true) by (destruct Kd as [Kd|[_ Kd]]; congruence).
        destruct P as [_ _ H]. destruct (v_cat H y Ey Ky DE) as (op' & oo' & tgt' & Q1 & Q2 & Q3 & Q4 & Q5 & Q6 & (Q7 & Q8)).
        rewrite Dy in Q1. injection Q1 as <-. rewrite E in Q2. injection Q2 as <-. rewrite A in Q5. injection Q5 as <-.
        destruct (Q7 _ (nth_error_In _ _ X)) as (ND & FB & _).
        destruct (@write_positions (p_shape s y) key (p_shape s x) ix T B) as (ls & S1 & S2 & S3).
        { destruct key as [z|sl|l|]; auto. split; [|exact KY]. cbn in T. injection T as _ <-. inversion FB; subst. lia. }
        exists ls, ix. split; [exact S1|]. split; [exact S2|]. split; [exact S3|]. intros q f Q.
        assert (F0 : (0 <= f)%Z) by (rewrite Forall_forall in FB; apply FB; eapply nth_error_In, Q).
        rewrite (@value_is p y op oo _ 0 O C E K A); [|rewrite J; reflexivity]. cbn [op_value].
        erewrite assigned_hit; [reflexivity| |exact Q8|exact X| |rewrite Z2Nat.id by exact F0; exact Q].
        + intros ix' Hi. destruct (Q7 _ Hi) as (R1 & R2 & _). auto.
        + rewrite nth_error_map, D. reflexivity.
    Qed.
  End Solution.
End S.
