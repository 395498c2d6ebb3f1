(** What the state of a script keeps of each line. *)
From Verif Require Import PyBase NamesModel PromotionsModel ExprModel UnflatModel UnflatSpec ExprProofs EffectSpec EffectProofs WorldModel
  IndexModel IndexSpec IndexProofs ArithModel ArithSpec ScriptModel ScriptSpec ScriptProofs ScriptProofs2.
From Coq Require Import Lia.
Set Implicit Arguments.
Local Open Scope list_scope.
Local Open Scope nat_scope.

Section S.
  Context (N : numbers).
  Notation pstate := (pstate N). Notation opdata := (opdata N). Notation scall := (scall N).
  Notation attrs := (list (shape * option opdata)).

  Record pinv (s : pstate) : Prop := {
    i_log : p_world s = whistory (p_log s);
    i_sinv : sinv (p_heap s);
    i_hinv : hinv (p_heap s) (p_attr s) (p_dec s) (p_cat s)
  }.
  Lemma pinv0 : pinv (pstate0 N).
  Proof.
    split; [reflexivity| |].
    - intros i ob E. destruct i; discriminate.
    - split; cbn; try reflexivity; intros; try lia; auto.
      + destruct x; discriminate.
      + destruct y; discriminate.
  Qed.

  Definition fixed (d : opdata) : Prop := match d with DReads _ | DWrites _ _ => False | _ => True end.
  Lemma op_is_later h (at_ : attrs) h' (at' : attrs) o deps outs d : hxt h at_ h' at' -> fixed d -> op_is h at_ o deps outs d -> op_is h' at' o deps outs d.
  Proof.
    intros [_ _ _ X] F (ob & E & K & D & O & A). destruct (X _ _ _ E K A) as (ob' & E' & K' & H). exists ob'.
    destruct d; try contradiction; destruct H as (H1 & H2 & H3); repeat split; congruence.
  Qed.
  Lemma copied_later h (at_ : attrs) h' (at' : attrs) a b : hxt h at_ h' at' -> hext h h' -> copied h at_ a b -> copied h' at' a b.
  Proof.
    intros X X' [->|(c & H & C)]; [left; reflexivity|]. right. exists c. split; [eapply op_is_later; [exact X| |exact H]; exact I|apply (he_cmp X'), C].
  Qed.

  (** [keeps h at_ c r]: the objects and data that line [c] left, [r] being its result. *)
  Definition applied (h : list obj) (at_ : attrs) (args : list nat) (d : opdata) (r n : nat) : Prop :=
    exists op args', op_is h at_ op args' (seq r n) d /\ Forall2 (copied h at_) args args' /\ (forall i, i < n -> computed_by h (r + i) op).
  Definition keeps (h : list obj) (at_ : attrs) (c : scall) (r : nat) : Prop :=
    match c with
    | CCall _ _ => True
    | CArith _ (SPos _ x) => r = x
    | CArith _ t => exists args d, recorded t = Some (args, d) /\ applied h at_ args d r 1 /\ nth 0 args 0 < length h /\ r < length h /\
                      shape_in at_ r = shape_in at_ (nth 0 args 0)
    | COther _ args outs f => applied h at_ args (DOther f) r (length outs) /\ r + length outs <= length h /\
                      (forall i, i < length outs -> nth_error outs i = Some (shape_in at_ (r + i)))
    | CRead _ x key => no_other key -> exists d od j src ls ix, nth_error h d = Some od /\ ob_kind od = KOp false /\ ob_deps od = [x] /\
                      nth_error (ob_outs od) j = Some r /\ computed_by h r d /\ data_in at_ d = Some (DReads src) /\ nth_error src j = Some ix /\
                      x < length h /\ r < length h /\
                      all_selects (shape_in at_ x) (components key) ls /\ Forall2 (at_flat (shape_in at_ x)) ix (cartesian ls) /\
                      shape_in at_ r = map (@length Z) ls
    | CAssign _ y key x => r = y /\ exists op oo j tgt ix, nth_error h op = Some oo /\ ob_kind oo = KOp false /\ nth_error (ob_deps oo) j = Some x /\
                      ob_outs oo = [y] /\ computed_by h y op /\ (exists oy, nth_error h y = Some oy /\ ob_kind oy = KConcat) /\ data_in at_ op = Some (DWrites (size_of (shape_in at_ y)) tgt) /\ nth_error tgt j = Some ix /\
                      x < length h /\ y < length h /\
                      tgt_indices_of (shape_in at_ y) key = Ok (shape_in at_ x, ix) /\ Forall (fun i => (i < size_of (shape_in at_ y))%Z) ix
    end.

  Lemma recorded_fixed t args d : recorded t = Some (args, d) -> fixed d.
  Proof.
    destruct t as [p|p|o p q|o p l|o l p|f p]; cbn; try (intros H; injection H as <- <-; exact I); try discriminate.
    - destruct o; cbn; try discriminate; intros H; injection H as <- <-; exact I.
    - destruct o; cbn; try discriminate; try (intros H; injection H as <- <-; exact I). destruct (lit_inv l); [|discriminate]. intros H; injection H as <- <-; exact I.
    - destruct o; cbn; try discriminate; intros H; injection H as <- <-; exact I.
  Qed.
  Lemma applied_later h at_ h' at' args d r n : hxt h at_ h' at' -> hext h h' -> fixed d -> applied h at_ args d r n -> applied h' at' args d r n.
  Proof.
    intros X X' F (op & args' & O & C & H). exists op, args'. split; [eapply op_is_later; eassumption|]. split; [eapply Forall2_impl'; [|exact C]; intros; eapply copied_later; eassumption|].
    intros i Hi. apply (he_cmp X'), H, Hi.
  Qed.
  Lemma keeps_later h at_ h' at' c r : hxt h at_ h' at' -> hext h h' -> keeps h at_ c r -> keeps h' at' c r.
  Proof.
    intros X X'. pose proof X as [XL XS XK XO]. destruct c as [e sh|k t|k args outs f|k x key|k y key x]; cbn [keeps]; auto.
    - assert (G : (exists args d, recorded t = Some (args, d) /\ applied h at_ args d r 1 /\ nth 0 args 0 < length h /\ r < length h /\ shape_in at_ r = shape_in at_ (nth 0 args 0)) ->
                  exists args d, recorded t = Some (args, d) /\ applied h' at' args d r 1 /\ nth 0 args 0 < length h' /\ r < length h' /\ shape_in at' r = shape_in at' (nth 0 args 0)).
      { intros (args & d & R & A & L1 & L2 & S). exists args, d. split; [exact R|]. split; [eapply applied_later; eauto using recorded_fixed|].
        split; [lia|]. split; [lia|]. rewrite !XS by assumption. exact S. }
      destruct t; exact G || auto.
    - intros (A & L & S). split; [eapply applied_later; eauto; exact I|]. split; [lia|]. intros i Hi. rewrite XS by lia. apply S, Hi.
    - intros H NO. destruct (H NO) as (d & od & j & src & ls & ix & E & K & D & O & C & A & J & L1 & L2 & S1 & S2 & S3).
      destruct (XO _ _ _ E K A) as (od' & E' & K' & D' & m & l' & O' & A'). exists d, od', j, (src ++ l'), ls, ix.
      split; [exact E'|]. split; [exact K'|]. split; [congruence|]. split; [rewrite O'; apply nth_app1, O|]. split; [apply (he_cmp X'), C|]. split; [exact A'|].
      split; [apply nth_app1, J|]. split; [lia|]. split; [lia|]. rewrite !XS by assumption. auto.
    - intros (-> & op & oo & j & tgt & ix & E & K & D & O & C & KC & A & J & L1 & L2 & T & F). split; [reflexivity|].
      destruct (XO _ _ _ E K A) as (oo' & E' & K' & O' & m & l' & D' & A'). exists op, oo', j, (tgt ++ l'), ix.
      split; [exact E'|]. split; [exact K'|]. split; [rewrite D'; apply nth_app1, D|]. split; [congruence|]. split; [apply (he_cmp X'), C|].
      split. { destruct KC as (oy & Ey & Ky). destruct (XK _ _ Ey) as (oy' & Ey' & Ky'). exists oy'. split; [exact Ey'|congruence]. }
      rewrite !XS by assumption. split; [exact A'|].
      split; [apply nth_app1, J|]. split; [lia|]. split; [lia|]. auto.
  Qed.

  (** ** Lines *)
  Definition step_ok (s : pstate) (c : scall) (x : pstate * option nat) : Prop :=
    pinv (fst x) /\ hext (p_heap s) (p_heap (fst x)) /\ hxt (p_heap s) (p_attr s) (p_heap (fst x)) (p_attr (fst x)) /\
    match snd x with Some r => keeps (p_heap (fst x)) (p_attr (fst x)) c r | None => True end.
  Lemma same_ok s c : pinv s -> step_ok s c (s, None).
  Proof. intros P. split; [exact P|]. split; [apply hext_refl|]. split; [apply hxt_refl|exact I]. Qed.

  Lemma emit_log s e : pinv s -> wstep (p_world s) e = whistory (p_log s ++ [e]).
  Proof. intros [L _ _]. rewrite L. unfold whistory. rewrite fold_left_app. reflexivity. Qed.

  Lemma call_ok s e sh : pinv s -> step_ok s (CCall e sh) (pstep s (CCall e sh)).
  Proof.
    intros P. cbn [pstep]. destruct (plain_call e) eqn:PC; [|apply same_ok, P]. pose proof P as [L S H].
    destruct (wstep_better (p_world s) e S) as [B1 B2]. pose proof (wstep_plain N (p_world s) e PC) as PE.
    destruct (plain_hinv (repeat (sh, None) (length (w_heap (wstep (p_world s) e)) - length (p_heap s))) H PE) as [H1 H2]; [apply repeat_length|].
    split; [|split; [exact B2|split; [exact H2|exact I]]]. split; [apply emit_log, P|exact B1|exact H1].
  Qed.

  Lemma is_model_get (s : pstate) k : is_model s k = true -> exists m, nth_error (w_models (p_world s)) k = Some m.
  Proof. unfold is_model. rewrite Nat.ltb_lt. intros H. destruct (nth_error _ k) eqn:E; [eauto|]. apply nth_error_None in E. lia. Qed.
  Lemma out_objs_get op names : forall k i o, nth_error (out_objs op k names) i = Some o -> ob_kind o = KOut /\ ob_deps o = [op].
  Proof. induction names as [|n r IH]; intros k [|i] o; cbn; try discriminate; [intros H; injection H as <-; auto|]. apply IH. Qed.
  Lemma out_objs_length op names : forall k, length (out_objs op k names) = length names.
  Proof. induction names as [|n r IH]; intros k; cbn; [reflexivity|]. rewrite IH. reflexivity. Qed.
  Lemma nth_app_plus {A} (l r : list A) i : nth_error (l ++ r) (length l + i) = nth_error r i.
  Proof. rewrite nth_error_app2 by lia. f_equal. lia. Qed.

  Lemma record_op_ok (s : pstate) k args outs d : pinv s -> fixed d -> let x := record_op s k args outs d in
    pinv (fst x) /\ hext (p_heap s) (p_heap (fst x)) /\ hxt (p_heap s) (p_attr s) (p_heap (fst x)) (p_attr (fst x)) /\
    match snd x with
    | Some r => applied (p_heap (fst x)) (p_attr (fst x)) args d r (length outs) /\ r + length outs <= length (p_heap (fst x)) /\
                (forall i, i < length outs -> nth_error outs i = Some (shape_in (p_attr (fst x)) (r + i))) /\
                (forall a, In a args -> a < length (p_heap s))
    | None => True
    end.
  Proof.
    intros P FX. unfold record_op. destruct (is_model s k && forallb (is_var s) args) eqn:G.
    2: { cbn. repeat (split; [exact P || apply hext_refl || apply hxt_refl|]). exact I. }
    apply andb_prop in G. destruct G as [G1 G2]. destruct (is_model_get _ _ G1) as (m & M). pose proof P as [L S H].
    set (e := WOn k (EApply args (length outs))).
    assert (V : forallb (kind_is is_variable (view (p_world s) m)) args = true) by exact G2.
    pose proof (@all_variables (view (p_world s) m) args V) as V'.
    assert (BD : forall a, In a args -> a < length (p_heap s)) by (intros a Ha; destruct (V' a Ha) as (ob & E & _); eapply nth_lt, E).
    pose proof (v_len H) as VL.
    destruct (@dedup_exact N (length (p_heap s)) (p_shape s) args [] [] (view (p_world s) m) (p_attr s)) as (_ & _ & _ & more & Hm & Lm & Dm & F); try exact VL; try exact BD; [apply le_n|reflexivity|].
    pose proof (eq_refl (dedup_args (view (p_world s) m) [] args)) as DD. destruct (dedup_args (view (p_world s) m) [] args) as [s1 l] eqn:ED. clear DD. cbn [fst snd] in *.
    assert (HH : w_heap (wstep (p_world s) e) = b_heap s1 ++ op_obj (b_count s1) l (seq (Datatypes.S (length (b_heap s1))) (length outs)) :: out_objs (length (b_heap s1)) (b_count s1 + 1)%N (repeat None (length outs))).
    { unfold e. cbn [wstep]. rewrite M. unfold put. cbn [w_heap bstep]. rewrite V, ED, new_op_eq. cbn [fst b_heap]. rewrite repeat_length. reflexivity. }
    assert (Hm' : b_heap s1 = p_heap s ++ more) by exact Hm. clear Hm.
    set (ca := copy_attrs N (p_shape s) (repeated [] args)) in *.
    set (tail := ([] : shape, Some d) :: map (fun sh => (sh, None : option opdata)) outs).
    set (at' := p_attr s ++ ca ++ tail).
    assert (AT : flat_map (fun a => [([], Some (copy_data N)); (p_shape s a, None)]) (repeated [] args) = ca) by reflexivity. rewrite AT. fold tail. fold at'.
    assert (LT : length tail = Datatypes.S (length outs)) by (unfold tail; cbn; rewrite map_length; reflexivity).
    assert (L1 : length (b_heap s1) = length (p_heap s) + length ca) by (rewrite Hm', app_length, Lm; reflexivity).
    assert (LL : length (w_heap (wstep (p_world s) e)) = length (b_heap s1) + Datatypes.S (length outs)).
    { rewrite HH, app_length. cbn [length]. rewrite out_objs_length, repeat_length. reflexivity. }
    destruct (wstep_better (p_world s) e S) as [B1 B2]. pose proof (wstep_plain N (p_world s) e eq_refl) as PE.
    destruct (plain_hinv (ca ++ tail) H PE) as [H1 H2].
    { change (length (w_heap (p_world s))) with (length (p_heap s)). rewrite app_length, LT. unfold p_heap in *. lia. }
    cbn [fst snd]. match goal with |- context [emit s e ?A] => change A with at' end. set (s' := emit s e at'). change (p_heap s') with (w_heap (wstep (p_world s) e)). change (p_attr s') with at'.
    split; [split; [apply emit_log, P|exact B1|exact H1]|]. split; [exact B2|]. split; [exact H2|].
    set (r := length (w_heap (wstep (p_world s) e)) - length outs). assert (R : r = length (b_heap s1) + 1) by (unfold r; lia).
    assert (LA : length (p_attr s ++ ca) = length (b_heap s1)) by (rewrite app_length, L1; lia).
    split; [|split; [unfold r; lia|split; [|exact BD]]].
    - exists (length (b_heap s1)), l. split.
      { exists (op_obj (b_count s1) l (seq (Datatypes.S (length (b_heap s1))) (length outs))). rewrite HH. split; [rewrite nth_error_app2, Nat.sub_diag by lia; reflexivity|].
        split; [reflexivity|]. split; [reflexivity|]. split; [cbn; rewrite R; f_equal; lia|]. unfold data_in, at'. rewrite app_assoc, <- LA, nth_error_app2, Nat.sub_diag by lia. reflexivity. }
      split.
      { rewrite HH. unfold at'. rewrite app_assoc. eapply Forall2_impl'; [|exact F]. intros a b Hab. apply copied_app, Hab. }
      intros i Hi. rewrite HH, R, <- Nat.add_assoc. cbn [Nat.add].
      assert (E : exists o, nth_error (out_objs (length (b_heap s1)) (b_count s1 + 1)%N (repeat None (length outs))) i = Some o).
      { destruct (nth_error _ i) eqn:E; [eauto|]. apply nth_error_None in E. rewrite out_objs_length, repeat_length in E. lia. }
      destruct E as (o & E). destruct (out_objs_get _ _ _ _ E) as [K D]. exists o. split; [rewrite nth_app_plus; exact E|]. auto.
    - intros i Hi. unfold shape_in, at'. rewrite app_assoc, R, <- Nat.add_assoc, <- LA, nth_app_plus. unfold tail. cbn [Nat.add nth_error]. rewrite nth_error_map.
      destruct (nth_error outs i) eqn:E; [reflexivity|]. apply nth_error_None in E. lia.
  Qed.

  Lemma other_ok s k args outs f : pinv s -> step_ok s (COther k args outs f) (pstep s (COther k args outs f)).
  Proof.
    intros P. destruct (@record_op_ok s k args outs (DOther f) P I) as (A & B & C & D). cbn [pstep]. split; [exact A|]. split; [exact B|]. split; [exact C|].
    destruct (snd _); [|exact I]. destruct D as (D1 & D2 & D3 & _). cbn [keeps]. auto.
  Qed.

  Lemma arith_ok s k t : pinv s -> step_ok s (CArith k t) (pstep s (CArith k t)).
  Proof.
    intros P. cbn [pstep].
    assert (G : (forall p, t <> SPos _ p) -> step_ok s (CArith k t) (match recorded t with None => (s, None) | Some (args, d) =>
             if one_shape s args then record_op s k args [p_shape s (nth 0 args 0)] d else (s, None) end)).
    { intros NP. destruct (recorded t) as [[args d]|] eqn:R; [|apply same_ok, P]. destruct (one_shape s args) eqn:O; [|apply same_ok, P].
      destruct (@record_op_ok s k args [p_shape s (nth 0 args 0)] d P (recorded_fixed t R)) as (A & B & C & D).
      split; [exact A|]. split; [exact B|]. split; [exact C|]. destruct (snd _) as [r|]; [|exact I]. destruct D as (D1 & D2 & D3 & D4).
      assert (A0 : In (nth 0 args 0) args) by (destruct args; [discriminate|left; reflexivity]).
      pose proof (D4 _ A0) as L0. set (x := record_op s k args [p_shape s (nth 0 args 0)] d) in *.
      assert (Q : exists args d, recorded t = Some (args, d) /\ applied (p_heap (fst x)) (p_attr (fst x)) args d r 1 /\ nth 0 args 0 < length (p_heap (fst x)) /\ r < length (p_heap (fst x)) /\
                    shape_in (p_attr (fst x)) r = shape_in (p_attr (fst x)) (nth 0 args 0)).
      { exists args, d. split; [exact R|]. split; [exact D1|]. cbn in D2. pose proof (e_len C). split; [lia|]. split; [lia|]. rewrite (e_shape C L0).
        specialize (D3 0 (Nat.lt_0_succ _)). cbn [nth_error] in D3. rewrite Nat.add_0_r in D3. injection D3 as <-. reflexivity. }
      destruct t; try exact Q. exfalso. eapply NP. reflexivity. }
    unfold arith. destruct t as [p|p|o p q|o p l|o l p|f p]; try (apply G; intros; discriminate).
    destruct (is_var s p); [|apply same_ok, P]. destruct (same_ok (CArith k (SPos _ p)) P) as (A & B & C & _). split; [exact A|]. split; [exact B|]. split; [exact C|reflexivity].
  Qed.
End S.
