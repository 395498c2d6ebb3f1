(** Invariants of scripts. *)
From Verif Require Import PyBase NamesModel PromotionsModel ExprModel UnflatModel UnflatSpec ExprProofs EffectSpec EffectProofs WorldModel
  IndexModel IndexSpec IndexProofs ArithModel ArithSpec ScriptModel ScriptSpec.
From Coq Require Import Lia.
Set Implicit Arguments.
Local Open Scope list_scope.
Local Open Scope nat_scope.

Lemma nth_upd' {A} (l : list A) i f j : nth_error (upd l i f) j = if Nat.eqb i j then option_map f (nth_error l j) else nth_error l j.
Proof. apply ExprProofs.nth_upd. Qed.
Lemma nth_app1 {A} (l r : list A) i x : nth_error l i = Some x -> nth_error (l ++ r) i = Some x.
Proof. intros H. rewrite nth_error_app1; [exact H|]. apply nth_error_Some. congruence. Qed.
Lemma nth_lt {A} (l : list A) i x : nth_error l i = Some x -> i < length l.
Proof. intros H. apply nth_error_Some. congruence. Qed.
Lemma memn_cons a b l : memn a (b :: l) = Nat.eqb a b || memn a l.
Proof. reflexivity. Qed.

Section S.
  Context (N : numbers).
  Notation pstate := (pstate N). Notation opdata := (opdata N).
  Notation attrs := (list (shape * option opdata)).
  Definition data_in (at_ : attrs) (o : nat) : option opdata := match nth_error at_ o with Some a => snd a | None => None end.
  Definition shape_in (at_ : attrs) (o : nat) : shape := match nth_error at_ o with Some a => fst a | None => [] end.

  (** [o] is an operation with the given arguments, results and data. *)
  Definition op_is (h : list obj) (at_ : attrs) (o : nat) (deps outs : list nat) (d : opdata) : Prop :=
    exists ob, nth_error h o = Some ob /\ ob_kind ob = KOp false /\ ob_deps ob = deps /\ ob_outs ob = outs /\ data_in at_ o = Some d.
  Definition copied (h : list obj) (at_ : attrs) (a a' : nat) : Prop :=
    a' = a \/ exists c, op_is h at_ c [a] [a'] (copy_data N) /\ computed_by h a' c.

  Lemma data_app (at_ more : attrs) o d : data_in at_ o = Some d -> data_in (at_ ++ more) o = Some d.
  Proof. unfold data_in. destruct (nth_error at_ o) eqn:E; [|discriminate]. rewrite (nth_app1 _ more _ E). auto. Qed.
  Lemma computed_app h r v op : computed_by h v op -> computed_by (h ++ r) v op.
  Proof. intros (ob & E & H). exists ob. split; [apply nth_app1, E|exact H]. Qed.
  Lemma op_is_app h at_ r more o deps outs d : op_is h at_ o deps outs d -> op_is (h ++ r) (at_ ++ more) o deps outs d.
  Proof. intros (ob & E & K & D & O & A). exists ob. repeat split; auto; [apply nth_app1, E|apply data_app, A]. Qed.
  Lemma copied_app h at_ r more a a' : copied h at_ a a' -> copied (h ++ r) (at_ ++ more) a a'.
  Proof. intros [->|(c & H & C)]; [left; reflexivity|]. right. exists c. split; [apply op_is_app, H|apply computed_app, C]. Qed.

  Definition copy_attrs (shp : nat -> shape) (l : list nat) : attrs := flat_map (fun a => [([], Some (copy_data N)); (shp a, None)]) l.
  Lemma Forall2_impl' {A B} (P Q : A -> B -> Prop) l l' : (forall a b, P a b -> Q a b) -> Forall2 P l l' -> Forall2 Q l l'.
  Proof. intros H F. induction F; constructor; auto. Qed.

  Lemma dedup_exact N0 shp args : forall seen act s (at_ : attrs), N0 <= length (b_heap s) -> (forall a, In a args -> a < N0) ->
    (forall a, a < N0 -> memn a act = memn a seen) -> length at_ = length (b_heap s) ->
    let s1 := fst (dedup_args s act args) in let l := snd (dedup_args s act args) in
    b_ins s1 = b_ins s /\ b_outs s1 = b_outs s /\ b_decls s1 = b_decls s /\
    exists more, b_heap s1 = b_heap s ++ more /\ length more = length (copy_attrs shp (repeated seen args)) /\
      (forall o, In o more -> ob_decomp o = None /\ ob_defined o = false) /\
      Forall2 (copied (b_heap s1) (at_ ++ copy_attrs shp (repeated seen args))) args l.
  Proof.
    induction args as [|a r IH]; intros seen act s at_ HN Ha Hs Hl; cbn [dedup_args fst snd repeated].
    - repeat (split; [reflexivity|]). exists []. rewrite app_nil_r. split; [reflexivity|]. split; [reflexivity|]. split; [intros ? []|constructor].
    - assert (HaN : a < N0) by (apply Ha; left; reflexivity). rewrite (Hs a HaN). destruct (memn a seen) eqn:M.
      + rewrite new_op_eq. cbn [length map seq].
        match goal with |- context [dedup_args ?s1 ?act1 r] => set (s1' := s1); set (act1' := act1) end.
        assert (L1 : length (b_heap s1') = S (S (length (b_heap s)))) by (subst s1'; cbn [b_heap]; rewrite app_length; cbn; lia).
        specialize (IH seen act1' s1' (at_ ++ copy_attrs shp [a])).
        destruct (dedup_args s1' act1' r) as [s2 l] eqn:Ed. cbn [fst snd] in *.
        destruct IH as (B1 & B2 & B3 & more & Hm & Lm & Dm & F).
        * lia.
        * intros b Hb. apply Ha. right. exact Hb.
        * intros b Hb. subst act1'. rewrite memn_cons. replace (Nat.eqb b _) with false by (symmetry; apply Nat.eqb_neq; lia). apply Hs, Hb.
        * rewrite app_length, L1, Hl. cbn [copy_attrs flat_map app length]. lia.
        * split; [exact B1|]. split; [exact B2|]. split; [exact B3|].
          exists ([op_obj (b_count s) [a] [S (length (b_heap s))]; Obj KOut (b_count s + 1) (hex_id (b_count s + 1)) [length (b_heap s)] [] None false] ++ more).
          split; [rewrite Hm; subst s1'; cbn [b_heap]; rewrite <- app_assoc; reflexivity|]. split.
          { rewrite app_length, Lm. unfold copy_attrs. cbn [flat_map]. rewrite app_length. reflexivity. }
          split. { intros o Ho. apply in_app_iff in Ho. destruct Ho as [[<-|[<-|[]]]|Ho]; [split; reflexivity|split; reflexivity|apply Dm, Ho]. }
          replace (at_ ++ copy_attrs shp (a :: repeated seen r)) with ((at_ ++ copy_attrs shp [a]) ++ copy_attrs shp (repeated seen r)) by (unfold copy_attrs; cbn [flat_map]; rewrite <- app_assoc; reflexivity).
          constructor; [|exact F]. rewrite Hm. apply copied_app. right. exists (length (b_heap s)). split.
          -- exists (op_obj (b_count s) [a] [S (length (b_heap s))]). subst s1'. cbn [b_heap].
             split; [rewrite nth_error_app2, Nat.sub_diag by lia; reflexivity|]. repeat split. unfold data_in.
             rewrite nth_error_app2 by lia. rewrite Hl, Nat.sub_diag. reflexivity.
          -- eexists. subst s1'. cbn [b_heap]. split; [rewrite nth_error_app2 by lia; replace (S (length (b_heap s)) - length (b_heap s)) with 1 by lia; reflexivity|]. cbn. auto.
      + specialize (IH (a :: seen) (a :: act) s at_ HN). destruct (dedup_args s (a :: act) r) as [s2 l] eqn:Ed. cbn [fst snd] in *.
        destruct IH as (B1 & B2 & B3 & more & Hm & Lm & Dm & F).
        * intros b Hb. apply Ha. right. exact Hb.
        * intros b Hb. rewrite !memn_cons, Hs by exact Hb. reflexivity.
        * exact Hl.
        * repeat (split; [assumption|]). exists more. repeat (split; [assumption|]). constructor; [left; reflexivity|exact F].
  Qed.

  (** ** Effect of plain calls on objects *)
  Definition okept (o o' : obj) : Prop :=
    ob_kind o' = ob_kind o /\ ob_decomp o' = ob_decomp o /\ ob_defined o' = ob_defined o /\
    (ob_kind o = KOp false -> ob_deps o' = ob_deps o /\ ob_outs o' = ob_outs o) /\
    (is_op o = false -> ob_deps o <> [] -> ob_deps o' = ob_deps o).
  Lemma okept_refl o : okept o o.
  Proof. repeat split. Qed.
  Definition plain_effect (h h' : list obj) : Prop :=
    length h <= length h' /\ (forall i o, nth_error h i = Some o -> exists o', nth_error h' i = Some o' /\ okept o o') /\
    (forall i o, length h <= i -> nth_error h' i = Some o -> ob_decomp o = None /\ ob_defined o = false).
  Lemma plain_refl h : plain_effect h h.
  Proof. split; [lia|]. split; [intros i o E; exists o; split; [exact E|apply okept_refl]|]. intros i o L E. apply nth_lt in E. lia. Qed.
  Lemma plain_app h more : (forall o, In o more -> ob_decomp o = None /\ ob_defined o = false) -> plain_effect h (h ++ more).
  Proof.
    intros H. split; [rewrite app_length; lia|]. split; [intros i o E; exists o; split; [apply nth_app1, E|apply okept_refl]|].
    intros i o L E. rewrite nth_error_app2 in E by exact L. apply nth_error_In in E. apply H, E.
  Qed.
  Lemma plain_upd h i f : (forall o, nth_error h i = Some o -> okept o (f o)) -> plain_effect h (upd h i f).
  Proof.
    intros H. split; [rewrite ExprProofs.upd_length; lia|]. split.
    - intros j o E. rewrite nth_upd', E. destruct (Nat.eqb_spec i j) as [->|]; cbn; eexists; (split; [reflexivity|]); [apply H, E|apply okept_refl].
    - intros j o L E. apply nth_lt in E. rewrite ExprProofs.upd_length in E. lia.
  Qed.
  Lemma okept_trans a b c : okept a b -> okept b c -> okept a c.
  Proof.
    intros (A1 & A2 & A3 & A4 & A5) (B1 & B2 & B3 & B4 & B5). repeat split; try congruence.
    - destruct (A4 H) as [? ?]. destruct B4 as [? ?]; congruence.
    - destruct (A4 H) as [? ?]. destruct B4 as [? ?]; congruence.
    - intros H1 H2. specialize (A5 H1 H2). rewrite B5; [exact A5| |congruence]. unfold is_op in *. rewrite A1. exact H1.
  Qed.
  Lemma okept_decomp a b : okept a b -> ob_decomp a = None /\ ob_defined a = false -> ob_decomp b = None /\ ob_defined b = false.
  Proof. intros (A1 & A2 & A3 & _) [? ?]. split; congruence. Qed.
  Lemma plain_trans a b c : plain_effect a b -> plain_effect b c -> plain_effect a c.
  Proof.
    intros (A1 & A2 & A3) (B1 & B2 & B3). split; [lia|]. split.
    - intros i o E. destruct (A2 _ _ E) as (o1 & E1 & K1). destruct (B2 _ _ E1) as (o2 & E2 & K2). exists o2. split; [exact E2|eapply okept_trans; eassumption].
    - intros i o L E. destruct (Nat.lt_ge_cases i (length b)) as [Hl|Hl]; [|apply (B3 _ _ Hl E)].
      destruct (nth_error b i) as [o1|] eqn:E1; [|apply nth_error_None in E1; lia]. destruct (B2 _ _ E1) as (o2 & E2 & K2).
      rewrite E in E2. injection E2 as <-. eapply okept_decomp; [exact K2|]. apply (A3 _ _ L E1).
  Qed.
  Lemma out_objs_plain op k names o : In o (out_objs op k names) -> ob_decomp o = None /\ ob_defined o = false.
  Proof. revert k. induction names as [|n r IH]; intros k; cbn; [intros []|]. intros [<-|H]; [split; reflexivity|eauto]. Qed.
  Lemma new_op_plain s args names : plain_effect (b_heap s) (b_heap (fst (new_op s args names))).
  Proof.
    rewrite new_op_eq. cbn [fst b_heap]. apply plain_app. intros o [<-|H]; [split; reflexivity|eapply out_objs_plain; exact H].
  Qed.
  Lemma register_plain s n v : plain_effect (b_heap s) (b_heap (register s n v)).
  Proof.
    destruct (register_cases s n v) as [->|(-> & _)]; [apply plain_refl|]. cbn. apply plain_upd. intros o _. repeat split.
  Qed.
  Definition plain_event (e : event) : bool := match e with EGetitem _ _ | ESetitem _ _ => false | _ => true end.
  Lemma bstep_plain s e : plain_event e = true -> plain_effect (b_heap s) (b_heap (bstep s e)).
  Proof.
    destruct e as [k|n|n|n|args no|args os| |op args os|x fresh|y x|v op|n v|on]; cbn [plain_event bstep]; intros P; try discriminate.
    - apply plain_refl.
    - destruct (is_ok _); [|apply plain_refl]. cbn. apply plain_app. intros o [<-|[]]. split; reflexivity.
    - cbn. apply plain_app. intros o [<-|[]]. split; reflexivity.
    - destruct (is_ok _); [|apply plain_refl]. destruct (alloc s KConcat (Some n) []) as [s1 v] eqn:A.
      assert (P1 : plain_effect (b_heap s) (b_heap s1)).
      { unfold alloc in A. injection A as <- <-. cbn. apply plain_app. intros o [<-|[]]. split; reflexivity. }
      destruct (memn v _); [|apply plain_refl]. eapply plain_trans; [exact P1|apply register_plain].
    - destruct (forallb _ args) eqn:V; [|apply plain_refl]. pose proof (@all_variables s args V) as V'.
      destruct (@dedup_exact (length (b_heap s)) (fun _ => []) args [] [] s (repeat ([], None) (length (b_heap s)))) as (_ & _ & _ & more & Hm & _ & Dm & _).
      + lia.
      + intros a Ha. destruct (V' a Ha) as (ob & E & _). eapply nth_lt, E.
      + reflexivity.
      + apply repeat_length.
      + destruct (dedup_args s [] args) as [s1 l]. cbn [fst snd] in *. eapply plain_trans; [|apply new_op_plain]. rewrite Hm. apply plain_app, Dm.
    - destruct (forallb _ args); [|apply plain_refl]. apply new_op_plain.
    - cbn. apply plain_app. intros o [<-|[]]. split; reflexivity.
    - destruct (kind_is _ s op && _) eqn:K; [|apply plain_refl]. apply andb_prop in K. destruct K as [K _].
      rewrite new_outputs_eq. cbn [b_heap with_objs b_count].
      assert (KO : forall o, nth_error (b_heap s) op = Some o -> ob_kind o = KOp true).
      { intros o E. unfold kind_is in K. rewrite E in K. destruct (ob_kind o) as [| | | |[]]; try discriminate. reflexivity. }
      eapply plain_trans; [apply (@plain_upd _ op (app_deps args))|].
      { intros o E. pose proof (KO o E) as KO'. repeat split; cbn; intros; try congruence. exfalso. unfold is_op in *. rewrite KO' in *. discriminate. }
      eapply plain_trans; [apply plain_app; intros o; apply out_objs_plain|]. apply plain_upd. intros o E.
      assert (KO' : ob_kind o = KOp true).
      { assert (L : op < length (b_heap s)) by (unfold kind_is in K; destruct (nth_error (b_heap s) op) eqn:Eo; [eapply nth_lt, Eo|discriminate]).
        rewrite nth_error_app1 in E by (rewrite ExprProofs.upd_length; exact L). rewrite nth_upd', Nat.eqb_refl in E.
        destruct (nth_error (b_heap s) op) as [o1|] eqn:Eo; [|discriminate]. injection E as <-. cbn. apply KO. reflexivity. }
      repeat split; cbn; intros; congruence.
    - destruct (nth_error (b_heap s) v) as [o|] eqn:E; [|apply plain_refl]. destruct (_ && _) eqn:C; [|apply plain_refl].
      apply andb_prop in C. destruct C as [C C2]. apply andb_prop in C. destruct C as [C _]. cbn. apply plain_upd. intros o' E'. rewrite E in E'. injection E' as <-.
      unfold is_variable, is_op in C. repeat split; cbn; intros; try congruence.
      + rewrite H in C. discriminate.
      + destruct (ob_deps o); [contradiction|discriminate].
    - apply register_plain.
    - destruct on as [n|]; [destruct (_ && _)|]; apply plain_refl.
  Qed.

  Lemma wstep_plain w e : plain_call e = true -> plain_effect (w_heap w) (w_heap (wstep w e)).
  Proof.
    destruct e as [|k ev|k on pr c|k a b|k n|k n|k n]; cbn [plain_call wstep]; intros P.
    - apply plain_refl.
    - destruct (nth_error (w_models w) k) as [m|]; [|destruct ev; apply plain_refl].
      destruct ev; try discriminate; try (apply plain_refl; fail); match goal with |- context [bstep (view w m) ?e] => exact (bstep_plain (view w m) e eq_refl) end.
    - destruct (nth_error (w_models w) k) as [m|]; [|apply plain_refl]. destruct (nth_error (w_models w) c) as [m2|]; [|apply plain_refl].
      destruct on as [n|]; [destruct (_ && _)|]; apply plain_refl.
    - destruct (nth_error (w_models w) k) as [m|]; [|apply plain_refl]. destruct (String.eqb a b); [apply plain_refl|]. destruct (existsb _ _); apply plain_refl.
    - destruct (nth_error (w_models w) k) as [m|]; [|apply plain_refl]. destruct (negb _); [apply plain_refl|]. destruct (smem _ _); apply plain_refl.
    - destruct (nth_error (w_models w) k) as [m|]; [|apply plain_refl]. destruct (smem _ _); apply plain_refl.
    - destruct (nth_error (w_models w) k) as [m|]; [|apply plain_refl]. destruct (wm_obj m); apply plain_refl.
  Qed.
  Lemma wstep_better w e : sinv (w_heap w) -> sinv (w_heap (wstep w e)) /\ hext (w_heap w) (w_heap (wstep w e)).
  Proof.
    intros S. assert (R : sinv (w_heap w) /\ hext (w_heap w) (w_heap w)) by (split; [exact S|apply hext_refl]).
    destruct e as [|k ev|k on pr c|k a b|k n|k n|k n]; cbn [wstep].
    - exact R.
    - destruct (nth_error (w_models w) k) as [m|]; [|destruct ev; exact R].
      destruct ev; try exact R; match goal with |- context [bstep (view w m) ?e] => destruct (@bstep_better (view w m) e S) as [B1 B2 B3]; split; assumption end.
    - destruct (nth_error (w_models w) k) as [m|]; [|exact R]. destruct (nth_error (w_models w) c) as [m2|]; [|exact R].
      destruct on as [n|]; [destruct (_ && _)|]; exact R.
    - destruct (nth_error (w_models w) k) as [m|]; [|exact R]. destruct (String.eqb a b); [exact R|]. destruct (existsb _ _); exact R.
    - destruct (nth_error (w_models w) k) as [m|]; [|exact R]. destruct (negb _); [exact R|]. destruct (smem _ _); exact R.
    - destruct (nth_error (w_models w) k) as [m|]; [|exact R]. destruct (smem _ _); exact R.
    - destruct (nth_error (w_models w) k) as [m|]; [|exact R]. destruct (wm_obj m); exact R.
  Qed.
End S.
