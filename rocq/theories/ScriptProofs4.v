(** Lines that read and assign elements, and whole scripts. *)
From Verif Require Import PyBase NamesModel PromotionsModel ExprModel UnflatModel UnflatSpec ExprProofs EffectSpec EffectProofs WorldModel
  IndexModel IndexSpec IndexProofs ArithModel ArithSpec ScriptModel ScriptSpec ScriptProofs ScriptProofs2 ScriptProofs3.
From Coq Require Import Lia.
Set Implicit Arguments.
Local Open Scope list_scope.
Local Open Scope nat_scope.

Section S.
  Context (N : numbers).
  Notation pstate := (pstate N). Notation opdata := (opdata N). Notation scall := (scall N).
  Notation attrs := (list (shape * option opdata)).

  Lemma upd_data (a : attrs) d x : data_in a d = Some x -> upd a d (fun b => (fst b, Some x)) = a.
  Proof.
    unfold data_in. destruct (nth_error a d) as [[sh dd]|] eqn:E; [|discriminate]. cbn. intros ->. eapply upd_same; [exact E|reflexivity].
  Qed.
  Lemma set_fun_same {A} (f : nat -> A) i : forall j, set_fun f i (f i) j = f j.
  Proof. intros j. unfold set_fun. destruct (Nat.eqb_spec j i) as [->|]; reflexivity. Qed.

  (** The decompose operation exists after the first read. *)
  Lemma ensure_read (s : pstate) x ox : pinv s -> nth_error (p_heap s) x = Some ox -> is_op ox = false ->
    let h := p_heap s in let cnt := w_count (p_world s) in
    let d := match ob_decomp ox with Some d => d | None => length h end in
    let h1 := match ob_decomp ox with Some _ => h | None => upd (h ++ [Obj (KOp false) cnt (hex_id cnt) [x] [] None false]) x (set_decomp (length h)) end in
    let a1 := p_attr s ++ match ob_decomp ox with Some _ => [] | None => [([], Some (DReads []))] end in
    hinv h1 a1 (p_dec s) (p_cat s) /\ hxt h (p_attr s) h1 a1 /\ exists ox1, nth_error h1 x = Some ox1 /\ is_op ox1 = false /\ ob_decomp ox1 = Some d.
  Proof.
    intros P E V. cbv zeta. pose proof P as [L S H]. destruct (ob_decomp ox) as [d|] eqn:D.
    - rewrite app_nil_r. split; [exact H|]. split; [apply hxt_refl|]. eauto.
    - destruct (@first_read N _ _ _ _ x ox (w_count (p_world s)) (hex_id (w_count (p_world s))) H E V D) as [A B]. split; [exact A|]. split; [exact B|].
      exists (set_decomp (length (p_heap s)) ox). split; [rewrite nth_upd', (nth_app1 _ _ _ E), Nat.eqb_refl; reflexivity|]. split; [exact V|reflexivity].
  Qed.
  Lemma read_heap (w : world) k m x ox fresh : nth_error (w_models w) k = Some m -> nth_error (w_heap w) x = Some ox -> is_variable ox = true ->
    let d := match ob_decomp ox with Some d => d | None => length (w_heap w) end in
    let h1 := match ob_decomp ox with Some _ => w_heap w | None => upd (w_heap w ++ [Obj (KOp false) (w_count w) (hex_id (w_count w)) [x] [] None false]) x (set_decomp (length (w_heap w))) end in
    exists n nm, w_heap (wstep w (WOn k (EGetitem x fresh))) = if fresh then upd (h1 ++ [Obj KOut n nm [d] [] None false]) d (add_outs (length h1)) else h1.
  Proof.
    intros M E V. cbv zeta. cbn [wstep]. rewrite M. unfold put. cbn [w_heap bstep view b_heap]. rewrite E, V.
    destruct (ob_decomp ox) as [d|]; unfold alloc; destruct fresh; cbn [fst snd b_heap b_count bump with_objs view].
    - eexists; eexists; reflexivity.
    - exists 0%N, EmptyString. reflexivity.
    - eexists; eexists; reflexivity.
    - exists 0%N, EmptyString. reflexivity.
  Qed.

  Lemma read_keeps (s : pstate) d0 k x key ox d od o r : pinv s -> nth_error (p_heap s) x = Some ox -> ob_decomp ox = Some d ->
    dinv (p_shape s x) d0 -> p_dec s x = fst (getitem (p_shape s x) d0 key) -> snd (getitem (p_shape s x) d0 key) = Ok o ->
    nth_error (p_heap s) d = Some od -> nth_error (ob_outs od) o = Some r ->
    keeps (p_heap s) (p_attr s) (CRead k x key) r.
  Proof.
    intros [L S H] E D DI PD R Ed Er NO. destruct (@getitem_sound _ _ _ _ DI NO R) as (ls & sh & ix & G1 & G2 & G3 & G4 & _). rewrite <- PD in G2.
    pose proof (v_dec H x E) as DO. unfold dec_ok in DO. rewrite D in DO. destruct DO as (od' & Ed' & K & DD & B & SH & DA). rewrite Ed in Ed'. injection Ed' as <-.
    exists d, od, o, (map snd (d_outs (p_dec s x))), ls, ix. split; [exact Ed|]. split; [exact K|]. split; [exact DD|]. split; [exact Er|].
    assert (KO : is_op od = true) by (unfold is_op; rewrite K; reflexivity).
    split. { destruct (ok_op (S _ _ Ed) KO) as [_ W]. apply W. eapply nth_error_In, Er. }
    split; [exact DA|]. split; [rewrite nth_error_map, G2; reflexivity|]. split; [eapply nth_lt, E|].
    split. { rewrite Forall_forall in B. apply B. eapply nth_error_In, Er. }
    split; [exact G1|]. split; [exact G4|]. rewrite <- G3.
    assert (Q : nth_error (map (shape_in (p_attr s)) (ob_outs od)) o = nth_error (map fst (d_outs (p_dec s x))) o) by (rewrite SH; reflexivity).
    rewrite !nth_error_map, Er, G2 in Q. cbn in Q. injection Q as ->. reflexivity.
  Qed.

  Lemma read_ok (s : pstate) k x key : pinv s -> step_ok s (CRead k x key) (pstep s (CRead k x key)).
  Proof.
    intros P. cbn [pstep]. unfold read. destruct (nth_error (p_heap s) x) as [ox|] eqn:E; [|apply same_ok, P].
    destruct (is_model s k && is_variable ox) eqn:G; [|apply same_ok, P]. apply andb_prop in G. destruct G as [G1 G2].
    destruct (is_model_get _ _ G1) as (m & M). assert (V : is_op ox = false) by (unfold is_variable in G2; destruct (is_op ox); [discriminate|reflexivity]).
    pose proof (@ensure_read s x ox P E V) as ER. cbv zeta in ER. destruct ER as (H1 & X1 & ox1 & E1 & V1 & D1).
    pose proof P as [L S H]. pose proof (nth_lt _ _ E) as Lx. pose proof (v_dinv H Lx) as DI. change (shape_in (p_attr s) x) with (p_shape s x) in DI.
    pose proof (dinv_step _ _ key DI) as DI'. pose proof (getitem_cases (p_shape s x) (p_dec s x) key) as GC. cbv zeta in GC.
    pose proof (@read_heap (p_world s) k m x ox) as RH. cbv zeta in RH. change (w_heap (p_world s)) with (p_heap s) in RH.
    set (h1 := match ob_decomp ox with Some _ => p_heap s | None => _ end) in *.
    set (a1 := p_attr s ++ _) in *. set (d := match ob_decomp ox with Some d => d | None => length (p_heap s) end) in *.
    destruct (getitem (p_shape s x) (p_dec s x) key) as [d' r] eqn:EG. cbn [fst snd] in *.
    set (fresh := match r with Ok o => Nat.eqb o (length (d_outs (p_dec s x))) | Err _ => false end).
    set (e := WOn k (EGetitem x fresh)). destruct (wstep_better (p_world s) e S) as [B1 B2].
    (* the state after the call *)
    assert (G : forall A, hinv (w_heap (wstep (p_world s) e)) A (set_fun (p_dec s) x d') (p_cat s) ->
              hxt (p_heap s) (p_attr s) (w_heap (wstep (p_world s) e)) A ->
              (exists oxf, nth_error (w_heap (wstep (p_world s) e)) x = Some oxf /\ ob_decomp oxf = Some d) ->
              let s2 := PS (p_log (emit s e A)) (p_world (emit s e A)) (p_attr (emit s e A)) (set_fun (p_dec (emit s e A)) x d') (p_cat (emit s e A)) in
              step_ok s (CRead k x key) (s2, match r with Ok o => match nth_error (p_heap s2) d with Some od => nth_error (ob_outs od) o | None => None end | Err _ => None end)).
    { intros A HA XA (oxf & Ef & Df) s2. assert (P2 : pinv s2) by (split; [apply emit_log, P|exact B1|exact HA]).
      split; [exact P2|]. split; [exact B2|]. split; [exact XA|]. cbn [fst snd]. destruct r as [o|er]; [|exact I].
      destruct (nth_error (p_heap s2) d) as [od|] eqn:Ed; [|exact I]. destruct (nth_error (ob_outs od) o) as [rr|] eqn:Er; [|exact I].
      assert (SX : p_shape s2 x = p_shape s x) by (apply (e_shape XA Lx)).
      eapply (@read_keeps s2 (p_dec s x) k x key oxf d od o rr P2); try eassumption.
      - rewrite SX. exact DI.
      - rewrite SX, EG. cbn. unfold set_fun. rewrite Nat.eqb_refl. reflexivity.
      - rewrite SX, EG. reflexivity. }
    (* no new result *)
    assert (NF : d' = p_dec s x -> fresh = false -> step_ok s (CRead k x key)
       (let s1 := emit s e (upd (a1 ++ []) d (fun a => (fst a, Some (DReads (map snd (d_outs d')))))) in
        let s2 := PS (p_log s1) (p_world s1) (p_attr s1) (set_fun (p_dec s1) x d') (p_cat s1) in
        (s2, match r with Ok o => match nth_error (p_heap s2) d with Some od => nth_error (ob_outs od) o | None => None end | Err _ => None end))).
    { intros Ed' Ef. cbv zeta. destruct (RH fresh M E G2) as (n & nm & HH). fold e in HH. change (w_heap (p_world s)) with (p_heap s) in HH. fold h1 in HH. rewrite Ef in HH.
      pose proof (v_dec H1 x E1) as DO. unfold dec_ok in DO. rewrite D1 in DO. destruct DO as (od & Eo & K & DD & BB & SH & DA).
      assert (UU : upd (a1 ++ []) d (fun a => (fst a, Some (DReads (map snd (d_outs d'))))) = a1) by (rewrite app_nil_r, Ed'; apply upd_data, DA).
      rewrite UU. apply G.
      - rewrite HH. eapply hinv_ext; [exact H1|]. rewrite Ed'. apply set_fun_same.
      - rewrite HH. exact X1.
      - rewrite HH. eauto. }
    destruct GC as [(Ed' & er & ->)|(nk & NK & [(o & KG & Eq)|(ix & KG & SI & Eq)])].
    - unfold fresh in *. apply NF; [exact Ed'|reflexivity].
    - injection Eq as -> ->. assert (Ef : fresh = false).
      { unfold fresh. apply Nat.eqb_neq. destruct DI as (_ & _ & _ & DI4). destruct (DI4 _ _ (kget_In _ _ _ KG)) as (ix & _ & En). apply nth_lt in En. lia. }
      specialize (NF eq_refl Ef). rewrite Ef. exact NF.
    - injection Eq as -> ->. assert (Ef : fresh = true) by (unfold fresh; apply Nat.eqb_refl).
      destruct (RH fresh M E G2) as (n & nm & HH). fold e in HH. change (w_heap (p_world s)) with (p_heap s) in HH. fold h1 in HH. rewrite Ef in HH.
      match type of DI' with dinv _ ?X => set (d1 := X) in * end.
      destruct (@fresh_read N h1 a1 (p_dec s) (p_cat s) x ox1 d d1 n nm (val_shape (p_shape s x) nk) ix H1 E1 V1 D1) as [F1 F2].
      { reflexivity. }
      { assert (SX : shape_in a1 x = p_shape s x) by (apply (e_shape X1 Lx)). rewrite SX. exact DI'. }
      specialize (G (upd (a1 ++ [(val_shape (p_shape s x) nk, None)]) d (fun a => (fst a, Some (DReads (map snd (d_outs d1))))))).
      assert (G' : step_ok s (CRead k x key)
         (let s1 := emit s e (upd (a1 ++ [(val_shape (p_shape s x) nk, None)]) d (fun a => (fst a, Some (DReads (map snd (d_outs d1)))))) in
          let s2 := PS (p_log s1) (p_world s1) (p_attr s1) (set_fun (p_dec s1) x d1) (p_cat s1) in
          (s2, match nth_error (p_heap s2) d with Some od => nth_error (ob_outs od) (length (d_outs (p_dec s x))) | None => None end))).
      { apply G.
        - rewrite HH. exact F1.
        - rewrite HH. eapply hxt_trans; [exact X1|exact F2].
        - rewrite HH. exists ox1. split; [|exact D1].
          rewrite nth_upd', (nth_app1 _ _ _ E1). destruct (Nat.eqb_spec d x) as [->|]; [|reflexivity]. exfalso.
          pose proof (v_dec H1 x E1) as DO. unfold dec_ok in DO. rewrite D1 in DO. destruct DO as (od & Eo & K & _). rewrite E1 in Eo. injection Eo as <-. unfold is_op in V1. rewrite K in V1. discriminate. }
      rewrite Ef.
      assert (FS : fst (nth (length (d_outs (p_dec s x))) (d_outs d1) ([], [])) = val_shape (p_shape s x) nk).
      { unfold d1. cbn [d_outs]. rewrite app_nth2, Nat.sub_diag by lia. reflexivity. }
      rewrite FS. exact G'.
  Qed.

  (** ** Assignments *)
  Lemma assign_heap (w : world) k m y oy x ox : nth_error (w_models w) k = Some m -> nth_error (w_heap w) y = Some oy -> ob_kind oy = KConcat ->
    nth_error (w_heap w) x = Some ox -> is_variable ox = true ->
    let h := w_heap w in
    exists n nm, w_heap (wstep w (WOn k (ESetitem y x))) =
      if ob_defined oy then match ob_deps oy with op :: _ => upd h op (app_deps [x]) | [] => h end
      else upd (upd (h ++ [Obj (KOp false) n nm [x] [] None false]) (length h) (set_outs [y])) y (set_defined (length h)).
  Proof.
    intros M E K Ex V. cbv zeta. cbn [wstep]. rewrite M. unfold put. cbn [w_heap bstep view b_heap]. rewrite E, K. unfold kind_is. cbn [b_heap view]. rewrite Ex, V.
    destruct (ob_defined oy); [destruct (ob_deps oy)|]; unfold alloc; cbn [b_heap b_count bump with_objs view].
    - exists 0%N, EmptyString. reflexivity.
    - exists 0%N, EmptyString. reflexivity.
    - eexists; eexists; reflexivity.
  Qed.
  Definition front (c : scall) : Prop := match c with CAssign _ _ (KeyInt z) _ => (0 <= z)%Z | _ => True end.

  Lemma rejected_ok (s : pstate) c cat' : pinv s -> (forall i, length (p_heap s) <= i -> cat' i = concat0) -> (forall i, incl (c_checked (p_cat s i)) (c_checked (cat' i))) ->
    step_ok s c (PS (p_log s) (p_world s) (p_attr s) (p_dec s) cat', None).
  Proof.
    intros [L S H] A B. split; [split; [exact L|exact S|eapply hinv_cat; eassumption]|]. split; [apply hext_refl|]. split; [apply hxt_refl|exact I].
  Qed.

  Lemma assign_ok (s : pstate) k y key x : pinv s -> front (CAssign k y key x) -> step_ok s (CAssign k y key x) (pstep s (CAssign k y key x)).
  Proof.
    intros P FR. cbn [pstep]. unfold assign. destruct (nth_error (p_heap s) y) as [oy|] eqn:E; [|apply same_ok, P].
    destruct (nth_error (p_heap s) x) as [ox|] eqn:Ex; [|apply same_ok, P].
    destruct (is_model s k && _ && is_variable ox) eqn:G; [|apply same_ok, P]. apply andb_prop in G. destruct G as [G V]. apply andb_prop in G. destruct G as [G1 G2].
    destruct (is_model_get _ _ G1) as (m & M). assert (K : ob_kind oy = KConcat) by (destruct (ob_kind oy); try discriminate; reflexivity).
    pose proof P as [L S H]. pose proof (nth_lt _ _ E) as Ly. pose proof (nth_lt _ _ Ex) as Lx.
    destruct (setitem_cases (p_shape s y) (p_cat s y) key (ob_name ox) (p_shape s x)) as [[er ES]|(ix & T & BD & NI & [(OV & ES)|(DJ & ES)])]; rewrite ES.
    - apply rejected_ok; [exact P| |].
      + intros i Hi. unfold set_fun. destruct (Nat.eqb_spec i y); [lia|]. apply (v_fresh H Hi).
      + intros i. rewrite set_fun_same. apply incl_refl.
    - apply rejected_ok; [exact P| |].
      + intros i Hi. unfold set_fun. destruct (Nat.eqb_spec i y); [lia|]. apply (v_fresh H Hi).
      + intros i. unfold set_fun. destruct (Nat.eqb_spec i y) as [->|]; [|apply incl_refl]. cbn. apply incl_appl, incl_refl.
    - rewrite T. match goal with |- context [set_fun (p_cat s) y ?C] => set (c1 := C) end.
      destruct (tgt_indices_props _ _ _ _ T) as (_ & ND & _ & NN).
      assert (FB : Forall (fun z => (0 <= z < size_of (shape_in (p_attr s) y))%Z) ix).
      { rewrite Forall_forall in *. intros z Hz. split; [|apply BD, Hz]. destruct NN as [(z0 & -> & ->)|NN]; [destruct Hz as [<-|[]]; exact FR|]. apply NN, Hz. }
      assert (HC : forall i, i <> y -> set_fun (p_cat s) y c1 i = p_cat s i) by (intros i Hi; unfold set_fun; destruct (Nat.eqb_spec i y); [contradiction|reflexivity]).
      assert (HY : c_checked (set_fun (p_cat s) y c1 y) = c_checked (p_cat s y) ++ ix) by (unfold set_fun; rewrite Nat.eqb_refl; reflexivity).
      set (e := WOn k (ESetitem y x)). destruct (wstep_better (p_world s) e S) as [B1 B2].
      destruct (@assign_heap _ _ _ _ _ _ _ M E K Ex V) as (n & nm & HH). fold e in HH. change (w_heap (p_world s)) with (p_heap s) in HH.
      destruct (ob_defined oy) eqn:D.
      + destruct (v_cat H y E K D) as (op & oo & tgt & Q1 & Q2 & Q3 & Q4 & Q5 & Q6 & Q7). rewrite Q1 in *.
        destruct (@next_assign N _ _ _ _ (set_fun (p_cat s) y c1) x y oy op [] ix H E K D Q1 HC HY DJ ND FB) as [F1 F2].
        rewrite <- HH in F1, F2. split; [split; [exact (@emit_log N s e P)|exact B1|exact F1]|]. split; [exact B2|]. split; [exact F2|]. cbn [fst snd keeps]. split; [reflexivity|].
        set (s' := emit _ e _). change (p_heap s') with (w_heap (wstep (p_world s) e)). change (p_attr s') with (upd (p_attr s) op (add_target ix)).
        assert (SX : forall i, i < length (p_heap s) -> shape_in (upd (p_attr s) op (add_target ix)) i = shape_in (p_attr s) i) by (intros i Hi; apply (e_shape F2 Hi)).
        rewrite !SX by assumption. exists op, (app_deps [x] oo), (length (ob_deps oo)), (tgt ++ [ix]), ix.
        split; [rewrite HH, nth_upd', Q2, Nat.eqb_refl; reflexivity|]. split; [exact Q3|]. split; [cbn; rewrite nth_error_app2, Nat.sub_diag by lia; reflexivity|]. split; [exact Q4|].
        split. { apply (he_cmp B2). exists oy. auto. }
        split. { destruct (e_kind F2 _ E) as (oy' & Ey' & Ky'). exists oy'. split; [exact Ey'|congruence]. }
        split. { unfold data_in in *. rewrite nth_upd', Nat.eqb_refl. destruct (nth_error (p_attr s) op) as [[sh dd]|]; [|discriminate]. cbn in Q5 |- *. rewrite Q5. reflexivity. }
        split; [rewrite <- Q6, nth_error_app2, Nat.sub_diag by lia; reflexivity|]. pose proof (e_len F2). split; [lia|]. split; [lia|]. split; [exact T|exact BD].
      + destruct (@first_assign N _ _ _ _ (set_fun (p_cat s) y c1) x y oy n nm ix H E K D HC) as [F1 F2]; [rewrite HY; apply incl_appr, incl_refl|exact ND|exact FB|].
        rewrite <- HH in F1, F2. split; [split; [exact (@emit_log N s e P)|exact B1|exact F1]|]. split; [exact B2|]. split; [exact F2|]. cbn [fst snd keeps]. split; [reflexivity|].
        set (s' := emit _ e _). change (p_heap s') with (w_heap (wstep (p_world s) e)). change (p_attr s') with (p_attr s ++ [([], Some (DWrites (size_of (shape_in (p_attr s) y)) [ix]))]).
        match goal with |- context [shape_in ?A y] => assert (SX : forall i, i < length (p_heap s) -> shape_in A i = shape_in (p_attr s) i) by (intros i Hi; apply (e_shape F2 Hi)) end.
        rewrite !SX by assumption. exists (length (p_heap s)), (Obj (KOp false) n nm [x] [y] None false), 0, [ix], ix.
        split. { rewrite HH, !nth_upd', Nat.eqb_refl, nth_snoc. destruct (Nat.eqb_spec y (length (p_heap s))); [lia|reflexivity]. }
        split; [reflexivity|]. split; [reflexivity|]. split; [reflexivity|].
        split. { exists (set_defined (length (p_heap s)) oy). rewrite HH, !nth_upd', (nth_app1 _ _ _ E), Nat.eqb_refl.
          destruct (Nat.eqb_spec (length (p_heap s)) y); [lia|]. split; [reflexivity|]. split; [reflexivity|]. right. split; [exact K|reflexivity]. }
        split. { destruct (e_kind F2 _ E) as (oy' & Ey' & Ky'). exists oy'. split; [exact Ey'|congruence]. }
        split. { unfold data_in. rewrite <- (v_len H), nth_snoc. reflexivity. }
        split; [reflexivity|]. pose proof (e_len F2). split; [lia|]. split; [lia|]. split; [exact T|exact BD].
  Qed.

  (** ** Scripts *)
  Lemma step_keeps (s : pstate) c : pinv s -> front c -> step_ok s c (pstep s c).
  Proof.
    intros P F. destruct c as [e sh|k t|k args outs f|k x key|k y key x].
    - apply call_ok, P.
    - apply arith_ok, P.
    - apply other_ok, P.
    - apply read_ok, P.
    - apply assign_ok; assumption.
  Qed.
  Definition steps (s : pstate) (l : list scall) : pstate := fold_left (fun s c => fst (pstep s c)) l s.
  Lemma steps_ok l : forall s, pinv s -> Forall front l -> pinv (steps s l) /\ hext (p_heap s) (p_heap (steps s l)) /\ hxt (p_heap s) (p_attr s) (p_heap (steps s l)) (p_attr (steps s l)).
  Proof.
    induction l as [|c l IH]; intros s P F; [split; [exact P|split; [apply hext_refl|apply hxt_refl]]|]. inversion F as [|? ? F1 F2]; subst.
    destruct (@step_keeps _ _ P F1) as (A & B & C & _). destruct (IH _ A F2) as (A' & B' & C'). cbn [steps fold_left]. split; [exact A'|].
    split; [eapply hext_trans; eassumption|eapply hxt_trans; eassumption].
  Qed.
  Lemma front_all l : counts_from_front N l -> Forall front l.
  Proof.
    intros H. rewrite Forall_forall. intros c Hc. destruct c as [| | | |k y [z|sl|t|] x]; cbn; auto. eapply H, Hc.
  Qed.

  (** After a script, each line that returned something is kept. *)
  Theorem script_keeps l : counts_from_front N l ->
    pinv (prun l) /\ forall before c after r, l = before ++ c :: after -> returned before c = Some r -> keeps (p_heap (prun l)) (p_attr (prun l)) c r.
  Proof.
    intros CF. apply front_all in CF. destruct (@steps_ok l (pstate0 N) (pinv0 N) CF) as (A & _). split; [exact A|].
    intros before c after r -> R. apply Forall_app in CF. destruct CF as [C1 C2]. inversion C2 as [|? ? C3 C4]; subst.
    destruct (@steps_ok before _ (pinv0 N) C1) as (P1 & _). destruct (@step_keeps _ _ P1 C3) as (P2 & _ & _ & KP).
    unfold returned in R. change (prun before) with (steps (pstate0 N) before) in R. rewrite R in KP.
    destruct (steps_ok P2 C4) as (_ & X1 & X2).
    replace (prun (before ++ c :: after)) with (steps (fst (pstep (steps (pstate0 N) before) c)) after) by (unfold prun, steps; rewrite fold_left_app; reflexivity).
    eapply keeps_later; eassumption.
  Qed.
End S.
