(** Each call keeps the invariant: all calls. *)
From Verif Require Import PyBase NamesModel NamesProofs PromotionsModel ExprModel ExprSpec UnflatModel UnflatSpec UnflatProofs ExprProofs EffectProofs WorldModel WorldSpec WorldProofs WorldProofs2.
From Coq Require Import Lia.
Set Implicit Arguments.
Local Open Scope list_scope.

Section Call.
  Variables (used : N) (I O D : nat -> list nat) (k : nat).
  Local Notation inv := (inv used).
  Local Notation oinv := (oinv used).
  Local Notation out_ok := (out_ok used).
  Local Notation wext := (wext used).
  Local Notation chosen_name := (chosen_name used).
  Notation T ap own s := (mk I O D ap own k s).

  Definition next_ap (ap : list nat) (e : event) : list nat := match e with ECustom op _ _ => op :: ap | _ => ap end.

  Lemma inv_same ap ap' own s : inv (T ap own s) -> (forall x, In x ap -> In x ap') -> inv (T ap' own s).
  Proof.
    intros IV H. destruct IV as [S L OB N F A B C]. split; auto. intros i ob k' E Ow. destruct (OB i ob k' E Ow) as [A1 A2 A3 A4 A5 A6 A7 A8 A9 A10 A11]. split; auto.
  Qed.
  Lemma no_growth ap ap' own (s : bst) : inv (T ap own s) -> (forall x, In x ap -> In x ap') -> inv (T ap' (own ++ repeat k (length (b_heap s) - length (b_heap s))) s).
  Proof. intros IV H. rewrite Nat.sub_diag. cbn. rewrite app_nil_r. eapply inv_same; eassumption. Qed.

  Lemma mine_args own s args : forallb (kind_is is_variable s) args = true -> (forall o, In o args -> nth_error own o = Some k) -> forall a, In a args -> mine k own s a.
  Proof. intros V M a Ha. split; [apply M, Ha|]. eapply all_variables; eassumption. Qed.

  Lemma inv_register ap own s n v : inv (T ap own s) -> chosen_name n -> nth_error own v = Some k -> inv (T ap own (register s n v)).
  Proof.
    intros IV C Ow. pose proof (@register_better s n v (i_sinv IV)) as B.
    destruct (register_cases s n v) as [E|(E & (ov & Ev & Ov) & Hv & Hn & Hb)]; [rewrite E; exact IV|]. rewrite E in B |- *.
    apply banned_no_dot in Hb.
    eapply inv_update with (i := v) (f := set_name n); [exact IV|apply B|reflexivity|exact Ow|cbn; lia| |reflexivity|reflexivity| |].
    - intros ob Eo. rewrite Ev in Eo. injection Eo as <-. cbn. auto 8.
    - exists [v]. split; [reflexivity|]. intros w [<-|[]]. exists (set_name n ov). cbn. split; [rewrite nth_upd, Nat.eqb_refl, Ev; reflexivity|]. auto.
    - intros X ob Eo OV. rewrite Ev in Eo. injection Eo as <-. pose proof (oinv_ext X OV) as [A1 A2 A3 A4 A5 A6 A7 A8 A9 A10 A11].
      assert (Kd : ob_kind ov = KOut \/ ob_kind ov = KConcat) by (unfold is_output in Ov; destruct (ob_kind ov); try discriminate; auto).
      split; cbn [set_name ob_kind ob_num ob_name ob_deps ob_outs ob_decomp ob_defined]; auto.
      + unfold is_op. cbn. destruct Kd as [Kd|Kd]; rewrite Kd; discriminate.
      + destruct Kd as [Kd|Kd]; rewrite Kd; discriminate.
      + destruct Kd as [Kd|Kd]; rewrite Kd; discriminate.
      + intros Kc. destruct (A5 Kc) as (B1 & B2 & B3). auto.
  Qed.

  (** A single new object without dependencies. *)
  Lemma inv_leaf ap own s kd n s' : inv (T ap own s) -> sinv (b_heap s') ->
    (kd = KIn \/ kd = KDecl \/ kd = KConcat) -> chosen_name n -> has_dot n = false ->
    b_heap s' = b_heap s ++ [Obj kd (b_count s) n [] [] None false] -> b_count s' = (b_count s + 1)%N ->
    b_ins s' = b_ins s ++ (match kd with KIn => [length (b_heap s)] | _ => [] end) ->
    b_decls s' = b_decls s ++ (match kd with KDecl => [length (b_heap s)] | _ => [] end) ->
    b_outs s' = b_outs s ++ (match kd with KConcat => [length (b_heap s)] | _ => [] end) ->
    inv (T ap (own ++ repeat k (length (b_heap s') - length (b_heap s))) s').
  Proof.
    intros IV S K C ND EH EC E1 E2 E3. pose proof (i_own IV) as LO. cbn in LO.
    replace (length (b_heap s') - length (b_heap s)) with (length [Obj kd (b_count s) n [] [] None false]) by (rewrite EH, app_length; cbn; lia).
    assert (NV : nth_error (b_heap s') (length (b_heap s)) = Some (Obj kd (b_count s) n [] [] None false)) by (rewrite EH; apply nth_app_new).
    assert (OV : nth_error (own ++ repeat k (length [Obj kd (b_count s) n [] [] None false])) (length (b_heap s)) = Some k) by (apply owned_new; cbn; lia).
    apply inv_append with (s := s); auto.
    - rewrite EC. lia.
    - cbn. repeat constructor. intros [].
    - intros o [<-|[]]. rewrite EC. cbn. lia.
    - eexists. split; [exact E1|]. intros v Hv. destruct kd; try destruct Hv as [<-|[]]; try destruct Hv. eexists. cbn. split; [exact NV|]. split; [exact OV|]. auto.
    - eexists. split; [exact E3|]. intros v Hv. destruct kd; try destruct Hv as [<-|[]]; try destruct Hv. eexists. cbn. split; [exact NV|]. split; [exact OV|]. auto.
    - eexists. split; [exact E2|]. intros v Hv. destruct kd; try destruct Hv as [<-|[]]; try destruct Hv. eexists. cbn. split; [exact NV|]. split; [exact OV|]. auto.
    - intros [|[|j]] ob E; try discriminate. injection E as <-. rewrite Nat.add_0_r. split; cbn; auto; try discriminate.
      + unfold is_op. cbn. destruct K as [->|[->| ->]]; discriminate.
      + intros ->. rewrite In_ovr, E1, in_app_iff. cbn. auto 8.
      + intros ->. rewrite In_ovr, E2, in_app_iff. cbn. auto 8.
      + intros ->. rewrite In_ovr, E3, in_app_iff. cbn. auto 8.
      + tauto.
      + tauto.
      + tauto.
      + constructor.
  Qed.

  (** An operation with arguments [args] and no results yet. *)
  Lemma inv_alloc_op ap own s args c s' d : inv (T ap own s) -> (forall a, In a args -> mine k own s a) -> alloc s (KOp c) None args = (s', d) ->
    inv (T ap (own ++ [k]) s') /\ d = length (b_heap s) /\ b_heap s' = b_heap s ++ [Obj (KOp c) (b_count s) (hex_id (b_count s)) args [] None false].
  Proof.
    intros IV HA A. destruct (@alloc_better s (KOp c) None args s' d (i_sinv IV) A) as (B & Ed & (T1 & T2 & T3 & T4) & Nd & EH & EC); [intros x Hx; apply HA, Hx|].
    split; [|auto]. change [k] with (repeat k (length [Obj (KOp c) (b_count s) (hex_id (b_count s)) args [] None false])).
    apply inv_append with (s := s); auto.
    - apply B.
    - rewrite EC. lia.
    - cbn. repeat constructor. intros [].
    - intros o [<-|[]]. rewrite EC. cbn. lia.
    - rewrite T1. apply same_list.
    - rewrite T2. apply same_list.
    - rewrite T3. apply same_list.
    - intros [|[|j]] ob E; try discriminate. injection E as <-. rewrite Nat.add_0_r. split; cbn; auto; try discriminate.
      + intros x Hx. apply owned_old, HA, Hx.
      + tauto.
      + constructor.
  Qed.

  Theorem inv_bstep ap own s e : inv (T ap own s) -> clean_event used e -> (forall n, e = EDeclare n -> has_dot n = false) ->
    (forall o, In o (mentions e) -> nth_error own o = Some k) -> (forall op args outs, e = ECustom op args outs -> ~ In op ap) ->
    inv (T (next_ap ap e) (own ++ repeat k (length (b_heap (bstep s e)) - length (b_heap s))) (bstep s e)).
  Proof.
    intros IV (CL & CD) DD MM CC. pose proof (i_own IV) as LO. cbn in LO. pose proof (@bstep_better s e (i_sinv IV)) as BB.
    destruct e as [t|n|n|n|args no|args os| |op args os|x fresh|y x|v op|n v|on]; cbn [bstep next_ap chosen_names mentions] in *.
    - cbn. rewrite Nat.sub_diag. cbn. rewrite app_nil_r. apply inv_bump, IV.
    - destruct (check_banned_chars n) as [[]|] eqn:CB; cbn [is_ok] in *; [|apply no_growth with (ap := ap); auto].
      apply inv_leaf with (kd := KIn) (n := n); auto.
      + apply BB.
      + apply CL. left. reflexivity.
      + apply banned_no_dot, CB.
      + cbn. rewrite app_nil_r. reflexivity.
      + cbn. rewrite app_nil_r. reflexivity.
    - apply inv_leaf with (kd := KDecl) (n := n); auto.
      + apply BB.
      + apply CL. left. reflexivity.
      + cbn. rewrite app_nil_r. reflexivity.
      + cbn. rewrite app_nil_r. reflexivity.
    - destruct (check_banned_chars n) as [[]|] eqn:CB; cbn [is_ok] in *; [|apply no_growth with (ap := ap); auto].
      destruct (alloc s KConcat (Some n) []) as [s1 v] eqn:A. unfold alloc in A. injection A as <- <-.
      set (s1 := bump _ 1) in *. set (v := length (b_heap s)) in *.
      assert (NV : ~ In v (b_outs s)).
      { intros H. assert (Q : out_ok (T ap own s) k v) by (apply (i_outs IV); cbn; apply In_ovr; auto). destruct Q as (ob & Eo & _). apply nth_lt in Eo. unfold v in Eo. cbn in Eo. lia. }
      destruct (register_cases s1 n v) as [E|(E & _)].
      + rewrite E in *. destruct (memn v (b_outs s1)) eqn:M; [exfalso; apply memn_In in M; exact (NV M)|].
        cbn. rewrite Nat.sub_diag. cbn. rewrite app_nil_r. apply inv_bump, IV.
      + rewrite E in *. replace (memn v _) with true in * by (symmetry; apply memn_In; cbn; apply in_app_iff; right; left; reflexivity).
        assert (EH : b_heap (add_out (with_objs s1 (upd (b_heap s1) v (set_name n))) v) = b_heap s ++ [Obj KConcat (b_count s) n [] [] None false]).
        { cbn. unfold v. rewrite upd_app_mid. reflexivity. }
        apply inv_leaf with (kd := KConcat) (n := n); auto.
        * apply BB.
        * apply CL. left. reflexivity.
        * apply banned_no_dot, CB.
        * cbn. rewrite app_nil_r. reflexivity.
        * cbn. rewrite app_nil_r. reflexivity.
    - destruct (forallb _ args) eqn:V; [|apply no_growth with (ap := ap); auto].
      destruct (@inv_dedup used I O D k ap args own s [] IV (@mine_args own s args V MM)) as (D1 & D2 & D3 & D4).
      destruct (dedup_args s [] args) as [s1 l] eqn:ED. cbn [fst snd] in *.
      destruct (@inv_new_op used I O D k ap _ s1 l (repeat None no) D1 D2) as (N1 & _ & _); [intros n Hn; apply repeat_spec in Hn; discriminate|].
      rewrite repeat_more in N1. assert (L : length (b_heap s1) <= length (b_heap (fst (new_op s1 l (repeat None no))))) by (rewrite new_op_eq; cbn; rewrite app_length; lia).
      match goal with H : inv (mk _ _ _ _ (own ++ repeat k ?a) _ _) |- inv (mk _ _ _ _ (own ++ repeat k ?b) _ _) => replace b with a by lia end. exact N1.
    - destruct (forallb _ args) eqn:V; [|apply no_growth with (ap := ap); auto].
      destruct (@inv_new_op used I O D k ap own s args (map Some os) IV (@mine_args own s args V MM)) as (N1 & _ & _); [|exact N1].
      intros n Hn. apply in_map_iff in Hn. destruct Hn as (n' & E & Hn). injection E as <-. apply CL, Hn.
    - destruct (alloc s (KOp true) None []) as [s1 v] eqn:A.
      destruct (@inv_alloc_op ap own s [] true s1 v IV) as (N1 & _ & EH); [intros a []|exact A|]. cbn [fst]. rewrite EH, app_length. cbn [length].
      replace (length (b_heap s) + 1 - length (b_heap s)) with 1 by lia. exact N1.
    - destruct (kind_is _ s op) eqn:K; cbn [andb] in *; [|apply no_growth with (ap := ap); cbn; auto].
      destruct (forallb _ args) eqn:V; cbn [andb] in *; [|apply no_growth with (ap := ap); cbn; auto].
      unfold kind_is in K. destruct (nth_error (b_heap s) op) as [oo|] eqn:Eo; [|discriminate].
      assert (Kd : ob_kind oo = KOp true) by (destruct (ob_kind oo) as [| | | |[|]]; try discriminate; reflexivity).
      assert (Oow : nth_error own op = Some k) by (apply MM; left; reflexivity).
      assert (OI : oinv (T ap own s) op k oo) by (apply (i_obj IV); assumption).
      assert (NoOuts : ob_outs oo = []) by (apply (o_cust OI Kd); eapply CC; reflexivity).
      rewrite new_outputs_eq in *. set (s1 := with_objs s _) in *. cbn [b_heap b_count b_ins b_outs b_decls b_subs with_objs s1] in *.
      rewrite !upd_length in BB |- *. rewrite map_length in *. set (n0 := length (b_heap s)) in *. set (vs := seq n0 (length os)) in *.
      set (r := out_objs op (b_count s) (map Some os)) in *.
      match type of BB with better _ ?X => set (s3 := X) in * end.
      match goal with |- inv (mk _ _ _ _ _ _ ?X) => replace X with s3 by (unfold s3, vs, n0; rewrite ?upd_length; reflexivity) end.
      assert (Hop : op < n0) by (eapply nth_lt, Eo).
      assert (EH : b_heap s3 = upd (b_heap s ++ r) op (fun o => set_outs vs (app_deps args o))).
      { unfold s3, s1. cbn. rewrite <- upd_app by exact Hop. rewrite upd_upd. reflexivity. }
      assert (LR : length r = length os) by (unfold r; rewrite out_objs_length, map_length; reflexivity).
      match goal with |- inv (mk _ _ _ _ (own ++ repeat k ?a) _ _) => replace a with (length r) by (rewrite app_length, upd_length; unfold n0; lia) end.
      assert (NO : nth_error (b_heap s3) op = Some (set_outs vs (app_deps args oo))).
      { rewrite EH, nth_upd, Nat.eqb_refl, (EffectProofs.nth_app_old _ _ _ _ Eo). reflexivity. }
      assert (MV : forall v, In v vs -> nth_error (own ++ repeat k (length r)) v = Some k).
      { intros v Hv. apply in_seq in Hv. apply owned_new. unfold n0 in Hv. lia. }
      assert (WR : forall v, In v vs -> writes (b_heap s3) op v).
      { intros v Hv. eexists. split; [exact NO|]. unfold is_op. cbn. rewrite Kd. split; [reflexivity|exact Hv]. }
      destruct (out_objs_num op (map Some os) (b_count s)) as [ON OB]. rewrite map_length in OB.
      eapply inv_gen with (i := op) (ap := ap) (f := fun o => set_outs vs (app_deps args o)); [exact IV|apply BB|exact EH|left; split; [exact Hop|exact Oow]| |exact ON| | | | | | |].
      + unfold s3. cbn. lia.
      + intros o Ho. apply OB in Ho. unfold s3. cbn. lia.
      + intros a Ha. right. exact Ha.
      + intros ob Eob. assert (Eq : ob = oo) by congruence. subst ob. cbn. rewrite NoOuts. split; [reflexivity|]. split; [reflexivity|]. split; [auto|intros v _ []].
      + unfold s3. cbn. apply same_list.
      + unfold s3. cbn. apply same_list.
      + unfold s3. cbn. apply same_list.
      + intros X. split.
        * intros ob Eob _ OV. assert (Eq : ob = oo) by congruence. subst ob. pose proof (oinv_ext X OI) as [A1 A2 A3 A4 A5 A6 A7 A8 A9 A10 A11].
          split; cbn [set_outs app_deps ob_kind ob_num ob_name ob_deps ob_outs ob_decomp ob_defined]; auto.
          -- rewrite Kd. discriminate.
          -- rewrite Kd. discriminate.
          -- rewrite Kd. discriminate.
          -- intros d Hd. apply in_app_iff in Hd. destruct Hd as [Hd|Hd]; [auto|]. apply owned_old, MM. right. exact Hd.
          -- unfold is_op. cbn. rewrite Kd. discriminate.
          -- apply seq_NoDup.
          -- intros _ H. exfalso. apply H. left. reflexivity.
        * intros j ob Ej. unfold r in Ej. apply out_objs_nth in Ej. destruct Ej as (n & En & ->).
          apply nth_error_In in En as En'. apply in_map_iff in En'. destruct En' as (nn & <- & Hnn).
          assert (Hv : In (length (b_heap s) + j) vs) by (apply nth_lt in En; rewrite map_length in En; apply in_seq; unfold n0; lia).
          split; cbn [is_op ob_kind ob_name ob_deps ob_outs ob_decomp ob_defined ob_num]; try discriminate; auto.
          -- intros d [<-|[]]. apply owned_old, Oow.
          -- intros d [].
          -- intros _ o [<-|[]]. apply WR, Hv.
          -- constructor.
    - destruct (nth_error (b_heap s) x) as [o|] eqn:Ex; [|apply no_growth with (ap := ap); auto].
      destruct (is_variable o) eqn:Vx; [|apply no_growth with (ap := ap); auto].
      assert (Ox : nth_error own x = Some k) by (apply MM; left; reflexivity).
      assert (Mx : mine k own s x).
      { split; [exact Ox|]. exists o. split; [exact Ex|]. unfold is_variable in Vx. destruct (is_op o); [discriminate|reflexivity]. }
      match goal with |- context [let (_, _) := ?P in _] => destruct P as [s1 d] eqn:P1 end.
      assert (ST : inv (T ap (own ++ repeat k (length (b_heap s1) - length (b_heap s))) s1) /\ length (b_heap s) <= length (b_heap s1) /\
                   nth_error (own ++ repeat k (length (b_heap s1) - length (b_heap s))) d = Some k /\
                   exists od, nth_error (b_heap s1) d = Some od /\ ob_kind od = KOp false).
      { assert (OI : oinv (T ap own s) x k o) by (apply (i_obj IV); assumption).
        destruct (ob_decomp o) as [d0|] eqn:Ed.
        - injection P1 as <- <-. destruct (o_dec OI Ed) as (Q1 & Q2). split; [apply no_growth with (ap := ap); auto|]. split; [lia|].
          rewrite Nat.sub_diag. cbn. rewrite app_nil_r. split; assumption.
        - destruct (alloc s (KOp false) None [x]) as [s' d'] eqn:A. injection P1 as <- <-.
          destruct (@inv_alloc_op ap own s [x] false s' d' IV) as (N1 & Ed' & EH); [intros a [<-|[]]; exact Mx|exact A|].
          destruct (@alloc_better s (KOp false) None [x] s' d' (i_sinv IV) A) as (B1 & _ & _ & Nd & _ & _); [intros a [<-|[]]; apply Mx|].
          assert (Nxx : nth_error (b_heap s') x = Some o) by (rewrite EH; apply EffectProofs.nth_app_old, Ex).
          assert (Hxd : Nat.eqb x d' = false) by (apply Nat.eqb_neq; apply nth_lt in Ex; lia).
          assert (LL : length (b_heap (with_objs s' (upd (b_heap s') x (set_decomp d')))) = length (b_heap s) + 1) by (cbn; rewrite upd_length, EH, app_length; reflexivity).
          rewrite LL. replace (length (b_heap s) + 1 - length (b_heap s)) with 1 by lia. cbn [repeat].
          assert (Od : nth_error (own ++ [k]) d' = Some k) by (rewrite Ed'; change [k] with (repeat k 1); apply owned_new; lia).
          assert (Nd2 : nth_error (upd (b_heap s') x (set_decomp d')) d' = nth_error (b_heap s') d') by (rewrite nth_upd, Hxd; reflexivity).
          split; [|split; [lia|split; [exact Od|]]].
          + eapply inv_update with (i := x) (f := set_decomp d'); [exact N1| |reflexivity|apply owned_old, Ox|cbn; lia| |reflexivity|reflexivity|apply same_list|].
            * cbn. assert (X : hext (b_heap s') (upd (b_heap s') x (set_decomp d'))) by (apply hext_upd; [reflexivity|]; intros o' d'' E' Hd H; cbn; auto).
              apply sinv_upd; [apply B1|exact X|]. intros ob E' [O1 O2 O3 O4 O5]. split; cbn; auto. intros d'' Hd. injection Hd as <-.
              apply (he_op X). eexists. split; [exact Nd|reflexivity].
            * intros ob _. cbn. auto 8.
            * intros X ob Eob OV. pose proof (oinv_ext X OV) as [A1 A2 A3 A4 A5 A6 A7 A8 A9 A10 A11].
              split; cbn [set_decomp ob_kind ob_num ob_name ob_deps ob_outs ob_decomp ob_defined]; auto.
              intros d'' Hd. injection Hd as <-. split; [exact Od|]. cbn. rewrite Nd2. eexists. split; [exact Nd|reflexivity].
          + cbn. rewrite Nd2. eexists. split; [exact Nd|reflexivity]. }
      destruct ST as (I1 & L1 & Od & (od & Nd & Kd)). destruct fresh; [|exact I1].
      set (own1 := own ++ repeat k (length (b_heap s1) - length (b_heap s))) in *.
      pose proof (i_own I1) as LO1. cbn in LO1.
      unfold alloc in *. set (v := length (b_heap s1)) in *. set (ov := Obj KOut (b_count s1) (hex_id (b_count s1)) [d] [] None false) in *.
      match type of BB with better _ ?X => set (s3 := X) in * end.
      assert (EH : b_heap s3 = upd (b_heap s1 ++ [ov]) d (add_outs v)) by reflexivity.
      assert (Hd : d < v) by (eapply nth_lt, Nd).
      assert (G : inv (T ap (own1 ++ repeat k (length [ov])) s3)).
      { assert (ND : nth_error (b_heap s3) d = Some (add_outs v od)) by (rewrite EH, nth_upd, Nat.eqb_refl, (EffectProofs.nth_app_old _ _ _ _ Nd); reflexivity).
        eapply inv_gen with (i := d) (ap := ap) (f := add_outs v); [exact I1|apply BB|exact EH|left; split; [exact Hd|exact Od]| | | | | | | | |].
        - unfold s3. cbn. lia.
        - cbn. repeat constructor. intros [].
        - intros o' [<-|[]]. unfold s3. cbn. lia.
        - auto.
        - intros ob _. cbn. split; [reflexivity|]. split; [reflexivity|]. split; [auto|]. intros w _ Hw. apply in_app_iff. auto.
        - unfold s3. cbn. apply same_list.
        - unfold s3. cbn. apply same_list.
        - unfold s3. cbn. apply same_list.
        - assert (Ov : nth_error (own1 ++ repeat k (length [ov])) v = Some k) by (apply owned_new; cbn; unfold v; lia).
          intros X. split.
          + intros ob Eob _ OV. assert (Eq : ob = od) by congruence. subst ob. pose proof (oinv_ext X OV) as [A1 A2 A3 A4 A5 A6 A7 A8 A9 A10 A11].
            split; cbn [add_outs ob_kind ob_num ob_name ob_deps ob_outs ob_decomp ob_defined]; auto.
            * intros w Hw. apply in_app_iff in Hw. destruct Hw as [Hw|[<-|[]]]; [auto|exact Ov].
            * apply NoDup_app_iff. split; [exact A10|]. split; [repeat constructor; intros []|]. intros w Hw [<-|[]].
              assert (Oop : is_op od = true) by (unfold is_op; rewrite Kd; reflexivity).
              destruct (ok_op (i_sinv I1 _ Nd) Oop) as [_ Q]. destruct (Q v Hw) as (ow & Ew & _). apply nth_lt in Ew. cbn in Ew. unfold v in Ew. lia.
            * rewrite Kd. discriminate.
          + intros [|[|j]] ob Ej; try discriminate. injection Ej as <-. rewrite Nat.add_0_r. fold v. unfold ov.
            split; cbn [is_op ob_kind ob_name ob_deps ob_outs ob_decomp ob_defined ob_num]; try discriminate; auto.
            * intros w [<-|[]]. apply owned_old, Od.
            * intros w [].
            * intros _ w [<-|[]]. eexists. split; [exact ND|]. cbn. unfold is_op. cbn. rewrite Kd. split; [reflexivity|]. apply in_app_iff. right. left. reflexivity.
            * constructor. }
      unfold own1 in G. rewrite repeat_more in G.
      match type of G with inv (mk _ _ _ _ (own ++ repeat k ?a) _ _) => match goal with |- inv (mk _ _ _ _ (own ++ repeat k ?b) _ _) => replace b with a end end; [exact G|].
      rewrite EH, upd_length, app_length. unfold v. cbn. lia.
    - destruct (nth_error (b_heap s) y) as [o|] eqn:Ey; [|apply no_growth with (ap := ap); auto].
      destruct (ob_kind o) eqn:K; try (apply no_growth with (ap := ap); auto).
      destruct (kind_is is_variable s x) eqn:V; [|apply no_growth with (ap := ap); auto].
      assert (Oy : nth_error own y = Some k) by (apply MM; left; reflexivity).
      assert (Ox : nth_error own x = Some k) by (apply MM; right; left; reflexivity).
      assert (OI : oinv (T ap own s) y k o) by (apply (i_obj IV); assumption).
      apply ExprProofs.kind_is_variable in V.
      assert (NOy : is_op o = false) by (unfold is_op; rewrite K; reflexivity).
      destruct (ob_defined o) eqn:Df.
      + destruct (ob_deps o) as [|op dr] eqn:Dp; [apply no_growth with (ap := ap); auto|].
        cbn [with_objs b_heap] in *. rewrite upd_length, Nat.sub_diag. cbn [repeat]. rewrite app_nil_r.
        assert (Oop : nth_error own op = Some k) by (apply (o_deps OI); rewrite Dp; left; reflexivity).
        destruct (ok_var (i_sinv IV _ Ey) NOy) as [_ [Q|(d & Q & (oo & Eoo & Ooo))]]; [congruence|]. rewrite Dp in Q. injection Q as <- ->.
        eapply inv_update with (i := op) (f := app_deps [x]); [exact IV|apply BB|reflexivity|exact Oop|cbn; lia| |reflexivity|reflexivity|apply same_list|].
        * intros ob _. cbn. auto 8.
        * intros X ob Eob OV. cbn in Eoo. assert (Eq : ob = oo) by congruence. subst ob. pose proof (oinv_ext X OV) as [A1 A2 A3 A4 A5 A6 A7 A8 A9 A10 A11].
          unfold is_op in Ooo. split; cbn [app_deps ob_kind ob_num ob_name ob_deps ob_outs ob_decomp ob_defined]; auto.
          -- intros Q. rewrite Q in Ooo. discriminate.
          -- intros Q. rewrite Q in Ooo. discriminate.
          -- intros Q. rewrite Q in Ooo. discriminate.
          -- intros w Hw. apply in_app_iff in Hw. destruct Hw as [Hw|[<-|[]]]; [auto|exact Ox].
          -- unfold is_op. cbn. rewrite Ooo. discriminate.
      + unfold alloc in *. set (op := length (b_heap s)) in *.
        match type of BB with better _ ?X => set (s3 := X) in * end.
        assert (Hy : y < op) by (eapply nth_lt, Ey).
        set (oo := op_obj (b_count s) [x] [y]) in *.
        assert (EH : b_heap s3 = upd (b_heap s ++ [oo]) y (set_defined op)).
        { unfold s3. cbn. unfold op. rewrite upd_app_mid. reflexivity. }
        assert (DD0 : ob_deps o = []) by (apply (o_con OI K), Df).
        assert (L : length (b_heap s3) - op = 1) by (rewrite EH, upd_length, app_length; unfold op; cbn; lia). rewrite L.
        change (repeat k 1) with (repeat k (length [oo])).
        assert (Oop : nth_error (own ++ repeat k (length [oo])) op = Some k) by (apply owned_new; unfold op; cbn; lia).
        assert (Nop : nth_error (b_heap s3) op = Some oo).
        { rewrite EH, nth_upd. destruct (Nat.eqb_spec y op); [lia|]. unfold op. apply nth_app_new. }
        eapply inv_gen with (i := y) (ap := ap) (f := set_defined op); [exact IV|apply BB|exact EH|left; split; [exact Hy|exact Oy]| | | | | | | | |].
        * unfold s3. cbn. lia.
        * cbn. repeat constructor. intros [].
        * intros o' [<-|[]]. unfold s3. cbn. lia.
        * auto.
        * intros ob _. cbn. auto 8.
        * unfold s3. cbn. apply same_list.
        * unfold s3. cbn. apply same_list.
        * unfold s3. cbn. apply same_list.
        * intros X. split.
          -- intros ob Eob _ OV. assert (Eq : ob = o) by congruence. subst ob. pose proof (oinv_ext X OV) as [A1 A2 A3 A4 A5 A6 A7 A8 A9 A10 A11].
             split; cbn [set_defined ob_kind ob_num ob_name ob_deps ob_outs ob_decomp ob_defined]; auto.
             ++ rewrite K. discriminate.
             ++ rewrite K. discriminate.
             ++ intros _. destruct (A5 K) as (B1 & B2 & _). split; [exact B1|]. split; [exact B2|discriminate].
             ++ intros w [<-|[]]. exact Oop.
             ++ intros _ w [<-|[]]. eexists. split; [exact Nop|]. split; [reflexivity|]. left. reflexivity.
          -- intros [|[|j]] ob Ej; try discriminate. injection Ej as <-. rewrite Nat.add_0_r. fold op. unfold oo.
             split; cbn [op_obj is_op ob_kind ob_name ob_deps ob_outs ob_decomp ob_defined ob_num]; try discriminate; auto.
             ++ intros w [<-|[]]. apply owned_old, Ox.
             ++ intros w [<-|[]]. apply owned_old, Oy.
             ++ repeat constructor. intros [].
    - destruct CD.
    - assert (L : length (b_heap (register s n v)) = length (b_heap s)).
      { destruct (register_cases s n v) as [->|(-> & _)]; [reflexivity|]. cbn. apply upd_length. }
      rewrite L, Nat.sub_diag. cbn [repeat]. rewrite app_nil_r. apply inv_register; [exact IV|apply CL; left; reflexivity|apply MM; left; reflexivity].
    - destruct on as [n|]; [|destruct CD]. destruct (is_ok _ && _); [|apply no_growth with (ap := ap); auto].
      cbn. rewrite Nat.sub_diag. cbn. rewrite app_nil_r. exact (@inv_bump used I O D k ap own s 1%N IV).
  Qed.
End Call.
