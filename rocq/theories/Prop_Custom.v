(** C36, C37, C62, C63: custom operations. *)
From Verif Require Import PyBase PromotionsModel ApiModel CustomModel CustomSpec CustomProofs CustomProofs2.
Set Implicit Arguments.
Open Scope list_scope.

Notation start hp := {| w_heap := hp; w_op := cop_new |}.

(** *** C36 derivatives *)

(** No pair is ever declared twice, whatever calls are made and fail. *)
Theorem C36_never_twice : forall fuel hp h,
  NoDup (c_derivs (w_op (ccexec_all fuel (start hp) h))).
Proof. intros. apply ccexec_all_NoDup. constructor. Qed.

(** One call: if both arguments stand for at least one variable and no variable is
    called "*", the call returns normally exactly when no requested pair is already
    declared or requested twice; the declared pairs are then extended by exactly the
    requested ones, otherwise by a proper prefix of them up to the first repetition. *)
Theorem C36_one_call : forall k hp h a b la lb,
  let w := ccexec_all (S (S k)) (start hp) h in
  let (w', e) := declare_derivatives (S (S k)) w a b in
  ~ In "*"%string (dkeys (c_out (w_op w))) -> ~ In "*"%string (dkeys (c_in (w_op w))) ->
  asks_for (dkeys (c_out (w_op w))) a la -> asks_for (dkeys (c_in (w_op w))) b lb ->
  la <> [] -> lb <> [] ->
  (e = None <-> NoDup (c_derivs (w_op w) ++ pairs la lb)) /\
  (e = None -> c_derivs (w_op w') = c_derivs (w_op w) ++ pairs la lb) /\
  (e <> None -> e = Some KeyError /\ exists l1 p l2, pairs la lb = l1 ++ p :: l2 /\
       c_derivs (w_op w') = c_derivs (w_op w) ++ l1 /\ In p (c_derivs (w_op w) ++ l1)) /\
  c_in (w_op w') = c_in (w_op w) /\ c_out (w_op w') = c_out (w_op w).
Proof.
  intros k hp h a b la lb w. destruct (declare_derivatives (S (S k)) w a b) as [w' e] eqn:Ed.
  intros So Si Ha Hb Na Nb.
  rewrite (@dd_records k w a b la lb So Si Ha Hb Na Nb) in Ed.
  assert (HN : NoDup (c_derivs (w_op w))) by apply C36_never_twice.
  pose proof (@record_all_NoDup (pairs la lb) w HN) as Hiff.
  destruct (record_all (pairs la lb) w) as (l1 & l2 & E1 & E2 & E3). rewrite Ed in *. simpl in *.
  subst w'. simpl. split; [exact Hiff|]. split; [|split; [|split; reflexivity]].
  - intros He. destruct E3 as [[_ ->]|[E3 _]]; [|congruence]. rewrite app_nil_r in E1. rewrite E1. reflexivity.
  - intros He. destruct E3 as [[E3 _]|[E3 (p & l3 & -> & Hp)]]; [congruence|].
    split; [exact E3|]. exists l1, p, l3. auto.
Qed.

(** After any history of calls that all returned normally, the declared pairs are
    exactly those requested, in order; a wildcard stands for the variables added
    before the call. *)
Theorem C36_history : forall k hp h,
  all_accepted (S (S k)) (start hp) h -> no_star h -> no_empty_request h ->
  requested h (c_derivs (w_op (ccexec_all (S (S k)) (start hp) h))).
Proof. intros. apply accepted_requested; assumption. Qed.

(** The claim fails for a wildcard that stands for nothing: the wildcard itself is
    then recorded as the name of an output. *)
Theorem C36_empty_wildcard_refuted : exists hp h la,
  all_accepted 10 (start hp) h /\
  h = [AddInput "x" [1] (CNum 1); DeclareDerivatives (DStr "*") (DStr "x")] /\
  asks_for (distinct (output_names h)) (DStr "*") la /\
  c_derivs (w_op (ccexec_all 10 (start hp) h)) <> pairs la ["x"%string].
Proof.
  exists []. eexists. exists []. split; [|split; [reflexivity|split; [constructor|]]].
  - intros h1 c h2 E. destruct h1 as [|c1 [|c2 [|c3 h1]]]; try discriminate;
      injection E; intros; subst; try discriminate; reflexivity.
  - discriminate.
Qed.

(** Nor must a declared pair name an output and an input: unknown names are accepted. *)
Theorem C36_unknown_names_refuted : exists hp h a b,
  all_accepted 10 (start hp) h /\
  In (a, b) (c_derivs (w_op (ccexec_all 10 (start hp) h))) /\
  ~ In a (output_names h) /\ ~ In b (input_names h).
Proof.
  exists [], [DeclareDerivatives (DStr "y") (DStr "x")], "y"%string, "x"%string.
  split; [|split; [left; reflexivity|split; intros []]].
  intros h1 c h2 E. destruct h1 as [|c1 [|c2 h1]]; try discriminate;
    injection E; intros; subst; reflexivity.
Qed.

(** *** C37 names *)

(** What holds of the names after a history whose calls all returned: inputs are
    distinct and counted once; outputs are listed once each but counted once per
    call; nothing was added as output after it had been added as input. *)
Theorem C37_names_partial : forall fuel hp h,
  all_accepted fuel (start hp) h ->
  let o := w_op (ccexec_all fuel (start hp) h) in
  dkeys (c_in o) = input_names h /\ NoDup (input_names h) /\ c_nargs o = length (dkeys (c_in o)) /\
  dkeys (c_out o) = distinct (output_names h) /\
  c_nouts o = length (output_names h) /\
  (NoDup (output_names h) -> c_nouts o = length (dkeys (c_out o))) /\
  (forall h1 n sh v h2, h = h1 ++ AddOutput n sh v :: h2 -> ~ In n (input_names h1)).
Proof.
  intros fuel hp h H. destruct (@accepted_names fuel hp h H) as (H1 & H2 & H3 & H4 & H5 & H6).
  cbv zeta. repeat split; auto.
  - rewrite H1; exact H4.
  - intros HN. rewrite H3, (distinct_NoDup HN). exact H5.
Qed.

(** A name already used as an input is refused as an input and as an output, and the
    refusal changes nothing. *)
Theorem C37_input_name_reserved : forall w n sh v,
  In n (dkeys (c_in (w_op w))) ->
  add_input w n sh v = (w, Some KeyError) /\ add_output w n sh v = (w, Some KeyError).
Proof.
  intros w n sh v H. unfold add_input, add_output. apply dmem_spec in H. rewrite H. auto.
Qed.

(** The claim fails twice: an output name can be taken by a later input, and the same
    output can be added twice, which counts two outputs. *)
Theorem C37_input_and_output_refuted : exists hp h n,
  all_accepted 10 (start hp) h /\
  In n (dkeys (c_in (w_op (ccexec_all 10 (start hp) h)))) /\
  In n (dkeys (c_out (w_op (ccexec_all 10 (start hp) h)))).
Proof.
  exists [], [AddOutput "x" [1] (CNum 1); AddInput "x" [1] (CNum 1)], "x"%string.
  split; [|split; left; reflexivity].
  intros h1 c h2 E. destruct h1 as [|c1 [|c2 [|c3 h1]]]; try discriminate;
    injection E; intros; subst; reflexivity.
Qed.
Theorem C37_output_count_refuted : exists hp h,
  all_accepted 10 (start hp) h /\
  c_nouts (w_op (ccexec_all 10 (start hp) h)) <> length (dkeys (c_out (w_op (ccexec_all 10 (start hp) h)))).
Proof.
  exists [], [AddOutput "y" [1] (CNum 1); AddOutput "y" [2] (CNum 1)].
  split; [|discriminate].
  intros h1 c h2 E. destruct h1 as [|c1 [|c2 [|c3 h1]]]; try discriminate;
    injection E; intros; subst; reflexivity.
Qed.
(** A rejected add_input leaves its name taken: adding it again, correctly, raises. *)
Theorem C37_rejected_input_blocks_name : forall w n sh v e w',
  add_input w n sh v = (w', Some e) ->
  forall sh' v', snd (add_input w' n sh' v') = Some KeyError.
Proof.
  intros w n sh v e w' H sh' v'. unfold add_input in H. destruct (dmem n (c_in (w_op w))) eqn:E.
  - injection H as <- _. unfold add_input. rewrite E. reflexivity.
  - destruct (shape_val (w_heap w) sh v) as [[[h s] r]|x]; [discriminate|]. injection H as <- _.
    unfold add_input. simpl.
    replace (dmem n (dset (c_in (w_op w)) n None)) with true; [reflexivity|].
    symmetry. apply dmem_spec, In_dkeys_dset. auto.
Qed.

(** A rejected add_output leaves an output without shape behind: it is an output for later
    wildcards, though it is not counted. *)
Theorem C37_rejected_output_stays : forall w n sh v e w',
  add_output w n sh v = (w', Some e) -> ~ In n (dkeys (c_in (w_op w))) ->
  dget (c_out (w_op w')) n = Some None /\ c_nouts (w_op w') = c_nouts (w_op w) /\
  (forall n', n' <> n -> dget (c_out (w_op w')) n' = dget (c_out (w_op w)) n') /\
  (forall n', In n' (dkeys (c_out (w_op w))) -> In n' (dkeys (c_out (w_op w')))) /\
  c_in (w_op w') = c_in (w_op w) /\ w_heap w' = w_heap w.
Proof.
  intros w n sh v e w' H Hn. unfold add_output in H. apply dmem_false in Hn. rewrite Hn in H.
  destruct (shape_val (w_heap w) sh v) as [[[h s] r]|x]; [discriminate|]. injection H as <- _. simpl.
  split; [apply dget_dset_same|]. split; [reflexivity|]. split; [intros n' Hd; apply dget_dset_other; congruence|].
  split; [|auto]. intros n' Hi. apply In_dkeys_dset. auto.
Qed.

(** *** C62 calling custom *)

(** A call of [custom] with a new operation returns normally exactly when its define
    does and the arguments fit the inputs that define declares, by number, name and
    shape; it then returns one output per declared output, with its name and shape,
    and the operation depends on exactly the arguments, in order. *)
Theorem C62_custom : forall fuel hp body args,
  let (w', e) := custom fuel (start hp) body args in
  (e = None <-> exists w1, define fuel (start hp) body = (w1, None) /\ args_fit args (c_in (w_op w1))) /\
  (e = None -> forall w1, define fuel (start hp) body = (w1, None) ->
     outs_of (c_out (w_op w1)) (c_outs (w_op w')) /\
     c_deps (w_op w') = arg_ids args /\
     length (arg_ids args) = length (c_in (w_op w1))).
Proof.
  intros fuel hp body args. destruct (custom fuel (start hp) body args) as [w' e] eqn:Ec.
  assert (Hdeps : forall w1, define fuel (start hp) body = (w1, None) -> c_deps (w_op w1) = []).
  { intros w1. unfold define.
    apply (@seq_calls_ok_inv _ (fun w => c_deps (w_op w) = [])); [|reflexivity].
    intros w c w2 _ Hp E. destruct c as [n sh v|n sh v|a b]; simpl in E.
    - unfold add_input in E. destruct (dmem n _); [discriminate|].
      destruct (shape_val _ sh v) as [[[h s] r]|x]; [|discriminate]. injection E as <-. exact Hp.
    - unfold add_output in E. destruct (dmem n _); [discriminate|].
      destruct (shape_val _ sh v) as [[[h s] r]|x]; [|discriminate]. injection E as <-. exact Hp.
    - apply dd_frame_ok in E. destruct E as [l ->]. exact Hp. }
  split.
  - split.
    + intros ->. apply custom_accepts in Ec; [|apply op_inv_new].
      destruct Ec as (w1 & h & outs & Ed & Hf & _). eauto.
    + intros (w1 & Ed & Hf). destruct e as [x|]; [|reflexivity]. exfalso.
      pose proof (@define_inv _ _ _ _ (op_inv_new hp) Ed) as (N1 & N2 & C1 & C2).
      destruct (args_loop_fit Hf [] w1 eq_refl N1) as (w2 & E2).
      destruct (make_outs_ok C2) as (o & Eo & Ho).
      unfold custom in Ec. rewrite Ed, (args_fit_length Hf), Nat.eqb_refl in Ec. cbn [negb] in Ec.
      rewrite E2 in Ec.
      destruct (@args_loop_ok args [] (c_in (w_op w1)) w1 eq_refl N1 (args_fit_length Hf) w2 E2) as (_ & h & ->).
      simpl in Ec. rewrite Eo in Ec. discriminate.
  - intros -> w1 Ed. apply custom_accepts in Ec; [|apply op_inv_new].
    destruct Ec as (w1' & h & outs & Ed' & Hf & Es & Ho & ->).
    rewrite Ed in Ed'. injection Ed' as <-. simpl. rewrite (Hdeps _ Ed). split; [exact Ho|].
    split; [reflexivity|]. clear -Hf. induction Hf; simpl; congruence.
Qed.

(** An operation object with an input cannot be used in a second call. *)
Theorem C62_no_second_use : forall fuel hp body args w' n sh v,
  custom fuel (start hp) body args = (w', None) -> In (AddInput n sh v) body ->
  forall hp' args', snd (custom fuel {| w_heap := hp'; w_op := w_op w' |} body args') <> None.
Proof.
  intros fuel hp body args w' n sh v Hc Hb hp' args' H2.
  apply custom_accepts in Hc; [|apply op_inv_new].
  destruct Hc as (w1 & h & outs & Ed & _ & _ & _ & ->).
  pose proof (@define_adds fuel _ _ _ _ Hb _ _ Ed) as [_ Hin].
  unfold custom in H2.
  clear Ed. destruct (define fuel _ body) as [w2 [e|]] eqn:E2; [discriminate|].
  pose proof (@define_adds fuel _ _ _ _ Hb _ _ E2) as [Hni _]. apply Hni. exact Hin.
Qed.

(** *** C63 default values *)

(** When the defaults of the operation's inputs are given as numbers or lists, the call
    changes no array that existed before, so no default value of any variable, and
    every input of the operation takes the value of its argument. *)
Theorem C63_values_partial : forall fuel hp body args w' w1,
  good_heap hp -> plain_values body -> args_in_heap hp args ->
  define fuel (start hp) body = (w1, None) ->
  custom fuel (start hp) body args = (w', None) ->
  (forall r, r < length hp -> hget (w_heap w') r = hget hp r) /\
  Forall2 (fun a e => match a, snd e with
                      | AVar _ _ sh v, Some (_, Some r) => hget (w_heap w') r = arg_value hp sh v
                      | _, _ => False
                      end) args (c_in (w_op w1)).
Proof.
  intros fuel hp body args w' w1 Hg Hp Ha Ed Hc.
  apply custom_accepts in Hc; [|apply op_inv_new].
  destruct Hc as (w1' & h & outs & Ed' & Hf & Es & Ho & ->).
  rewrite Ed in Ed'. injection Ed' as <-.
  destruct (@define_fresh _ _ _ _ Hg Hp Ed) as ((ext & He) & Hg1 & HNr & Hsh).
  pose proof (@define_inv _ _ _ _ (op_inv_new hp) Ed) as (N1 & _).
  assert (Hold : forall r, r < length hp -> hget (w_heap w1) r = hget hp r).
  { intros r Hr. rewrite He. apply hget_app_l; exact Hr. }
  assert (HL : length hp <= length (w_heap w1)) by (rewrite He, app_length; lia).
  destruct (@args_loop_values hp args (c_in (w_op w1)) Hf [] w1 _ eq_refl N1 HL Hold Hg1 HNr Hsh Ha Es) as [H1 H2].
  split; [|exact H2].
  intros r Hr. change (hget (w_heap (with_deps w1 h (c_deps (w_op w1) ++ arg_ids args))) r = hget hp r).
  rewrite H1; [apply Hold; exact Hr|].
  intros Hi. apply in_refs_In in Hi. destruct Hi as (n & sh & Hi). apply Hsh in Hi. lia.
Qed.

(** With array objects this fails: an array given both as the default of the
    operation's input and as the value of the argument is set to zero. *)
Theorem C63_shared_array_refuted : exists fuel hp body args w' r,
  good_heap hp /\ args_in_heap hp args /\ args = [AVar 0 "x" [2] (Some r)] /\
  custom fuel (start hp) body args = (w', None) /\
  hget hp r = Arr [2] [3%Z; 4%Z] /\ hget (w_heap w') r = Arr [2] [0%Z; 0%Z].
Proof.
  exists 10, [Arr [2] [3%Z; 4%Z]],
    [AddInput "x" [2] (CRef 0); AddOutput "y" [2] (CNum 1)], [AVar 0 "x" [2] (Some 0)].
  eexists. exists 0. split; [|split; [|split; [reflexivity|split; [reflexivity|split; reflexivity]]]].
  - repeat constructor.
  - repeat constructor.
Qed.

(** *** Non-vacuity *)
Definition body1 : list ccall :=
  [AddInput "a" [2] (CNum 1); AddInput "b" [1] (CList (Arr [3] [1;2;3]%Z)); AddOutput "y" [4] (CNum 0);
   AddOutput "z" [2] (CNum 0); DeclareDerivatives (DStr "*") (DList ["a"%string; "b"%string])].
Example body1_ok : all_accepted 10 (start []) body1.
Proof.
  intros h1 c h2 E. unfold body1 in E.
  destruct h1 as [|c1 [|c2 [|c3 [|c4 [|c5 [|c6 h1]]]]]]; try discriminate;
    injection E; intros; subst; reflexivity.
Qed.
Example body1_no_star : no_star body1 /\ no_empty_request body1.
Proof.
  split; [split; intros H; repeat destruct H as [H|H]; try discriminate; contradiction|].
  intros h1 a b h2 E. unfold body1 in E.
  destruct h1 as [|c1 [|c2 [|c3 [|c4 [|c5 [|c6 h1]]]]]]; try discriminate;
    injection E; intros; subst; try discriminate.
  split; intros H; inversion H.
Qed.
Example body1_pairs : c_derivs (w_op (ccexec_all 10 (start []) body1)) =
  [("y","a"); ("y","b"); ("z","a"); ("z","b")]%string.
Proof. reflexivity. Qed.
Definition hp1 : heap := [Arr [2] [5;6]%Z].
Definition args1 : list carg := [AVar 7 "a" [2] (Some 0); AVar 8 "b" [3] None].
Definition after1 : world := Eval vm_compute in fst (define 10 (start hp1) body1).
Definition done1 : world := Eval vm_compute in fst (custom 10 (start hp1) body1 args1).
Example custom1 : custom 10 (start hp1) body1 args1 = (done1, None) /\
  define 10 (start hp1) body1 = (after1, None) /\
  good_heap hp1 /\ plain_values body1 /\ args_in_heap hp1 args1 /\
  args_fit args1 (c_in (w_op after1)) /\
  c_outs (w_op done1) = [("y"%string, [4]); ("z"%string, [2])] /\ c_deps (w_op done1) = [7; 8].
Proof.
  split; [vm_compute; reflexivity|]. split; [vm_compute; reflexivity|].
  split; [repeat constructor|]. split; [repeat constructor|]. split; [repeat constructor|].
  split; [|split; reflexivity]. unfold args1. simpl. repeat constructor.
Qed.

Print Assumptions C36_never_twice.
Print Assumptions C36_one_call.
Print Assumptions C36_history.
Print Assumptions C36_empty_wildcard_refuted.
Print Assumptions C36_unknown_names_refuted.
Print Assumptions C37_names_partial.
Print Assumptions C37_input_name_reserved.
Print Assumptions C37_input_and_output_refuted.
Print Assumptions C37_output_count_refuted.
Print Assumptions C37_rejected_input_blocks_name.
Print Assumptions C37_rejected_output_stays.
Print Assumptions C62_custom.
Print Assumptions C62_no_second_use.
Print Assumptions C63_values_partial.
Print Assumptions C63_shared_array_refuted.
