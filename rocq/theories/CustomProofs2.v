From Verif Require Import PyBase PromotionsModel ApiModel CustomModel CustomSpec CustomProofs.
Set Implicit Arguments.
Open Scope list_scope.

(** *** The heap *)
Lemma length_hset h r a : length (hset h r a) = length h.
Proof. revert r; induction h as [|x h IH]; intros [|r]; simpl; auto. Qed.
Lemma hget_hset_same h r a : r < length h -> hget (hset h r a) r = a.
Proof.
  unfold hget; revert r; induction h as [|x h IH]; intros [|r]; simpl; intros H; try lia; auto.
  apply IH; lia.
Qed.
Lemma hget_hset_other h r a r' : r' <> r -> hget (hset h r a) r' = hget h r'.
Proof.
  unfold hget; revert r r'; induction h as [|x h IH]; intros [|r] [|r'] H; simpl; auto; try congruence.
Qed.
Lemma hget_app_l h k r : r < length h -> hget (h ++ k) r = hget h r.
Proof. intros H. unfold hget. apply app_nth1; exact H. Qed.
Lemma hget_app_new h a : hget (h ++ [a]) (length h) = a.
Proof. unfold hget. rewrite app_nth2 by lia. rewrite Nat.sub_diag. reflexivity. Qed.

Lemma good_hget h r : good_heap h -> r < length h -> good_arr (hget h r).
Proof. intros H Hr. unfold good_heap in H. rewrite Forall_forall in H. apply H. apply nth_In; exact Hr. Qed.

Lemma good_full sh z : good_arr (full sh z).
Proof. unfold good_arr, full; simpl. apply repeat_length. Qed.

Lemma add_zero a b : good_arr a -> good_arr b -> a_shape a = a_shape b -> add_arr (zero_arr a) b = b.
Proof.
  unfold good_arr, add_arr, zero_arr. destruct a as [s x], b as [t y]; simpl. intros Hx Hy ->.
  f_equal. assert (E : length x = length y) by lia. clear Hx Hy. revert y E.
  induction x as [|u x IH]; intros [|v y] E; simpl in *; try lia; [reflexivity|].
  rewrite IH by lia. f_equal. lia.
Qed.

(** The effect of refreshing one input. *)
Lemma refresh_spec h dst (src : option ref) sh : dst < length h -> good_heap h ->
  a_shape (hget h dst) = sh ->
  match src with Some r => r < length h /\ r <> dst /\ a_shape (hget h r) = sh | None => True end ->
  length (refresh h dst src sh) = length h /\
  hget (refresh h dst src sh) dst = arg_value h sh src /\
  (forall r, r <> dst -> hget (refresh h dst src sh) r = hget h r) /\
  good_heap (refresh h dst src sh).
Proof.
  intros Hd Hg Hs Hsrc. unfold refresh; cbv zeta.
  set (h1 := hset h dst (zero_arr (hget h dst))).
  assert (L1 : length h1 = length h) by apply length_hset.
  assert (E1 : hget h1 dst = zero_arr (hget h dst)) by (apply hget_hset_same; exact Hd).
  assert (Eb : match src with Some r => hget h1 r | None => full sh 1 end = arg_value h sh src).
  { destruct src as [r|]; [|reflexivity]. simpl. apply hget_hset_other. tauto. }
  assert (Ga : good_arr (arg_value h sh src)).
  { destruct src as [r|]; simpl; [apply good_hget; tauto|apply good_full]. }
  assert (Sa : a_shape (arg_value h sh src) = sh) by (destruct src; simpl; [tauto|reflexivity]).
  rewrite Eb, E1, add_zero; [|apply good_hget; assumption|exact Ga|congruence].
  split; [rewrite length_hset; exact L1|]. split; [apply hget_hset_same; lia|]. split.
  - intros r Hr. rewrite hget_hset_other by exact Hr. apply hget_hset_other; exact Hr.
  - unfold good_heap. apply Forall_forall. intros x Hx.
    apply In_nth with (d := Arr [] []) in Hx. destruct Hx as (i & Hi & <-).
    fold (hget (hset h1 dst (arg_value h sh src)) i).
    rewrite length_hset in Hi. destruct (Nat.eq_dec i dst) as [->|Hne].
    + rewrite hget_hset_same by lia. exact Ga.
    + rewrite hget_hset_other by exact Hne. unfold h1. rewrite hget_hset_other by exact Hne.
      apply good_hget; [exact Hg|lia].
Qed.

(** *** Successful sequences *)
Lemma seq_calls_ok_inv {A} (P : world -> Prop) (f : world -> A -> cres) l : forall w w',
  (forall w a w', In a l -> P w -> f w a = (w', None) -> P w') -> P w ->
  seq_calls f w l = (w', None) -> P w'.
Proof.
  induction l as [|a l IH]; intros w w' Hf Hp H; simpl in H; [injection H as <-; exact Hp|].
  destruct (f w a) as [w1 [e|]] eqn:E; [discriminate|].
  eapply IH; [|eapply Hf; [left; reflexivity|exact Hp|exact E]|exact H].
  intros; eapply Hf; [right; eassumption|eassumption|eassumption].
Qed.

(** Entries of the dictionaries are complete after a successful define. *)
Definition complete (d : dict cmeta) : Prop := Forall (fun e => snd e <> None) d.
Lemma Forall_dset {V} (P : string * V -> Prop) (d : dict V) k v :
  (forall k', P (k', v)) -> Forall P d -> Forall P (dset d k v).
Proof.
  intros Hv. induction d as [|[a b] d IH]; intros H; simpl; [constructor; auto|].
  inversion H; subst. destruct (String.eqb k a); constructor; auto.
Qed.

Definition op_inv (w : world) : Prop :=
  NoDup (dkeys (c_in (w_op w))) /\ NoDup (dkeys (c_out (w_op w))) /\
  complete (c_in (w_op w)) /\ complete (c_out (w_op w)).

Lemma dd_frame fuel w a b : NoDup (c_derivs (w_op w)) ->
  same_but_derivs w (fst (declare_derivatives fuel w a b)).
Proof. intros H. apply (@dd_inv fuel w w a b). split; [apply sbd_refl|exact H]. Qed.

Lemma dd_frame' fuel : forall w0 w a b, same_but_derivs w0 w ->
  same_but_derivs w0 (fst (declare_derivatives fuel w a b)).
Proof.
  induction fuel as [|f IH]; intros w0 w a b H; [exact H|].
  cbn [declare_derivatives]. cbv zeta. destruct (is_dother a || is_dother b); [exact H|].
  destruct (dlist a _) as [|a0 la]; destruct (dlist b _) as [|b0 lb].
  - destruct a as [s|l|]; try exact H. destruct b as [t|l|]; try exact H.
    destruct (pmem (s, t) (c_derivs (w_op w))) eqn:E; [exact H|].
    eapply sbd_trans; [exact H|]. eexists; reflexivity.
  - apply seq_calls_inv; [|exact H]. intros; apply IH; assumption.
  - apply seq_calls_inv; [|exact H]. intros; apply IH; assumption.
  - apply seq_calls_inv; [|exact H]. intros w' x H'.
    apply seq_calls_inv; [|exact H']. intros; apply IH; assumption.
Qed.

Lemma dd_frame_ok fuel w a b w' : declare_derivatives fuel w a b = (w', None) -> same_but_derivs w w'.
Proof.
  intros H. pose proof (@dd_frame' fuel w w a b (sbd_refl w)) as H1. rewrite H in H1. exact H1.
Qed.

Lemma op_inv_step fuel w c w' : op_inv w -> ccexec fuel w c = (w', None) -> op_inv w'.
Proof.
  intros (H1 & H2 & H3 & H4) H. destruct c as [n sh v|n sh v|a b]; simpl in H.
  - unfold add_input in H. destruct (dmem n _); [discriminate|].
    destruct (shape_val _ sh v) as [[[h s] r]|e]; [|discriminate]. injection H as <-.
    unfold op_inv; simpl. repeat split; auto.
    + apply NoDup_dset; exact H1.
    + apply Forall_dset; [discriminate|exact H3].
  - unfold add_output in H. destruct (dmem n _); [discriminate|].
    destruct (shape_val _ sh v) as [[[h s] r]|e]; [|discriminate]. injection H as <-.
    unfold op_inv; simpl. repeat split; auto.
    + apply NoDup_dset; exact H2.
    + apply Forall_dset; [discriminate|exact H4].
  - apply dd_frame_ok in H. destruct H as [l ->]. repeat split; assumption.
Qed.

Lemma define_inv fuel w body w' : op_inv w -> define fuel w body = (w', None) -> op_inv w'.
Proof.
  intros H. unfold define. apply seq_calls_ok_inv; [|exact H].
  intros w1 a w2 _ Hi E. eapply op_inv_step; eassumption.
Qed.

Lemma op_inv_new h : op_inv {| w_heap := h; w_op := cop_new |}.
Proof. repeat split; constructor. Qed.

Lemma make_outs_ok d : complete d -> exists o, make_outs d = Ok o /\ outs_of d o.
Proof.
  induction d as [|[n [[s r]|]] d IH]; intros H.
  - exists []; split; [reflexivity|constructor].
  - inversion H; subst. destruct IH as (o & E & Ho); [assumption|].
    exists ((n, s) :: o). simpl. rewrite E. split; [reflexivity|constructor; exact Ho].
  - inversion H as [|? ? Hn]; subst. simpl in Hn. congruence.
Qed.

(** *** The arguments *)
Lemma args_fit_length l d : args_fit l d -> length l = length d.
Proof. induction 1; simpl; congruence. Qed.

Lemma with_deps_same w : with_deps w (w_heap w) (c_deps (w_op w)) = w.
Proof. destruct w as [h []]; reflexivity. Qed.

Lemma dget_mid {V} (pre : dict V) n v suf : ~ In n (dkeys pre) -> dget (pre ++ (n, v) :: suf) n = Some v.
Proof.
  induction pre as [|[k x] pre IH]; simpl; intros H.
  - rewrite String.eqb_refl. reflexivity.
  - destruct (String.eqb_spec n k) as [->|]; [exfalso; auto|]. apply IH. auto.
Qed.

(** Success of the argument loop over a tail of the inputs. *)
Lemma args_loop_ok args : forall pre suf w, c_in (w_op w) = pre ++ suf -> NoDup (dkeys (pre ++ suf)) ->
  length args = length suf ->
  forall w', seq_calls custom_arg w (combine args (dkeys suf)) = (w', None) ->
  args_fit args suf /\ exists h, w' = with_deps w h (c_deps (w_op w) ++ arg_ids args).
Proof.
  induction args as [|a args IH]; intros pre suf w Hin HN HL w' H.
  - destruct suf; [|discriminate]. simpl in H. injection H as <-. split; [constructor|].
    exists (w_heap w). simpl. rewrite app_nil_r. symmetry; apply with_deps_same.
  - destruct suf as [|[k e] suf]; [discriminate|]. cbn [dkeys map combine seq_calls fst] in H.
    destruct (custom_arg w (a, k)) as [w1 [x|]] eqn:E; [discriminate|].
    destruct a as [id n sh v|]; [|discriminate]. unfold custom_arg in E.
    destruct (String.eqb_spec n k) as [->|]; [|discriminate]. cbn [negb] in E.
    assert (Hk : ~ In k (dkeys pre)).
    { unfold dkeys in HN. rewrite map_app in HN. apply NoDup_app_iff in HN.
      destruct HN as (_ & _ & HN). intros Hk. eapply HN; [exact Hk|left; reflexivity]. }
    rewrite Hin, dget_mid in E by exact Hk.
    destruct e as [[s r]|]; [|discriminate].
    destruct (shape_eqb sh s) eqn:Es; [|discriminate]. cbn [negb] in E. cbv zeta in E.
    destruct r as [r|]; [|discriminate]. injection E as <-.
    apply shape_eqb_spec in Es. subst s.
    destruct (IH (pre ++ [(k, Some (sh, Some r))]) suf
        (with_deps w (refresh (w_heap w) r v sh) (c_deps (w_op w) ++ [id]))) with (w' := w') as (Hf & h & ->).
    + simpl. rewrite Hin, <- app_assoc. reflexivity.
    + rewrite <- app_assoc. exact HN.
    + simpl in HL. lia.
    + exact H.
    + split; [constructor; exact Hf|]. exists h. simpl. rewrite <- app_assoc. reflexivity.
Qed.

Lemma args_loop_fit args suf : args_fit args suf ->
  forall pre w, c_in (w_op w) = pre ++ suf -> NoDup (dkeys (pre ++ suf)) ->
  exists w', seq_calls custom_arg w (combine args (dkeys suf)) = (w', None).
Proof.
  induction 1 as [|id n sh v r args suf Hf IH]; intros pre w Hin HN.
  - exists w; reflexivity.
  - assert (Hk : ~ In n (dkeys pre)).
    { unfold dkeys in HN. rewrite map_app in HN. apply NoDup_app_iff in HN.
      destruct HN as (_ & _ & HN). intros Hk. eapply HN; [exact Hk|left; reflexivity]. }
    cbn [dkeys map combine seq_calls fst]. unfold custom_arg at 1. rewrite String.eqb_refl. cbn [negb].
    rewrite Hin, dget_mid by exact Hk. rewrite shape_eqb_refl. cbn [negb]. cbv zeta.
    apply IH with (pre := pre ++ [(n, Some (sh, Some r))]).
    + simpl. rewrite Hin, <- app_assoc. reflexivity.
    + rewrite <- app_assoc. exact HN.
Qed.

Lemma custom_accepts fuel w body args w' : op_inv w ->
  custom fuel w body args = (w', None) <->
  exists w1 h outs, define fuel w body = (w1, None) /\ args_fit args (c_in (w_op w1)) /\
    seq_calls custom_arg w1 (combine args (dkeys (c_in (w_op w1)))) =
      (with_deps w1 h (c_deps (w_op w1) ++ arg_ids args), None) /\
    outs_of (c_out (w_op w1)) outs /\
    w' = with_outs (with_deps w1 h (c_deps (w_op w1) ++ arg_ids args)) outs.
Proof.
  intros Hi. split.
  - intros H. unfold custom in H. destruct (define fuel w body) as [w1 [e|]] eqn:Ed; [discriminate|].
    destruct (Nat.eqb_spec (length args) (length (c_in (w_op w1)))) as [EL|]; [|discriminate].
    cbn [negb] in H. destruct (seq_calls custom_arg w1 _) as [w2 [e|]] eqn:Es; [discriminate|].
    destruct (@define_inv _ _ _ _ Hi Ed) as (N1 & N2 & C1 & C2).
    destruct (@args_loop_ok args [] (c_in (w_op w1)) w1 eq_refl N1 EL w2 Es) as (Hf & h & ->).
    simpl in H. destruct (make_outs_ok C2) as (o & Eo & Ho). rewrite Eo in H. injection H as <-.
    exists w1, h, o. auto.
  - intros (w1 & h & outs & Ed & Hf & Es & Ho & ->). unfold custom. rewrite Ed.
    rewrite (args_fit_length Hf), Nat.eqb_refl. cbn [negb]. rewrite Es. cbn [c_out with_deps w_op].
    destruct (@define_inv _ _ _ _ Hi Ed) as (_ & _ & _ & C2).
    destruct (make_outs_ok C2) as (o & Eo & Ho'). rewrite Eo.
    assert (outs = o) as ->; [|reflexivity].
    clear -Ho Ho'. revert o Ho'. induction Ho; intros o' Ho'; inversion Ho'; subst; [reflexivity|].
    f_equal; auto.
Qed.

(** *** Using the same operation object again *)
Lemma define_grows fuel body : forall w w' k, define fuel w body = (w', None) ->
  In k (dkeys (c_in (w_op w))) -> In k (dkeys (c_in (w_op w'))).
Proof.
  intros w w' k H Hk. revert H. unfold define.
  apply (@seq_calls_ok_inv _ (fun w => In k (dkeys (c_in (w_op w))))); [|exact Hk].
  intros w1 c w2 _ Hp E. destruct c as [n sh v|n sh v|a b]; simpl in E.
  - unfold add_input in E. destruct (dmem n _); [discriminate|].
    destruct (shape_val _ sh v) as [[[h s] r]|e]; [|discriminate]. injection E as <-. simpl.
    apply In_dkeys_dset; auto.
  - unfold add_output in E. destruct (dmem n _); [discriminate|].
    destruct (shape_val _ sh v) as [[[h s] r]|e]; [|discriminate]. injection E as <-. exact Hp.
  - apply dd_frame_ok in E. destruct E as [l ->]. exact Hp.
Qed.

Lemma define_adds fuel body n sh v : In (AddInput n sh v) body ->
  forall w w', define fuel w body = (w', None) ->
  ~ In n (dkeys (c_in (w_op w))) /\ In n (dkeys (c_in (w_op w'))).
Proof.
  intros Hb. apply in_split in Hb. destruct Hb as (b1 & b2 & ->).
  intros w w' H. unfold define in H. rewrite seq_calls_app in H.
  destruct (seq_calls (ccexec fuel) w b1) as [w1 [e|]] eqn:E1; [discriminate|].
  cbn [seq_calls ccexec] in H. unfold add_input in H.
  destruct (dmem n (c_in (w_op w1))) eqn:Em; [discriminate|].
  destruct (shape_val (w_heap w1) sh v) as [[[h s] r]|e]; [|discriminate].
  split.
  - intros Hn. apply dmem_false in Em. apply Em.
    apply (@define_grows fuel b1 w w1 n E1 Hn).
  - apply (@define_grows fuel b2 _ _ n H). simpl. apply In_dkeys_dset; auto.
Qed.

(** *** Values *)
Definition in_refs (d : dict cmeta) : list ref :=
  flat_map (fun e => match snd e with Some (_, Some r) => [r] | _ => [] end) d.

(** After define with plain values the inputs own fresh arrays of their shapes. *)
Definition fresh_inputs (hp : heap) (w : world) : Prop :=
  (exists ext, w_heap w = hp ++ ext) /\ good_heap (w_heap w) /\
  NoDup (in_refs (c_in (w_op w))) /\
  (forall n sh r, In (n, Some (sh, Some r)) (c_in (w_op w)) ->
     length hp <= r < length (w_heap w) /\ a_shape (hget (w_heap w) r) = sh).

Lemma in_refs_app a b : in_refs (a ++ b) = in_refs a ++ in_refs b.
Proof. apply flat_map_app. Qed.

Lemma in_refs_In d r : In r (in_refs d) <-> exists n sh, In (n, Some (sh, Some r)) d.
Proof.
  unfold in_refs. rewrite in_flat_map. split.
  - intros ([n [[sh [r'|]]|]] & H1 & H2); simpl in H2; try contradiction.
    destruct H2 as [->|[]]. eauto.
  - intros (n & sh & H). exists (n, Some (sh, Some r)). split; [exact H|left; reflexivity].
Qed.

Lemma dset_fresh {V} (d : dict V) k v : dmem k d = false -> dset d k v = d ++ [(k, v)].
Proof.
  induction d as [|[a b] d IH]; simpl; intros H; [reflexivity|].
  unfold dmem in H; simpl in H. apply orb_false_iff in H. destruct H as [H1 H2].
  rewrite H1, IH by exact H2. reflexivity.
Qed.

Lemma good_app h a : good_heap h -> good_arr a -> good_heap (h ++ [a]).
Proof. intros H Ha. unfold good_heap. apply Forall_app. split; [exact H|constructor; [exact Ha|constructor]]. Qed.

(** What shape_val gives for plain values. *)
Lemma shape_val_plain h sh v h' s r :
  match v with CNum _ => True | CList a => good_arr a | _ => False end ->
  shape_val h sh v = Ok (h', s, r) ->
  exists a, h' = h ++ [a] /\ good_arr a /\ r = Some (length h) /\ a_shape a = s.
Proof.
  intros Hv H. destruct v as [z|a|r0|]; try contradiction; unfold shape_val in H.
  - rewrite hget_app_new in H. exists (full sh z). destruct (shape_eqb sh [1]).
    + injection H as <- <- <-. repeat split. apply good_full.
    + destruct (shape_eqb _ sh) eqn:E; [|discriminate]. apply shape_eqb_spec in E.
      injection H as <- <- <-. repeat split. apply good_full.
  - rewrite hget_app_new in H. exists a. destruct (shape_eqb sh [1]).
    + injection H as <- <- <-. repeat split. exact Hv.
    + destruct (shape_eqb _ sh) eqn:E; [|discriminate]. apply shape_eqb_spec in E.
      injection H as <- <- <-. repeat split; [exact Hv|exact E].
Qed.

Lemma shape_val_ext h sh v h' s r :
  match v with CList a => good_arr a | _ => True end -> good_heap h ->
  shape_val h sh v = Ok (h', s, r) -> good_heap h' /\ exists ext, h' = h ++ ext.
Proof.
  intros Hv Hg H. destruct v as [z|a|r0|]; unfold shape_val in H.
  - destruct (shape_eqb sh [1]); [|destruct (shape_eqb _ sh); [|discriminate]];
      injection H as <- <- <-; (split; [apply good_app; [exact Hg|apply good_full]|eexists; reflexivity]).
  - destruct (shape_eqb sh [1]); [|destruct (shape_eqb _ sh); [|discriminate]];
      injection H as <- <- <-; (split; [apply good_app; assumption|eexists; reflexivity]).
  - destruct (shape_eqb sh [1]); [|destruct (shape_eqb _ sh); [|discriminate]];
      injection H as <- <- <-; (split; [exact Hg|exists []; rewrite app_nil_r; reflexivity]).
  - injection H as <- <- <-. split; [exact Hg|exists []; rewrite app_nil_r; reflexivity].
Qed.

Lemma fresh_step fuel hp w c w' :
  match c with
  | AddInput _ _ v => match v with CNum _ => True | CList a => good_arr a | _ => False end
  | AddOutput _ _ (CList a) => good_arr a
  | _ => True
  end ->
  fresh_inputs hp w -> ccexec fuel w c = (w', None) -> fresh_inputs hp w'.
Proof.
  intros Hv (He & Hg & HN & Hin) H. destruct He as [ext He].
  destruct c as [n sh v|n sh v|a b]; simpl in H.
  - unfold add_input in H. destruct (dmem n _) eqn:Em; [discriminate|].
    destruct (shape_val _ sh v) as [[[h s] r]|e] eqn:Es; [|discriminate]. injection H as <-.
    destruct (shape_val_plain _ _ _ Hv Es) as (a & -> & Ga & -> & Sa).
    unfold fresh_inputs; simpl. rewrite dset_fresh by exact Em.
    assert (Hlen : length hp <= length (w_heap w)) by (rewrite He, app_length; lia).
    split; [exists (ext ++ [a]); rewrite He, <- app_assoc; reflexivity|].
    split; [apply good_app; assumption|]. split.
    + rewrite in_refs_app. simpl. apply NoDup_app_single; [exact HN|].
      intros Hr. apply in_refs_In in Hr. destruct Hr as (n' & sh' & Hr). apply Hin in Hr. lia.
    + intros n' sh' r' H'. apply in_app_or in H'. destruct H' as [H'|[H'|[]]].
      * destruct (Hin _ _ _ H') as [H1 H2]. rewrite app_length; simpl. split; [lia|].
        rewrite hget_app_l by lia. exact H2.
      * injection H' as <- <- <-. rewrite app_length; simpl. split; [lia|]. rewrite hget_app_new. exact Sa.
  - unfold add_output in H. destruct (dmem n _) eqn:Em; [discriminate|].
    destruct (shape_val _ sh v) as [[[h s] r]|e] eqn:Es; [|discriminate]. injection H as <-.
    assert (Hv' : match v with CList a => good_arr a | _ => True end) by (destruct v; auto).
    destruct (shape_val_ext _ _ Hv' Hg Es) as (Hg' & ext' & ->).
    unfold fresh_inputs; simpl. split; [exists (ext ++ ext'); rewrite He, <- app_assoc; reflexivity|].
    split; [exact Hg'|]. split; [exact HN|].
    intros n' sh' r' H'. destruct (Hin _ _ _ H') as [H1 H2]. rewrite app_length. split; [lia|].
    rewrite hget_app_l by lia. exact H2.
  - apply dd_frame_ok in H. destruct H as [l ->]. unfold fresh_inputs; simpl.
    repeat split; auto; try (eexists; exact He); apply Hin in H; tauto.
Qed.

Lemma define_fresh fuel hp body w' : good_heap hp -> plain_values body ->
  define fuel {| w_heap := hp; w_op := cop_new |} body = (w', None) -> fresh_inputs hp w'.
Proof.
  intros Hg Hp. unfold define. apply seq_calls_ok_inv.
  - intros w1 c w2 Hc Hf E. eapply fresh_step; [|exact Hf|exact E].
    unfold plain_values in Hp. rewrite Forall_forall in Hp. specialize (Hp c Hc).
    destruct c as [? ? v|? ? v|]; auto.
  - unfold fresh_inputs; simpl. split; [exists []; rewrite app_nil_r; reflexivity|].
    split; [exact Hg|]. split; [constructor|]. intros n sh r [].
Qed.

(** The argument loop copies the values of the arguments and touches nothing else. *)
Lemma args_loop_values hp args suf : args_fit args suf ->
  forall pre w w', c_in (w_op w) = pre ++ suf -> NoDup (dkeys (pre ++ suf)) ->
  length hp <= length (w_heap w) -> (forall r, r < length hp -> hget (w_heap w) r = hget hp r) ->
  good_heap (w_heap w) -> NoDup (in_refs (c_in (w_op w))) ->
  (forall n sh r, In (n, Some (sh, Some r)) (c_in (w_op w)) ->
     length hp <= r < length (w_heap w) /\ a_shape (hget (w_heap w) r) = sh) ->
  args_in_heap hp args ->
  seq_calls custom_arg w (combine args (dkeys suf)) = (w', None) ->
  (forall r, ~ In r (in_refs suf) -> hget (w_heap w') r = hget (w_heap w) r) /\
  Forall2 (fun a e => match a, snd e with
                      | AVar _ _ sh v, Some (_, Some r) => hget (w_heap w') r = arg_value hp sh v
                      | _, _ => False
                      end) args suf.
Proof.
  induction 1 as [|id n sh v r args suf Hf IH];
    intros pre w w' Hin HN HL Hold Hg HNr Hshape Hargs H.
  - simpl in H. injection H as <-. split; [reflexivity|constructor].
  - assert (Hk : ~ In n (dkeys pre)).
    { unfold dkeys in HN. rewrite map_app in HN. apply NoDup_app_iff in HN.
      destruct HN as (_ & _ & HN). intros Hk. eapply HN; [exact Hk|left; reflexivity]. }
    cbn [dkeys map combine seq_calls fst] in H. unfold custom_arg at 1 in H.
    rewrite String.eqb_refl in H. cbn [negb] in H.
    rewrite Hin, dget_mid in H by exact Hk. rewrite shape_eqb_refl in H. cbn [negb] in H. cbv zeta in H.
    inversion Hargs as [|? ? Ha Hargs']; subst.
    assert (Hr : length hp <= r < length (w_heap w) /\ a_shape (hget (w_heap w) r) = sh).
    { apply Hshape with (n := n). rewrite Hin. apply in_or_app; right; left; reflexivity. }
    destruct Hr as [Hr Hsr].
    destruct (@refresh_spec (w_heap w) r v sh) as (RL & RD & RO & RG); try tauto.
    { destruct v as [s|]; [|exact I]. destruct Ha as [Ha1 Ha2]. repeat split; try lia.
      rewrite Hold by exact Ha1. exact Ha2. }
    set (w1 := with_deps w (refresh (w_heap w) r v sh) (c_deps (w_op w) ++ [id])) in *.
    assert (Hin1 : c_in (w_op w1) = pre ++ (n, Some (sh, Some r)) :: suf) by exact Hin.
    assert (HNr' : NoDup (in_refs pre ++ r :: in_refs suf)).
    { rewrite Hin, in_refs_app in HNr. exact HNr. }
    assert (Hrs : ~ In r (in_refs suf)).
    { apply NoDup_app_iff in HNr'. destruct HNr' as (_ & HNr' & _). inversion HNr'; assumption. }
    destruct (IH (pre ++ [(n, Some (sh, Some r))]) w1 w') as [I1 I2].
    + rewrite <- app_assoc. exact Hin1.
    + rewrite <- app_assoc. exact HN.
    + simpl. rewrite RL. exact HL.
    + intros q Hq. simpl. rewrite RO by lia. apply Hold; exact Hq.
    + exact RG.
    + exact HNr.
    + intros n' sh' r' H'. simpl in H' |- *. rewrite RL. destruct (Hshape _ _ _ H') as [Q1 Q2].
      split; [exact Q1|]. destruct (Nat.eq_dec r' r) as [->|Hne]; [|rewrite RO by exact Hne; exact Q2].
      rewrite RD. unfold arg_value. rewrite <- Q2, Hsr.
      destruct v as [s|]; [|reflexivity]. rewrite Hold by tauto. tauto.
    + exact Hargs'.
    + exact H.
    + split.
      * intros q Hq. simpl in Hq. rewrite I1 by tauto. simpl. apply RO. intros ->; tauto.
      * constructor; [|exact I2]. simpl. rewrite (I1 r Hrs). simpl. rewrite RD.
        destruct v as [s|]; [|reflexivity]. simpl. apply Hold. tauto.
Qed.
