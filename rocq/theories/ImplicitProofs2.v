(** The maps recorded for an implicit operation. *)
From Verif Require Import PyBase NamesModel PromotionsModel PromotionsProofs ExprModel ApiModel ImplicitModel ImplicitSpec ImplicitProofs.

Lemma dupb_false l : dupb l = false <-> NoDup l.
Proof.
  induction l as [|x r IH]; cbn; [split; [constructor|reflexivity]|]. rewrite orb_false_iff, IH, smem_false.
  split; [intros []; now constructor|inversion 1; auto].
Qed.
Lemma dset_new {V} (d : dict V) k v : ~ In k (dkeys d) -> dset d k v = d ++ [(k, v)].
Proof.
  induction d as [|[k' v'] r IH]; cbn; intros H; [reflexivity|].
  destruct (String.eqb_spec k k') as [->|Ne]; [tauto|]. rewrite IH; [reflexivity|tauto].
Qed.
Lemma dget_app_l {V} (d e : dict V) k v : dget d k = Some v -> dget (d ++ e) k = Some v.
Proof. induction d as [|[k' v'] r IH]; cbn; [discriminate|]. destruct (String.eqb k k'); auto. Qed.
Lemma dget_In_nodup {V} (d : dict V) k v : NoDup (dkeys d) -> In (k, v) d -> dget d k = Some v.
Proof.
  induction d as [|[k' v'] r IH]; cbn; [intros _ []|]. intros ND [E|H].
  - injection E as -> ->. now rewrite String.eqb_refl.
  - inversion ND; subst. destruct (String.eqb_spec k k') as [->|Ne]; [|auto]. exfalso. apply H2. apply (in_map fst) in H. exact H.
Qed.

Section Maps.
  Context (m : imodel).
  Notation h := (im_heap m). Notation nm := (name_of h).

  Lemma by_name_snoc vs v : by_name m (vs ++ [v]) = dset (by_name m vs) (nm v) v.
  Proof. unfold by_name, dict_of, dupdate. now rewrite map_app, fold_left_app. Qed.
  Lemma by_name_get vs n v : dget (by_name m vs) n = Some v <-> last_named m vs n v.
  Proof.
    induction vs as [|w vs IH] using rev_ind.
    - cbn. split; [discriminate|]. intros (a & b & E & _). destruct a; discriminate.
    - rewrite by_name_snoc. destruct (string_dec n (nm w)) as [->|Ne].
      + rewrite dget_dset_same. split.
        * intros E. injection E as <-. exists vs, []. split; [reflexivity|]. split; [reflexivity|]. intros ? [].
        * intros (a & b & E & Hv & Hb). destruct b as [|x b _] using rev_ind; [apply app_inj_tail in E as [_ ->]; reflexivity|].
          rewrite app_comm_cons, app_assoc in E. apply app_inj_tail in E as [_ <-]. exfalso. apply (Hb w); [apply in_app_iff; right; now left|reflexivity].
      + rewrite dget_dset_other by exact Ne. rewrite IH. split.
        * intros (a & b & -> & Hv & Hb). exists a, (b ++ [w]). rewrite <- app_assoc. split; [reflexivity|]. split; [exact Hv|].
          intros x Hx. apply in_app_iff in Hx as [Hx|[<-|[]]]; [auto|congruence].
        * intros (a & b & E & Hv & Hb). destruct b as [|x b _] using rev_ind; [apply app_inj_tail in E as [_ ->]; congruence|].
          rewrite app_comm_cons, app_assoc in E. apply app_inj_tail in E as [-> ->]. exists a, b. split; [reflexivity|]. split; [exact Hv|].
          intros y Hy. apply Hb. apply in_app_iff. now left.
  Qed.
  Lemma by_name_mem vs n : dmem n (by_name m vs) = true <-> exists v, last_named m vs n v.
  Proof.
    rewrite dmem_spec. split.
    - intros H. apply In_key_dget in H as [v H]. exists v. now apply by_name_get.
    - intros [v H]. apply by_name_get in H. eapply dget_Some_key; exact H.
  Qed.
  Lemma last_named_fun vs n v w : last_named m vs n v -> last_named m vs n w -> v = w.
  Proof. rewrite <- !by_name_get. congruence. Qed.

  Lemma check_arguments_spec args : check_arguments m (by_name m (im_decls m)) args = Ok tt <->
    forall n s, In (n, s) args -> exists d, declared m n d /\ im_shape m d = s.
  Proof.
    induction args as [|[n s] r IH]; cbn [check_arguments]; [split; [intros _ ? ? []|reflexivity]|].
    destruct (dget (by_name m (im_decls m)) n) as [v|] eqn:E.
    - apply by_name_get in E. destruct (shape_eqb s (im_shape m v)) eqn:S.
      + apply shape_eqb_spec in S. rewrite IH. split.
        * intros H n' s' [K|K]; [injection K as <- <-; exists v; auto|auto].
        * intros H n' s' K. apply H. now right.
      + split; [discriminate|]. intros H. destruct (H n s (or_introl eq_refl)) as (d & Hd & Hs).
        rewrite (last_named_fun _ _ _ _ Hd E) in Hs. rewrite Hs, (proj2 (shape_eqb_spec s s) eq_refl) in S. discriminate.
    - split; [discriminate|]. intros H. destruct (H n s (or_introl eq_refl)) as (d & Hd & Hs). apply by_name_get in Hd. congruence.
  Qed.
  Lemma check_arguments_err dm args e : check_arguments m dm args = Err e -> e = ValueError.
  Proof.
    induction args as [|[n s] r IH]; cbn [check_arguments]; [discriminate|]. destruct (dget dm n); [|congruence].
    destruct (shape_eqb s (im_shape m n0)); [exact IH|congruence].
  Qed.
  Lemma all_known_spec vs names : all_known (by_name m vs) names = true <-> forall n, In n names -> exists v, last_named m vs n v.
  Proof.
    unfold all_known. rewrite forallb_forall. split; intros H n Hn; specialize (H n Hn); [now apply by_name_mem|now apply by_name_mem].
  Qed.

  Definition paired (srs : list (string * string)) : Prop :=
    forall s r, In (s, r) srs -> exists sv rv, declared m s sv /\ registered m r rv /\ im_shape m rv = im_shape m sv.
  Notation dm := (by_name m (im_decls m)). Notation rm := (by_name m (im_regs m)).
  Lemma pair_maps_spec srs : forall a0 b0 a b, pair_maps m dm rm srs (a0, b0) = Ok (a, b) ->
    NoDup (dkeys a0 ++ map fst srs) -> NoDup (dkeys b0 ++ map snd srs) ->
    paired srs /\ exists a1 b1, a = a0 ++ a1 /\ b = b0 ++ b1 /\ map fst a1 = map fst srs /\ map fst b1 = map snd srs /\
      (forall s r, In (s, r) srs -> forall sv rv, declared m s sv -> registered m r rv -> In (s, rv) a1 /\ In (r, sv) b1) /\
      (forall s rv, In (s, rv) a1 -> exists r, In (s, r) srs /\ registered m r rv).
  Proof.
    induction srs as [|[s r] srs IH]; intros a0 b0 a b H NA NB; cbn [pair_maps] in H.
    - injection H as <- <-. split; [intros ? ? []|]. exists [], []. rewrite !app_nil_r. repeat split; intros; contradiction.
    - destruct (dget rm r) as [rv|] eqn:R; [|discriminate]. destruct (dget dm s) as [sv|] eqn:S; [|discriminate].
      apply by_name_get in R, S. destruct (shape_eqb (im_shape m rv) (im_shape m sv)) eqn:E; [|discriminate]. apply shape_eqb_spec in E.
      cbn [map fst snd] in NA, NB. cbn [fst snd] in H.
      rewrite !dset_new in H; cycle 1.
      { intros K. apply NoDup_remove_2 in NB. apply NB, in_app_iff. now left. }
      { intros K. apply NoDup_remove_2 in NA. apply NA, in_app_iff. now left. }
      apply IH in H; cycle 1.
      { unfold dkeys. rewrite map_app, <- app_assoc. exact NA. }
      { unfold dkeys. rewrite map_app, <- app_assoc. exact NB. }
      destruct H as (P & a1 & b1 & -> & -> & K1 & K2 & K3 & K4). split.
      + intros s' r' [E'|H']; [injection E' as <- <-; exists sv, rv; auto|auto].
      + exists ((s, rv) :: a1), ((r, sv) :: b1). rewrite <- !app_assoc. split; [reflexivity|]. split; [reflexivity|].
        cbn [map fst snd]. split; [now rewrite K1|]. split; [now rewrite K2|]. split.
        * intros s' r' [E'|H'] sv' rv' Hs Hr.
          { injection E' as <- <-. rewrite (last_named_fun _ _ _ _ Hs S), (last_named_fun _ _ _ _ Hr R). split; now left. }
          { destruct (K3 s' r' H' sv' rv' Hs Hr). split; now right. }
        * intros s' rv' [E'|H']; [injection E' as <- <-; exists r; split; [now left|exact R]|].
          destruct (K4 s' rv' H') as (r' & ? & ?). exists r'. split; [now right|assumption].
  Qed.
  Lemma pair_maps_accept srs : forall acc, paired srs -> exists p, pair_maps m dm rm srs acc = Ok p.
  Proof.
    induction srs as [|[s r] srs IH]; intros acc P; cbn [pair_maps]; [eauto|].
    destruct (P s r (or_introl eq_refl)) as (sv & rv & S & R & E). apply by_name_get in S, R. rewrite R, S.
    rewrite (proj2 (shape_eqb_spec _ _) E). apply IH. intros s' r' H. apply P. now right.
  Qed.
  Lemma pair_maps_err srs : forall acc e, (forall s r, In (s, r) srs -> (exists v, declared m s v) /\ exists v, registered m r v) ->
    pair_maps m dm rm srs acc = Err e -> e = ValueError.
  Proof.
    induction srs as [|[s r] srs IH]; intros acc e P; cbn [pair_maps]; [discriminate|].
    destruct (P s r (or_introl eq_refl)) as ((sv & S) & (rv & R)). apply by_name_get in S, R. rewrite R, S.
    destruct (shape_eqb _ _); [apply IH; intros s' r' H; apply P; now right|congruence].
  Qed.

  Definition kept (known : list string) (r : nat) (l : list nat) : Prop :=
    forall v, In v l <-> inputs_of h r v /\ In (nm v) known.
  Lemma kept_filter known r ts : (forall v, In v ts <-> inputs_of h r v) -> kept known r (filter (fun v => smem (nm v) known) ts).
  Proof. intros H v. rewrite filter_In, H, smem_spec. reflexivity. Qed.
  Lemma input_map_spec known ors : forall acc oi, input_map m known ors acc = Ok oi -> NoDup (dkeys acc ++ map fst ors) ->
    exists l, oi = acc ++ l /\ map fst l = map fst ors /\
      forall s r, In (s, r) ors -> (exists v, inputs_of h r v /\ nm v = s) /\ exists k, In (s, k) l /\ kept known r k.
  Proof.
    induction ors as [|[s r] ors IH]; intros acc oi H ND; cbn [input_map] in H.
    - injection H as <-. exists []. rewrite app_nil_r. repeat split; contradiction.
    - destruct (terminals_exact h r) as (ts & C & _ & T). rewrite C in H.
      destruct (smem s (map nm ts)) eqn:M; [|discriminate]. cbn [map fst] in ND.
      rewrite dset_new in H by (intros K; apply NoDup_remove_2 in ND; apply ND, in_app_iff; now left).
      apply IH in H; [|unfold dkeys; rewrite map_app, <- app_assoc; exact ND].
      destruct H as (l & -> & K1 & K2). eexists. rewrite <- app_assoc. split; [reflexivity|]. cbn [app map fst]. split; [now rewrite K1|].
      intros s' r' [E|H'].
      + injection E as <- <-. split.
        * apply smem_spec, in_map_iff in M as (v & Hv & Hin). exists v. split; [now apply T|exact Hv].
        * eexists. split; [now left|]. now apply kept_filter.
      + destruct (K2 s' r' H') as (D & k & Hk & Kk). split; [exact D|]. exists k. split; [now right|exact Kk].
  Qed.
  Lemma input_map_accept known ors : forall acc, (forall s r, In (s, r) ors -> exists v, inputs_of h r v /\ nm v = s) ->
    exists oi, input_map m known ors acc = Ok oi.
  Proof.
    induction ors as [|[s r] ors IH]; intros acc H; cbn [input_map]; [eauto|].
    destruct (terminals_exact h r) as (ts & C & _ & T). rewrite C. destruct (H s r (or_introl eq_refl)) as (v & I & N).
    assert (M : smem s (map nm ts) = true) by (apply smem_spec, in_map_iff; exists v; split; [exact N|now apply T]).
    rewrite M. apply IH. intros s' r' H'. apply H. now right.
  Qed.
  Lemma input_map_err known ors : forall acc e, input_map m known ors acc = Err e -> e = ValueError.
  Proof.
    induction ors as [|[s r] ors IH]; intros acc e; cbn [input_map]; [discriminate|].
    destruct (terminals_exact h r) as (ts & C & _ & T). rewrite C. destruct (smem s (map nm ts)); [apply IH|congruence].
  Qed.
  Lemma exposed_map_ok known expose : forall acc, (forall e, In e expose -> exists v, registered m e v) ->
    exists ei, exposed_map m known rm expose acc = Ok ei /\
      (forall e v, In e expose -> registered m e v -> exists l, dget ei e = Some l /\ kept known v l) /\
      (forall e, ~ In e expose -> dget ei e = dget acc e).
  Proof.
    induction expose as [|e expose IH]; intros acc H; cbn [exposed_map].
    - exists acc. repeat split; contradiction.
    - destruct (H e (or_introl eq_refl)) as (v & R). pose proof R as R'. apply by_name_get in R'. rewrite R'.
      destruct (terminals_exact h v) as (ts & C & _ & T). rewrite C.
      destruct (IH (dset acc e (filter (fun v => smem (nm v) known) ts))) as (ei & E & K1 & K2); [intros e' H'; apply H; now right|].
      exists ei. split; [exact E|]. split.
      + intros e' v' He' Rv'. destruct (in_dec string_dec e' expose) as [Hin|Hn]; [exact (K1 e' v' Hin Rv')|].
        destruct He' as [<-|]; [|contradiction]. rewrite (K2 e Hn), dget_dset_same. eexists. split; [reflexivity|].
        rewrite (last_named_fun _ _ _ _ Rv' R). now apply kept_filter.
      + intros e' Hn. rewrite K2 by (intros K; apply Hn; now right). apply dget_dset_other. intros ->. apply Hn. now left.
  Qed.

  Context (args : list (string * shape)) (states residuals expose : list string).

  Lemma In_combine_nth {A B} (l : list A) (k : list B) a b : In (a, b) (combine l k) <-> exists i, nth_error l i = Some a /\ nth_error k i = Some b.
  Proof.
    revert k. induction l as [|x l IH]; intros [|y k]; cbn; try (split; [intros []|intros (i & Hi & Hk); destruct i; discriminate]).
    rewrite IH. split.
    - intros [E|(i & Hi & Hk)]; [injection E as <- <-; exists 0; auto|exists (S i); auto].
    - intros ([|i] & Hi & Hk); cbn in *; [left; congruence|right; eauto].
  Qed.
  Lemma map_fst_combine {A B} (l : list A) (k : list B) : length l = length k -> map fst (combine l k) = l.
  Proof. revert k. induction l as [|x l IH]; intros [|y k] E; cbn in *; try discriminate; [reflexivity|]. now rewrite IH by congruence. Qed.
  Lemma map_snd_combine {A B} (l : list A) (k : list B) : length l = length k -> map snd (combine l k) = k.
  Proof. revert k. induction l as [|x l IH]; intros [|y k] E; cbn in *; try discriminate; [reflexivity|]. now rewrite IH by congruence. Qed.

  Lemma generate_maps_Ok mp : generate_maps m args states residuals expose = Ok mp ->
    acceptable m args states residuals expose /\ recorded m args states residuals expose mp.
  Proof.
    unfold generate_maps. intros H.
    apply raise_if_Ok in H as [H1 H]. apply raise_if_Ok in H as [H2 H]. apply raise_if_Ok in H as [H3 H]. apply raise_if_Ok in H as [H4 H]. apply raise_if_Ok in H as [H5 H].
    apply negb_false_iff, Nat.eqb_eq in H1, H5. apply dupb_false in H2, H3, H4.
    destruct (check_arguments m dm args) as [[]|] eqn:CA; [|discriminate]. cbn [bind] in H. pose proof (proj1 (check_arguments_spec args) CA) as CA'. clear CA.
    apply raise_if_Ok in H as [H6 H]. apply raise_if_Ok in H as [H7 H]. apply raise_if_Ok in H as [H8 H].
    apply negb_false_iff in H6, H7, H8. rewrite all_known_spec in H6, H7, H8.
    destruct (pair_maps m dm rm (combine states residuals) ([], [])) as [[a b]|] eqn:PM; [|discriminate]. cbn [bind fst snd] in H.
    apply pair_maps_spec in PM; [|cbn; now rewrite map_fst_combine|cbn; now rewrite map_snd_combine].
    destruct PM as (P & a1 & b1 & -> & -> & K1 & K2 & K3 & K4). cbn [app] in H.
    rewrite map_fst_combine in K1 by exact H5. rewrite map_snd_combine in K2 by exact H5.
    destruct (input_map m (map fst args ++ states) a1 []) as [oi|] eqn:IM; [|discriminate]. cbn [bind] in H.
    apply input_map_spec in IM; [|cbn; now rewrite K1]. destruct IM as (l & -> & L1 & L2). cbn [app] in H.
    destruct (exposed_map_ok (map fst args ++ states) expose [] H8) as (ei & E & X1 & X2). rewrite E in H. cbn [bind] in H. injection H as <-.
    assert (SP : forall s r sv rv, state_pair m states residuals s r sv rv -> In (s, r) (combine states residuals) /\ declared m s sv /\ registered m r rv).
    { intros s r sv rv (k & Hs & Hr & D & R). split; [apply In_combine_nth; eauto|auto]. }
    split; constructor; cbn [out_res res_out out_in exp_in exposed_residuals].
    - destruct (im_inputs m); [reflexivity|discriminate].
    - exact H2.
    - exact H3.
    - exact H4.
    - exact H5.
    - exact CA'.
    - exact H6.
    - exact H7.
    - exact H8.
    - intros s r sv rv Hsp. apply SP in Hsp as (Hin & D & R). destruct (P s r Hin) as (sv' & rv' & D' & R' & Sh).
      now rewrite (last_named_fun _ _ _ _ D D'), (last_named_fun _ _ _ _ R R').
    - intros s r sv rv Hsp. apply SP in Hsp as (Hin & D & R). destruct (K3 s r Hin sv rv D R) as [Ia _]. exact (proj1 (L2 s rv Ia)).
    - exact K1.
    - exact K2.
    - intros s r sv rv Hsp. apply SP in Hsp as (Hin & D & R). destruct (K3 s r Hin sv rv D R) as [Ia Ib].
      split; apply dget_In_nodup; try assumption; [unfold dkeys; now rewrite K1|unfold dkeys; now rewrite K2].
    - unfold dkeys. now rewrite L1.
    - intros s r sv rv Hsp. apply SP in Hsp as (Hin & D & R). destruct (K3 s r Hin sv rv D R) as [Ia _].
      destruct (L2 s rv Ia) as (_ & k & Hk & Kk). exists k. split; [apply dget_In_nodup; [unfold dkeys; now rewrite L1, K1|exact Hk]|].
      intros v. rewrite (Kk v), in_app_iff. reflexivity.
    - intros e v He R. destruct (X1 e v He R) as (l' & G & Kl). exists l'. split; [exact G|]. intros u. rewrite (Kl u), in_app_iff. reflexivity.
    - intros e. rewrite filter_In, smem_spec. reflexivity.
  Qed.

  Lemma generate_maps_accept : acceptable m args states residuals expose -> exists mp, generate_maps m args states residuals expose = Ok mp.
  Proof.
    intros [A1 A2 A3 A4 A5 A6 A7 A8 A9 A10 A11]. unfold generate_maps.
    rewrite A1. cbn [length Nat.eqb negb raise_if].
    rewrite (proj2 (dupb_false _) A2), (proj2 (dupb_false _) A3), (proj2 (dupb_false _) A4). cbn [raise_if].
    rewrite A5, Nat.eqb_refl. cbn [negb raise_if]. rewrite (proj2 (check_arguments_spec args) A6). cbn [bind].
    rewrite (proj2 (all_known_spec _ _) A7), (proj2 (all_known_spec _ _) A8), (proj2 (all_known_spec _ _) A9). cbn [negb raise_if].
    assert (P : paired (combine states residuals)).
    { intros s r H. pose proof H as H'. apply In_combine_nth in H' as (k & Hs & Hr).
      destruct (A7 s (nth_error_In _ _ Hs)) as [sv D]. destruct (A8 r (nth_error_In _ _ Hr)) as [rv R].
      exists sv, rv. split; [exact D|]. split; [exact R|]. apply (A10 s r). now exists k. }
    destruct (pair_maps_accept (combine states residuals) ([], []) P) as [[a b] PM]. rewrite PM. cbn [bind fst snd].
    apply pair_maps_spec in PM; [|cbn; now rewrite map_fst_combine|cbn; now rewrite map_snd_combine].
    destruct PM as (_ & a1 & b1 & -> & -> & K1 & K2 & K3 & K4).
    destruct (input_map_accept (map fst args ++ states) ([] ++ a1) []) as [oi IM].
    { intros s rv Hin. destruct (K4 s rv Hin) as (r & Hsr & R). pose proof Hsr as H'. apply In_combine_nth in H' as (k & Hs & Hr).
      destruct (A7 s (nth_error_In _ _ Hs)) as [sv D]. apply (A11 s r sv rv). now exists k. }
    rewrite IM. cbn [bind]. destruct (exposed_map_ok (map fst args ++ states) expose [] A9) as (ei & E & _). rewrite E. cbn [bind]. eauto.
  Qed.
  Lemma generate_maps_err e : generate_maps m args states residuals expose = Err e -> e = ValueError.
  Proof.
    unfold generate_maps, raise_if.
    destruct (negb (length (im_inputs m) =? 0)); [congruence|]. destruct (dupb (map fst args)); [congruence|]. destruct (dupb states); [congruence|].
    destruct (dupb residuals); [congruence|]. destruct (negb (length states =? length residuals)); [congruence|].
    destruct (check_arguments m dm args) eqn:CA; [|cbn; intros E; injection E as <-; exact (check_arguments_err _ _ _ CA)]. cbn [bind].
    destruct (all_known dm states) eqn:K1; [|cbn; congruence]. destruct (all_known rm residuals) eqn:K2; [|cbn; congruence]. destruct (all_known rm expose) eqn:K3; [|cbn; congruence]. cbn [negb].
    rewrite all_known_spec in K1, K2, K3.
    destruct (pair_maps m dm rm (combine states residuals) ([], [])) as [p|] eqn:PM; cycle 1.
    { cbn. intros E. injection E as <-. revert PM. apply pair_maps_err. intros s r H. split; [apply K1; eapply in_combine_l; exact H|apply K2; eapply in_combine_r; exact H]. }
    cbn [bind]. destruct (input_map m _ (fst p) []) as [oi|] eqn:IM; [|cbn; intros E; injection E as <-; exact (input_map_err _ _ _ _ IM)].
    cbn [bind]. destruct (exposed_map_ok (map fst args ++ states) expose [] K3) as (ei & E & _). rewrite E. discriminate.
  Qed.
End Maps.

(** ** What is returned *)
Lemma get_shape_num sh z sv : get_shape_val sh (VNum z) false = Ok sv -> fst sv = sh.
Proof.
  cbn. destruct (shape_eqb sh [1]) eqn:E1; [intros E; injection E as <-; cbn; reflexivity|].
  rewrite (proj2 (shape_eqb_spec sh sh) eq_refl). intros E; injection E as <-. reflexivity.
Qed.
Lemma get_shape_other sh v sv : sh <> [1] -> get_shape_val sh v false = Ok sv -> fst sv = sh.
Proof.
  intros Hn. assert (E1 : shape_eqb sh [1] = false). { destruct (shape_eqb sh [1]) eqn:E; [apply shape_eqb_spec in E; contradiction|reflexivity]. }
  unfold get_shape_val. destruct v as [z|a|a|]; rewrite ?E1.
  4: intros E; injection E as <-; reflexivity.
  all: destruct (shape_eqb _ sh); [|discriminate]; intros E; injection E as <-; reflexivity.
Qed.

Lemma check_brackets_spec states bs : forall w w', check_brackets states bs w = Ok w' ->
  (forall k v, In (k, v) bs -> In k states /\ exists a b, v = [a; b] /\ bound_shape a = bound_shape b) /\
  (forall s, In s w' <-> In s w /\ ~ In s (map fst bs)).
Proof.
  induction bs as [|[k v] r IH]; intros w w' H; cbn [check_brackets] in H.
  - injection H as <-. split; [intros ? ? []|]. intros s. cbn. tauto.
  - destruct (smem k states) eqn:M; [|discriminate]. cbn [negb] in H. apply smem_spec in M.
    destruct v as [|a [|b [|]]]; try discriminate. destruct (shape_eqb _ _) eqn:E; [|discriminate]. apply shape_eqb_spec in E.
    apply IH in H as [A B]. split.
    + intros k' v' [K|K]; [injection K as <- <-; split; [exact M|exists a, b; auto]|auto].
    + intros s. rewrite B, filter_In, negb_true_iff. cbn. split.
      * intros [[H1 H2] H3]. split; [exact H1|]. intros [->|K]; [rewrite String.eqb_refl in H2; discriminate|contradiction].
      * intros [H1 H2]. split; [split; [exact H1|]|tauto]. destruct (String.eqb_spec s k); [subst; tauto|reflexivity].
Qed.
Lemma brackets_complete states bs : brackets_ok states bs = Ok tt ->
  (forall s, In s states -> In s (map fst bs)) /\
  forall k v, In (k, v) bs -> In k states /\ exists a b, v = [a; b] /\ bound_shape a = bound_shape b.
Proof.
  unfold brackets_ok. intros H. destruct (check_brackets states bs states) as [w|] eqn:C; [|discriminate]. cbn in H.
  destruct w; [|discriminate]. apply check_brackets_spec in C as [A B]. split; [|exact A].
  intros s Hs. destruct (in_dec string_dec s (map fst bs)) as [K|K]; [exact K|]. exfalso. exact (proj2 (B s) (conj Hs K)).
Qed.
