From Verif Require Import PyBase PromotionsModel ApiModel CustomModel CustomSpec.
Set Implicit Arguments.
Open Scope list_scope.

Lemma pmem_spec p l : pmem p l = true <-> In p l.
Proof.
  induction l as [|q r IH]; simpl; [split; [discriminate|tauto]|].
  rewrite orb_true_iff, andb_true_iff, IH, !String.eqb_eq.
  destruct p, q; simpl. split; intros [H|H]; auto.
  - left. destruct H; congruence.
  - left. injection H; auto.
Qed.

Lemma pmem_false p l : pmem p l = false <-> ~ In p l.
Proof. rewrite <- pmem_spec. destruct (pmem p l); split; congruence. Qed.

Lemma seq_calls_app {A} (f : world -> A -> cres) l1 l2 w :
  seq_calls f w (l1 ++ l2) =
  match seq_calls f w l1 with (w', None) => seq_calls f w' l2 | (w', Some e) => (w', Some e) end.
Proof.
  revert w; induction l1 as [|a l1 IH]; intros w; simpl; [reflexivity|].
  destruct (f w a) as [w' [e|]]; [reflexivity|apply IH].
Qed.

Lemma seq_calls_map {A B} (f : world -> B -> cres) (g : A -> B) l w :
  seq_calls f w (map g l) = seq_calls (fun w a => f w (g a)) w l.
Proof.
  revert w; induction l as [|a l IH]; intros w; simpl; [reflexivity|].
  destruct (f w (g a)) as [w' [e|]]; [reflexivity|apply IH].
Qed.

Lemma seq_calls_ext {A} (f g : world -> A -> cres) l w :
  (forall w a, In a l -> f w a = g w a) -> seq_calls f w l = seq_calls g w l.
Proof.
  revert w; induction l as [|a l IH]; intros w H; simpl; [reflexivity|].
  rewrite H by (left; reflexivity). destruct (g w a) as [w' [e|]]; [reflexivity|].
  apply IH. intros; apply H; right; assumption.
Qed.

Lemma seq_calls_prod {A B} (f : world -> A * B -> cres) la lb w :
  seq_calls (fun w a => seq_calls (fun w b => f w (a, b)) w lb) w la = seq_calls f w (list_prod la lb).
Proof.
  revert w; induction la as [|a la IH]; intros w; simpl; [reflexivity|].
  rewrite seq_calls_app, seq_calls_map.
  destruct (seq_calls (fun w b => f w (a, b)) w lb) as [w' [e|]]; [reflexivity|apply IH].
Qed.

Lemma seq_calls_inv {A} (P : world -> Prop) (f : world -> A -> cres) l w :
  (forall w a, P w -> P (fst (f w a))) -> P w -> P (fst (seq_calls f w l)).
Proof.
  intros Hf; revert w; induction l as [|a l IH]; intros w H; simpl; [exact H|].
  pose proof (Hf w a H) as H1. destruct (f w a) as [w' [e|]]; simpl in *; auto.
Qed.

(** Recording one pair. *)
Definition rec1 (w : world) (p : string * string) : cres :=
  if pmem p (c_derivs (w_op w)) then (w, Some KeyError)
  else (with_derivs w (c_derivs (w_op w) ++ [p]), None).

Lemma dd_leaf k w a b : a <> "*"%string -> b <> "*"%string ->
  declare_derivatives (S k) w (DStr a) (DStr b) = rec1 w (a, b).
Proof.
  intros Ha Hb. simpl. apply String.eqb_neq in Ha, Hb. rewrite Ha, Hb. reflexivity.
Qed.

Lemma with_derivs_same w : with_derivs w (c_derivs (w_op w)) = w.
Proof. destruct w as [h []]; reflexivity. Qed.
Lemma with_derivs_twice w a b : with_derivs (with_derivs w a) b = with_derivs w b.
Proof. reflexivity. Qed.

Lemma record_all l : forall w, exists l1 l2, l = l1 ++ l2 /\
  fst (seq_calls rec1 w l) = with_derivs w (c_derivs (w_op w) ++ l1) /\
  ((snd (seq_calls rec1 w l) = None /\ l2 = []) \/
   (snd (seq_calls rec1 w l) = Some KeyError /\ exists p l3, l2 = p :: l3 /\ In p (c_derivs (w_op w) ++ l1))).
Proof.
  induction l as [|p l IH]; intros w; simpl.
  - exists [], []. rewrite !app_nil_r, with_derivs_same. auto.
  - unfold rec1 at 1 3 5. destruct (pmem p (c_derivs (w_op w))) eqn:E.
    + exists [], (p :: l). simpl. rewrite !app_nil_r, with_derivs_same. repeat split.
      right. split; [reflexivity|]. exists p, l. split; [reflexivity|]. apply pmem_spec; exact E.
    + simpl. destruct (IH (with_derivs w (c_derivs (w_op w) ++ [p]))) as (l1 & l2 & -> & H1 & H2).
      exists (p :: l1), l2. split; [reflexivity|]. rewrite H1. simpl in H2 |- *.
      rewrite with_derivs_twice, <- app_assoc. split; [reflexivity|].
      rewrite <- app_assoc in H2. exact H2.
Qed.

Lemma record_all_NoDup l : forall w, NoDup (c_derivs (w_op w)) ->
  (snd (seq_calls rec1 w l) = None <-> NoDup (c_derivs (w_op w) ++ l)).
Proof.
  induction l as [|p l IH]; intros w HN; simpl.
  - rewrite app_nil_r. tauto.
  - unfold rec1 at 1. destruct (pmem p (c_derivs (w_op w))) eqn:E.
    + apply pmem_spec in E. split; [discriminate|]. intros H. exfalso.
      apply NoDup_remove_2 in H. apply H. apply in_or_app; auto.
    + apply pmem_false in E. simpl. rewrite IH.
      * simpl. rewrite <- app_assoc. reflexivity.
      * simpl. apply NoDup_app_single; assumption.
Qed.

(** The arguments that ask for something, as lists without wildcards. *)
Lemma asks_no_star all a l : ~ In "*"%string all -> asks_for all a l -> forall x, In x l -> x <> "*"%string.
Proof.
  intros Hs H x Hx ->. destruct H as [|s Hs'|l Hl|l Hl]; auto.
  destruct Hx as [->|[]]; auto.
Qed.

Lemma asks_dlist all a l : asks_for all a l ->
  is_dother a = false /\
  (dlist a all = l \/ (dlist a all = [] /\ exists s, a = DStr s /\ s <> "*"%string /\ l = [s])).
Proof.
  intros H. destruct H as [|s Hs|l Hl|l Hl]; split; try reflexivity.
  - left. reflexivity.
  - right. simpl. split; [|eauto]. destruct (String.eqb_spec s "*"); [contradiction|reflexivity].
  - left. simpl. apply smem_spec in Hl. rewrite Hl. reflexivity.
  - left. simpl. apply smem_false in Hl. rewrite Hl. reflexivity.
Qed.

Lemma dd_string_dlist s all : s <> "*"%string -> dlist (DStr s) all = [].
Proof. intros H; simpl. destruct (String.eqb_spec s "*"); [contradiction|reflexivity]. Qed.

(** The call records exactly the pairs asked for, one after the other. *)
Lemma dd_records k w a b la lb :
  ~ In "*"%string (dkeys (c_out (w_op w))) -> ~ In "*"%string (dkeys (c_in (w_op w))) ->
  asks_for (dkeys (c_out (w_op w))) a la -> asks_for (dkeys (c_in (w_op w))) b lb ->
  la <> [] -> lb <> [] ->
  declare_derivatives (S (S k)) w a b = seq_calls rec1 w (pairs la lb).
Proof.
  intros So Si Ha Hb Na Nb.
  pose proof (asks_no_star So Ha) as Sa. pose proof (asks_no_star Si Hb) as Sb.
  destruct (asks_dlist Ha) as (Oa & Da). destruct (asks_dlist Hb) as (Ob & Db).
  unfold pairs. remember (S k) as f. cbn [declare_derivatives]. rewrite Oa, Ob. cbn [orb]. cbv zeta.
  destruct Da as [Da|(Da & s & -> & Hs & Ela)]; destruct Db as [Db|(Db & t & -> & Ht & Elb)];
    rewrite Da, Db.
  - destruct la as [|a0 la]; [congruence|]. destruct lb as [|b0 lb]; [congruence|].
    rewrite <- seq_calls_prod. apply seq_calls_ext. intros w' x Hx. apply seq_calls_ext.
    intros w'' y Hy. subst f. apply dd_leaf; auto.
  - subst lb. destruct la as [|a0 la]; [congruence|].
    rewrite <- seq_calls_prod. apply seq_calls_ext. intros w' x Hx. cbn [seq_calls].
    subst f. rewrite dd_leaf by auto. destruct (rec1 w' (x, t)) as [w'' [e|]]; reflexivity.
  - subst la. destruct lb as [|b0 lb]; [congruence|].
    rewrite <- seq_calls_prod.
    transitivity (seq_calls (fun w b => rec1 w (s, b)) w (b0 :: lb)).
    + apply seq_calls_ext. intros w' x Hx. subst f. apply dd_leaf; auto.
    + generalize (b0 :: lb). intros l. simpl.
      destruct (seq_calls (fun w b => rec1 w (s, b)) w l) as [w'' [e|]]; reflexivity.
  - subst la lb. cbn [list_prod map app seq_calls]. unfold rec1.
    destruct (pmem (s, t) (c_derivs (w_op w))); reflexivity.
Qed.

(** declare_derivatives changes nothing but the recorded pairs, which stay distinct. *)
Definition same_but_derivs (w w' : world) : Prop := exists l, w' = with_derivs w l.

Lemma sbd_refl w : same_but_derivs w w.
Proof. exists (c_derivs (w_op w)). symmetry; apply with_derivs_same. Qed.
Lemma sbd_trans a b c : same_but_derivs a b -> same_but_derivs b c -> same_but_derivs a c.
Proof. intros [l ->] [m ->]. exists m. reflexivity. Qed.

Lemma dd_inv fuel : forall w0 w a b,
  same_but_derivs w0 w /\ NoDup (c_derivs (w_op w)) ->
  same_but_derivs w0 (fst (declare_derivatives fuel w a b)) /\
  NoDup (c_derivs (w_op (fst (declare_derivatives fuel w a b)))).
Proof.
  induction fuel as [|f IH]; intros w0 w a b H; [exact H|].
  cbn [declare_derivatives]. cbv zeta. destruct (is_dother a || is_dother b); [exact H|].
  destruct (dlist a _) as [|a0 la]; destruct (dlist b _) as [|b0 lb].
  - destruct a as [s|l|]; try exact H. destruct b as [t|l|]; try exact H.
    destruct (pmem (s, t) (c_derivs (w_op w))) eqn:E; [exact H|].
    simpl. destruct H as [H HN]. split.
    + eapply sbd_trans; [exact H|]. eexists; reflexivity.
    + apply pmem_false in E. apply NoDup_app_single; assumption.
  - apply seq_calls_inv with (P := fun w => same_but_derivs w0 w /\ NoDup (c_derivs (w_op w))); [|exact H].
    intros w' x H'. apply IH; exact H'.
  - apply seq_calls_inv with (P := fun w => same_but_derivs w0 w /\ NoDup (c_derivs (w_op w))); [|exact H].
    intros w' x H'. apply IH; exact H'.
  - apply seq_calls_inv with (P := fun w => same_but_derivs w0 w /\ NoDup (c_derivs (w_op w))); [|exact H].
    intros w' x H'.
    apply seq_calls_inv with (P := fun w => same_but_derivs w0 w /\ NoDup (c_derivs (w_op w))); [|exact H'].
    intros w'' y H''. apply IH; exact H''.
Qed.

Lemma ccexec_NoDup fuel w c : NoDup (c_derivs (w_op w)) -> NoDup (c_derivs (w_op (fst (ccexec fuel w c)))).
Proof.
  intros H. destruct c as [n sh v|n sh v|a b]; simpl.
  - unfold add_input. destruct (dmem n _); [exact H|]. destruct (shape_val _ sh v) as [[[h s] r]|e]; exact H.
  - unfold add_output. destruct (dmem n _); [exact H|]. destruct (shape_val _ sh v) as [[[h s] r]|e]; exact H.
  - apply (@dd_inv fuel w). split; [apply sbd_refl|exact H].
Qed.

Lemma ccexec_all_NoDup fuel h : forall w, NoDup (c_derivs (w_op w)) -> NoDup (c_derivs (w_op (ccexec_all fuel w h))).
Proof. induction h as [|c h IH]; intros w H; simpl; [exact H|]. apply IH, ccexec_NoDup, H. Qed.

Lemma ccexec_all_app fuel h1 h2 w : ccexec_all fuel w (h1 ++ h2) = ccexec_all fuel (ccexec_all fuel w h1) h2.
Proof. revert w; induction h1 as [|c h1 IH]; intros w; simpl; auto. Qed.

Lemma all_accepted_snoc fuel w h c : all_accepted fuel w (h ++ [c]) ->
  all_accepted fuel w h /\ snd (ccexec fuel (ccexec_all fuel w h) c) = None.
Proof.
  intros H. split; [|apply (H h c []); reflexivity].
  intros h1 c' h2 ->. apply (H h1 c' (h2 ++ [c])). rewrite <- app_assoc. reflexivity.
Qed.

Lemma input_names_app a b : input_names (a ++ b) = input_names a ++ input_names b.
Proof. induction a as [|[] a IH]; simpl; rewrite ?IH; reflexivity. Qed.
Lemma output_names_app a b : output_names (a ++ b) = output_names a ++ output_names b.
Proof. induction a as [|[] a IH]; simpl; rewrite ?IH; reflexivity. Qed.
Lemma distinct_snoc l x : distinct (l ++ [x]) = sadd (distinct l) x.
Proof. unfold distinct. rewrite fold_left_app. reflexivity. Qed.
Lemma In_fold_sadd l : forall a x, In x (fold_left sadd l a) <-> In x a \/ In x l.
Proof.
  induction l as [|y l IH]; intros a x; simpl; [tauto|]. rewrite IH, In_sadd. intuition congruence.
Qed.
Lemma In_distinct l x : In x (distinct l) <-> In x l.
Proof. unfold distinct. rewrite In_fold_sadd. simpl. tauto. Qed.
Lemma NoDup_distinct l : NoDup (distinct l).
Proof.
  unfold distinct. assert (H : NoDup (@nil string)) by constructor. revert H.
  generalize (@nil string). induction l as [|x l IH]; intros a H; simpl; [exact H|].
  apply IH, NoDup_sadd, H.
Qed.
Lemma distinct_NoDup l : NoDup l -> distinct l = l.
Proof.
  induction l as [|x l IH] using rev_ind; intros H; [reflexivity|].
  rewrite distinct_snoc. apply NoDup_app_iff in H. destruct H as (H1 & _ & H2).
  rewrite IH by exact H1. unfold sadd.
  replace (smem x l) with false; [reflexivity|]. symmetry. apply smem_false.
  intros Hx. eapply H2; [exact Hx|left; reflexivity].
Qed.

(** After an accepted history, the dictionaries list the names given. *)
Lemma accepted_names fuel hp h : all_accepted fuel {| w_heap := hp; w_op := cop_new |} h ->
  let o := w_op (ccexec_all fuel {| w_heap := hp; w_op := cop_new |} h) in
  dkeys (c_in o) = input_names h /\ NoDup (input_names h) /\
  dkeys (c_out o) = distinct (output_names h) /\
  c_nargs o = length (input_names h) /\ c_nouts o = length (output_names h) /\
  (forall h1 n sh v h2, h = h1 ++ AddOutput n sh v :: h2 -> ~ In n (input_names h1)).
Proof.
  set (w0 := {| w_heap := hp; w_op := cop_new |}).
  induction h as [|c h IH] using rev_ind; intros HA.
  - simpl. repeat split; try constructor. intros [|? ?]; discriminate.
  - apply all_accepted_snoc in HA. destruct HA as [HA Hc]. specialize (IH HA). simpl in IH.
    destruct IH as (H1 & H2 & H3 & H4 & H5 & H6).
    assert (H6' : forall (P : c <> c), True) by auto. clear H6'.
    assert (Hold : forall h1 n sh v h2, h ++ [c] = h1 ++ AddOutput n sh v :: h2 ->
        (c = AddOutput n sh v /\ h1 = h) \/ ~ In n (input_names h1)).
    { intros h1 n sh v h2 E. destruct (exists_last (l := AddOutput n sh v :: h2)) as (h3 & x & E3); [discriminate|].
      rewrite E3, app_assoc in E. apply app_inj_tail in E. destruct E as [E ->].
      destruct h3 as [|y h3]; simpl in E3.
      - injection E3 as <- _. rewrite app_nil_r in E. auto.
      - injection E3 as <- _. right. eapply H6; exact E. }
    rewrite ccexec_all_app. simpl. remember (ccexec_all fuel w0 h) as w eqn:Ew.
    rewrite input_names_app, output_names_app.
    destruct c as [n sh v|n sh v|a b]; simpl in Hc |- *.
    + unfold add_input in *. destruct (dmem n (c_in (w_op w))) eqn:E; [discriminate|].
      destruct (shape_val (w_heap w) sh v) as [[[h' s] r]|e]; [|discriminate]. simpl.
      rewrite dkeys_dset, E, H1, app_nil_r, app_length, H4; simpl. repeat split; auto; try lia.
      * apply NoDup_app_single; [exact H2|]. apply dmem_false in E. rewrite H1 in E. exact E.
      * intros h1 n' sh' v' h2 E'. destruct (Hold _ _ _ _ _ E') as [[E'' _]|]; [discriminate|assumption].
    + unfold add_output in *. destruct (dmem n (c_in (w_op w))) eqn:E; [discriminate|].
      destruct (shape_val (w_heap w) sh v) as [[[h' s] r]|e]; [|discriminate]. simpl.
      rewrite dkeys_dset, H3, app_nil_r, app_length, H5, distinct_snoc; simpl. repeat split; auto; try lia.
      * unfold sadd, dmem. rewrite H3. reflexivity.
      * intros h1 n' sh' v' h2 E'. destruct (Hold _ _ _ _ _ E') as [[E'' ->]|]; [|assumption].
        injection E'' as -> _ _. apply dmem_false in E. rewrite H1 in E. exact E.
    + rewrite !app_nil_r.
      destruct (@dd_inv fuel w w a b) as [[l Hl] _].
      { split; [apply sbd_refl|]. subst w. apply ccexec_all_NoDup. constructor. }
      rewrite Hl. simpl. repeat split; auto.
      intros h1 n' sh' v' h2 E'. destruct (Hold _ _ _ _ _ E') as [[E'' _]|]; [discriminate|assumption].
Qed.

Lemma add_input_derivs w n sh v : c_derivs (w_op (fst (add_input w n sh v))) = c_derivs (w_op w).
Proof.
  unfold add_input. destruct (dmem n _); [reflexivity|]. destruct (shape_val _ sh v) as [[[h s] r]|e]; reflexivity.
Qed.
Lemma add_output_derivs w n sh v : c_derivs (w_op (fst (add_output w n sh v))) = c_derivs (w_op w).
Proof.
  unfold add_output. destruct (dmem n _); [reflexivity|]. destruct (shape_val _ sh v) as [[[h s] r]|e]; reflexivity.
Qed.

Lemma no_star_app a b : no_star (a ++ b) -> no_star a.
Proof.
  unfold no_star. rewrite input_names_app, output_names_app. rewrite !in_app_iff. tauto.
Qed.

Lemma no_empty_app a b : no_empty_request (a ++ b) -> no_empty_request a.
Proof. intros H h1 x y h2 ->. apply (H h1 x y (h2 ++ b)). rewrite <- app_assoc. reflexivity. Qed.

Lemma asks_exists all a : a <> DOther -> exists l, asks_for all a l.
Proof.
  destruct a as [s|l|]; intros H; [| |congruence].
  - destruct (String.eqb_spec s "*") as [->|E]; [exists all; constructor|exists [s]; constructor; exact E].
  - destruct (in_dec string_dec "*"%string l); [exists all; constructor; assumption|exists l; constructor; assumption].
Qed.

Lemma asks_fun all a l l' : asks_for all a l -> asks_for all a l' -> l = l'.
Proof. intros H H'. destruct H; inversion H'; subst; try reflexivity; contradiction. Qed.

(** The recorded pairs after an accepted history. *)
Lemma accepted_requested k hp h : let w0 := {| w_heap := hp; w_op := cop_new |} in
  all_accepted (S (S k)) w0 h -> no_star h -> no_empty_request h ->
  requested h (c_derivs (w_op (ccexec_all (S (S k)) w0 h))).
Proof.
  intros w0. induction h as [|c h IH] using rev_ind; intros HA HS HE; [constructor|].
  pose proof (@all_accepted_snoc _ _ _ _ HA) as [HA' Hc].
  specialize (IH HA' (@no_star_app _ _ HS) (@no_empty_app _ _ HE)).
  pose proof (@accepted_names _ _ _ HA') as (N1 & N2 & N3 & _). fold w0 in N1, N3.
  rewrite ccexec_all_app. cbn [ccexec_all].
  remember (ccexec_all (S (S k)) w0 h) as w eqn:Ew.
  destruct c as [n sh v|n sh v|a b]; cbn [ccexec] in Hc |- *.
  - rewrite add_input_derivs. constructor; exact IH.
  - rewrite add_output_derivs. constructor; exact IH.
  - assert (Oab : a <> DOther /\ b <> DOther).
    { split; intros ->; simpl in Hc; try discriminate. destruct (is_dother a); discriminate. }
    destruct Oab as [Oa Ob].
    destruct (@asks_exists (distinct (output_names h)) a Oa) as (la & Hla).
    destruct (@asks_exists (distinct (input_names h)) b Ob) as (lb & Hlb).
    destruct (HE h a b [] eq_refl) as [Na Nb].
    rewrite (distinct_NoDup N2) in *.
    assert (Ea : asks_for (dkeys (c_out (w_op w))) a la) by (rewrite N3; exact Hla).
    assert (Eb : asks_for (dkeys (c_in (w_op w))) b lb) by (rewrite N1; exact Hlb).
    destruct (@no_star_app _ _ HS) as [S1 S2].
    assert (D : declare_derivatives (S (S k)) w a b = seq_calls rec1 w (pairs la lb)).
    { apply dd_records; auto.
      - rewrite N3, In_distinct. exact S2.
      - rewrite N1. exact S1.
      - intros ->; auto.
      - intros ->; auto. }
    rewrite D in *. destruct (record_all (pairs la lb) w) as (l1 & l2 & E1 & E2 & [[E3 E4]|[E3 _]]); [|congruence].
    rewrite E2. simpl. rewrite E4, app_nil_r in E1. rewrite <- E1.
    constructor; [exact IH|exact Hla|]. rewrite (distinct_NoDup N2). exact Hlb.
Qed.
