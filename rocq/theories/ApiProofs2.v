From Verif Require Import PyBase NamesModel NamesProofs NamesProps PromotionsModel PromotionsProofs ApiModel ApiSpec ApiProofs ApiSpec2.

Lemma name_ok_spec n : name_ok n <-> check_banned_chars n = Ok tt.
Proof.
  rewrite accepted_characters. unfold name_ok. split; intros H i c G; specialize (H i c G); cbn in *; tauto.
Qed.

Lemma check_unit (r : res unit) : (exists e, r = Err e) \/ r = Ok tt.
Proof. destruct r as [[]|e]; eauto. Qed.

Lemma value_fits_spec sh v : value_fits sh v <-> exists v' r, check_default_val_type v = Ok v' /\ get_shape_val sh v' false = Ok r.
Proof.
  pose proof (value_rejected sh v) as R.
  assert (D : value_fits sh v <-> ~ (v = VOther \/ exists a, (v = VArr a \/ v = VList a) /\ sh <> [1] /\ a_shape a <> sh)).
  { destruct v as [z|a|a|]; cbn; split; intros H; try tauto.
    - intros [E|(a & [E|E] & _)]; discriminate.
    - intros [E|(a' & [E|E] & H1 & H2)]; try discriminate. injection E as <-. tauto.
    - destruct (shape_eqb sh [1]) eqn:E1; [left; apply shape_eqb_spec, E1|].
      destruct (shape_eqb (a_shape a) sh) eqn:E2; [right; apply shape_eqb_spec, E2|].
      exfalso. apply H. right. exists a. split; [auto|].
      split; intros E; apply shape_eqb_spec in E; congruence.
    - intros [E|(a' & [E|E] & H1 & H2)]; try discriminate. injection E as <-. tauto.
    - destruct (shape_eqb sh [1]) eqn:E1; [left; apply shape_eqb_spec, E1|].
      destruct (shape_eqb (a_shape a) sh) eqn:E2; [right; apply shape_eqb_spec, E2|].
      exfalso. apply H. right. exists a. split; [auto|].
      split; intros E; apply shape_eqb_spec in E; congruence. }
  rewrite D, <- R. destruct (check_default_val_type v) as [v'|e]; cbn [bind].
  - destruct (get_shape_val sh v' false) as [r|e] eqn:Eg.
    + split; [intros _; exists v', r; auto|]. intros _ H. destruct H as [e H]. discriminate.
    + split; [intros H; exfalso; eauto|]. intros (w & r & H1 & H2). injection H1 as <-. congruence.
  - split; [intros H; exfalso; eauto|]. intros (w & r & H1 & H2). discriminate.
Qed.

Lemma gsv_true sh v : exists r, get_shape_val sh v true = Ok r.
Proof. unfold get_shape_val. destruct v; cbn; try destruct (shape_eqb sh [1]); eauto. Qed.

Lemma new_variable_iff n sh v d : (exists vi, new_variable n sh v d = Ok vi) <-> exists r, get_shape_val sh v false = Ok r.
Proof.
  unfold new_variable. destruct (gsv_true sh v) as [r ->]. cbn [bind].
  destruct (get_shape_val sh v false) as [q|e]; cbn [bind]; split; intros [x H]; eauto; discriminate.
Qed.

Lemma cdvt_idem v v' : check_default_val_type v = Ok v' -> check_default_val_type v' = Ok v'.
Proof. destruct v; cbn; intros H; inversion H; reflexivity. Qed.

Lemma register_iff s n o : outs_inv s ->
  (snd (register_output s n o) = Ok tt <->
   name_ok n /\ fresh s n /\ exists i, o = Some i /\ i < length (s_heap s) /\ ~ In i (s_outs s)).
Proof.
  intros I. rewrite name_ok_spec. unfold fresh. rewrite (oi_names s I). split.
  - intros H. destruct (register_cases s n o) as [[e E]|(i & v & Eo & Hi & Hb & H1 & H2 & H3 & H4 & E)].
    + rewrite E in H. discriminate.
    + split; [exact Hb|]. split; [auto|]. exists i. split; [exact Eo|]. split; [|exact H1]. apply nth_error_Some. congruence.
  - intros (Hb & (H2 & H3 & H4) & i & -> & Hi & H1). unfold register_output. rewrite Hb.
    destruct (nth_error (s_heap s) i) as [v|] eqn:E; [|apply nth_error_None in E; lia].
    assert (N : nmem i (s_outs s) = false).
    { destruct (nmem i (s_outs s)) eqn:En; [|reflexivity]. apply existsb_exists in En. destruct En as (x & Hx & Ex).
      apply Nat.eqb_eq in Ex. subst. contradiction. }
    rewrite N. rewrite (proj2 (smem_false _ _) H2), (proj2 (smem_false _ _) H3), (proj2 (smem_false _ _) H4). reflexivity.
Qed.

Lemma fresh_heap s h k n : outs_inv s -> fresh (tick (with_heap s (s_heap s ++ h)) k) n <-> fresh s n.
Proof.
  intros I. unfold fresh. rewrite (oi_names s I), (oi_names _ (outs_inv_heap s h k I)). reflexivity.
Qed.

Lemma any_greater_ok lo hi : (any_greater lo hi = Ok false) <-> comparable lo hi /\ nowhere_above lo hi.
Proof.
  split.
  - intros H. split; [|apply not_above, H]. destruct lo as [x|l|], hi as [y|l'|]; cbn in *; try discriminate; try tauto.
    + destruct l as [|a [|b r]]; cbn in *; auto.
      * destruct l' as [|y [|y' l']]; cbn in *; try discriminate; auto.
      * destruct l' as [|y [|y' l']]; cbn in *; auto; try discriminate.
        destruct (Nat.eqb_spec (length r) (length l')); [|discriminate]. lia.
    + destruct l as [|a [|b r]]; discriminate.
  - intros [C N]. unfold nowhere_above in N.
    assert (EX : forall {A} (f : A -> bool) l, (forall x, In x l -> f x = false) -> existsb f l = false).
    { intros A f l H. destruct (existsb f l) eqn:E; [|reflexivity]. apply existsb_exists in E. destruct E as (x & Hx & Ex).
      rewrite (H x Hx) in Ex. discriminate. }
    assert (IN : forall l b, In b l -> exists i, bound_at (BArr l) i = Some b).
    { intros l b Hb. apply In_nth_error in Hb. destruct Hb as [i Hi]. exists i.
      destruct l as [|x [|y r]]; cbn [bound_at]; auto. destruct i as [|[|i]]; cbn in Hi |- *; congruence. }
    destruct lo as [x|l|], hi as [y|l'|]; try contradiction.
    + cbn. f_equal. apply Z.ltb_ge. apply (N 0); reflexivity.
    + cbn. f_equal. apply EX. intros b Hb. destruct (IN _ _ Hb) as [i Hi]. apply Z.ltb_ge. apply (N i); [reflexivity|exact Hi].
    + assert (E : existsb (fun a => Z.ltb y a) l = false).
      { apply EX. intros a Ha. destruct (IN _ _ Ha) as [i Hi]. apply Z.ltb_ge. apply (N i); [exact Hi|reflexivity]. }
      destruct l as [|a [|b r]]; cbn in *; congruence.
    + destruct l as [|a [|b r]].
      * destruct l' as [|y [|y' l']]; cbn; try reflexivity. cbn in C. lia.
      * cbn. f_equal. apply EX. intros b Hb. destruct (IN _ _ Hb) as [i Hi]. apply Z.ltb_ge. apply (N i); [reflexivity|exact Hi].
      * destruct l' as [|y [|y' l']].
        { cbn in C. exfalso. cbn in C. lia. }
        { assert (E : existsb (fun u => Z.ltb y u) (a :: b :: r) = false).
          { apply EX. intros u Hu. destruct (IN _ _ Hu) as [i Hi]. apply Z.ltb_ge. apply (N i); [exact Hi|reflexivity]. }
          cbn in *. congruence. }
        assert (L : Nat.eqb (length (a :: b :: r)) (length (y :: y' :: l')) = true) by (apply Nat.eqb_eq; cbn in *; lia).
        unfold any_greater. rewrite L. f_equal. apply EX. intros [u w] Hu.
        apply In_nth_error in Hu. destruct Hu as [i Hi]. cbn [fst snd]. apply Z.ltb_ge. apply (N i);
        change (nth_error (a :: b :: r) i = Some u) || change (nth_error (y :: y' :: l') i = Some w);
        revert Hi; clear; generalize (a :: b :: r) (y :: y' :: l'); intros p q; revert i q;
        induction p as [|p0 p IH]; intros i q Hi; try (destruct i; discriminate);
        destruct q as [|q0 q]; try (destruct i; discriminate); destruct i as [|i]; cbn in Hi |- *; try congruence; eapply IH, Hi.
Qed.

Lemma cct_ok b : check_constraint_value_type b = Ok tt <-> numeric b.
Proof. unfold numeric. destruct b as [[]|]; cbn; split; intros; try congruence; discriminate. Qed.

Lemma step_iff l c : let s := build l in snd (step s c) = Ok tt <-> valid s c.
Proof.
  intros s. pose proof (outs_inv_build l) as I. fold s in I. clearbody s.
  destruct c as [n sh v|n sh ov|n sh v|sh k|n o|o|n im m pr|a b|n|n lo hi|n lo hi eq]; cbn [step valid].
  - rewrite name_ok_spec, value_fits_spec.
    destruct (check_unit (check_banned_chars n)) as [[e ->]| ->]; [split; [discriminate|intros [H _]; discriminate]|].
    destruct (check_default_val_type v) as [v'|e]; [|split; [discriminate|intros (_ & w & r & H & _); discriminate]].
    pose proof (new_variable_iff n sh v' false) as N. destruct (new_variable n sh v' false) as [vi|e]; cbn [snd].
    + split; [intros _|reflexivity]. split; [reflexivity|]. destruct (proj1 N (ex_intro _ vi eq_refl)) as [r Hr]. eauto.
    + split; [discriminate|]. intros (_ & w & r & H & Hr). injection H as <-. destruct (proj2 N (ex_intro _ r Hr)) as [x Hx]. discriminate.
  - set (v := match ov with None => VNum 1 | Some v => v end).
    assert (F : match ov with None => True | Some v => value_fits sh v end <-> value_fits sh v) by (destruct ov; cbn; tauto).
    rewrite F, value_fits_spec.
    destruct (check_default_val_type v) as [v'|e]; [|split; [discriminate|intros (w & r & H & _); discriminate]].
    match goal with |- context [new_variable n sh v' ?d] => pose proof (new_variable_iff n sh v' d) as N; destruct (new_variable n sh v' d) as [vi|e] end; cbn [snd].
    + split; [intros _|reflexivity]. destruct (proj1 N (ex_intro _ vi eq_refl)) as [r Hr]. eauto.
    + split; [discriminate|]. intros (w & r & H & Hr). injection H as <-. destruct (proj2 N (ex_intro _ r Hr)) as [x Hx]. discriminate.
  - rewrite value_fits_spec.
    destruct (check_unit (check_banned_chars n)) as [[e Eb]|Eb]; [rewrite Eb; split; [discriminate|intros [H _]; apply name_ok_spec in H; congruence]|rewrite Eb].
    destruct (check_default_val_type v) as [v'|e] eqn:Ev; [|split; [discriminate|intros (_ & (w & r & H & _) & _); discriminate]].
    unfold new_concatenation. rewrite (cdvt_idem _ _ Ev). cbn [bind].
    destruct (get_shape_val sh v' false) as [r|e] eqn:Eg; cbn [bind].
    + rewrite register_iff by (apply outs_inv_heap, I). rewrite fresh_heap by exact I.
      split; [intros (H1 & H2 & _)|intros (H1 & _ & H2)].
      * split; [exact H1|]. split; [eauto|exact H2].
      * split; [exact H1|]. split; [exact H2|]. eexists. split; [reflexivity|]. cbn. rewrite app_length. cbn. split; [lia|].
        intros Hi. apply (oi_valid s I) in Hi. lia.
    + split; [discriminate|]. intros (_ & (w & r & H & Hr) & _). injection H as <-. congruence.
  - split; auto.
  - apply register_iff, I.
  - unfold out_name at 1. destruct (nth_error (s_heap s) o) as [v|] eqn:E.
    + assert (En : out_name s o = v_name v) by (unfold out_name; rewrite E; reflexivity). rewrite En.
      rewrite register_iff by (apply outs_inv_heap, I). rewrite fresh_heap by exact I.
      assert (o < length (s_heap s)) by (apply nth_error_Some; congruence).
      split; [intros (H1 & H2 & _)|intros (_ & H1 & H2)]; [auto|]. split; [exact H1|]. split; [exact H2|].
      eexists. split; [reflexivity|]. cbn. rewrite app_length. cbn. split; [lia|].
      intros Hi. apply (oi_valid s I) in Hi. lia.
    + split; [discriminate|]. intros [H _]. apply nth_error_None in E. lia.
  - destruct n as [x|].
    + rewrite name_ok_spec. destruct (check_unit (check_banned_chars x)) as [[e ->]| ->]; [split; [discriminate|intros (_ & H & _); discriminate]|].
      destruct im; cbn [negb]; [|split; [discriminate|intros [H _]; discriminate]].
      destruct (smem x (map sb_name (s_subs s))) eqn:E.
      * apply smem_spec in E. split; [discriminate|tauto].
      * apply smem_false in E. split; auto.
    + destruct im; cbn; split; try tauto; try discriminate. intros [H _]; discriminate.
  - destruct (String.eqb_spec a b); [split; [discriminate|tauto]|]. destruct (existsb _ _); split; auto.
  - destruct (s_obj s); split; auto; discriminate.
  - destruct (smem n (map v_name (s_inputs s))) eqn:E1; cbn [negb].
    + apply smem_spec in E1. destruct (dmem n (s_dvs s)) eqn:E2.
      * apply dmem_spec in E2. split; [discriminate|tauto].
      * apply dmem_false in E2. split; auto.
    + apply smem_false in E1. split; [discriminate|tauto].
  - destruct (dmem n (s_cons s)) eqn:E1.
    { apply dmem_spec in E1. split; [discriminate|tauto]. }
    apply dmem_false in E1.
    destruct (check_unit (check_constraint_value_type lo)) as [[e E]|E]; [rewrite E; split; [discriminate|intros (_ & H & _); apply cct_ok in H; congruence]|rewrite E; apply cct_ok in E].
    destruct (check_unit (check_constraint_value_type hi)) as [[e F]|F]; [rewrite F; split; [discriminate|intros (_ & _ & H & _); apply cct_ok in H; congruence]|rewrite F; apply cct_ok in F].
    destruct (check_unit (check_constraint_value_type eq)) as [[e G]|G]; [rewrite G; split; [discriminate|intros (_ & _ & _ & H & _); apply cct_ok in H; congruence]|rewrite G; apply cct_ok in G].
    cbn [bind]. destruct lo as [lo|]; [destruct hi as [hi|]|].
    + pose proof (any_greater_ok lo hi) as A. destruct (any_greater lo hi) as [[]|e]; cbn [bind].
      * split; [discriminate|]. intros (_ & _ & _ & _ & H). discriminate (proj2 A (H _ _ eq_refl eq_refl)).
      * split; [intros _|reflexivity]. destruct (proj1 A eq_refl) as [A1 A2]. split; [exact E1|]. split; [exact E|]. split; [exact F|].
        split; [exact G|]. intros l' h El Eh. injection El as <-. injection Eh as <-. auto.
      * split; [discriminate|]. intros (_ & _ & _ & _ & H). discriminate (proj2 A (H _ _ eq_refl eq_refl)).
    + split; [intros _|reflexivity]. repeat split; auto; intros; discriminate.
    + split; [intros _|reflexivity]. repeat split; auto; intros; discriminate.
Qed.

Lemma dset_new {V} (d : dict V) k v : ~ In k (dkeys d) -> dset d k v = d ++ [(k, v)].
Proof.
  induction d as [|[k' v'] d IH]; cbn; intros H; [reflexivity|]. destruct (String.eqb_spec k k') as [->|]; [exfalso; auto|].
  rewrite IH; auto.
Qed.

(** Effect of registration. *)
Lemma register_effect s n o : snd (register_output s n o) = Ok tt ->
  exists i v, o = Some i /\ nth_error (s_heap s) i = Some v /\
    let s' := fst (register_output s n o) in
    s_inputs s' = s_inputs s /\ s_decls s' = s_decls s /\ s_outs s' = s_outs s ++ [i] /\ s_obj s' = s_obj s /\
    s_cons s' = s_cons s /\ s_dvs s' = s_dvs s /\ s_conns s' = s_conns s /\ s_subs s' = s_subs s /\
    s_heap s' = set_nth (s_heap s) i (VInfo n (v_shape v) (v_val v) (v_size v) (v_default v)).
Proof.
  destruct (register_cases s n o) as [[e ->]|(i & v & -> & Hi & _ & _ & _ & _ & _ & ->)]; [discriminate|].
  intros _. exists i, v. cbn. repeat split; auto.
Qed.

Lemma new_variable_name n sh v d vi : new_variable n sh v d = Ok vi -> v_name vi = n.
Proof.
  unfold new_variable. destruct (get_shape_val sh v true); [|discriminate]. cbn [bind].
  destruct (get_shape_val sh v false); [|discriminate]. cbn [bind]. intros H. injection H as <-. reflexivity.
Qed.

Lemma same_objects_refl s s' : s_heap s' = s_heap s -> same_objects s s' None.
Proof. intros E i v H. exists v. rewrite E. auto. Qed.

Lemma same_objects_set s s' h i v n : nth_error (s_heap s ++ h) i = Some v ->
  s_heap s' = set_nth (s_heap s ++ h) i (VInfo n (v_shape v) (v_val v) (v_size v) (v_default v)) ->
  same_objects s s' (Some (i, n)).
Proof.
  intros Hi E j w Hj. rewrite E, nth_error_set_nth. assert (Hj' : nth_error (s_heap s ++ h) j = Some w).
  { rewrite nth_error_app1; [exact Hj|]. apply nth_error_Some. congruence. }
  destruct (Nat.eqb_spec i j) as [<-|Hne].
  - rewrite Hi. eexists. split; [reflexivity|]. rewrite Hi in Hj'. injection Hj' as ->. cbn. auto.
  - rewrite Hj'. exists w. auto.
Qed.

Lemma step_effect s c : snd (step s c) = Ok tt -> let s' := fst (step s c) in
  map v_name (s_inputs s') = want_inputs s c /\ firstn (length (s_inputs s)) (s_inputs s') = s_inputs s /\
  map v_name (s_decls s') = want_decls s c /\ firstn (length (s_decls s)) (s_decls s') = s_decls s /\
  s_obj s' = want_obj s c /\ s_cons s' = want_cons s c /\ s_dvs s' = want_dvs s c /\
  (forall p, In p (s_conns s') <-> want_conn s c p) /\
  (match registers s c with
   | Some (i, n) => s_outs s' = s_outs s ++ [i] /\ out_name s' i = n
   | None => s_outs s' = s_outs s
   end) /\
  same_objects s s' (registers s c).
Proof.
  assert (FA : forall A (l t : list A), firstn (length l) (l ++ t) = l).
  { intros A l t. rewrite firstn_app, Nat.sub_diag, firstn_all, firstn_O. apply app_nil_r. }
  assert (F0 : forall A (l : list A), firstn (length l) l = l) by (intros; apply firstn_all).
  assert (R0 : forall A (l : list A), l ++ [] = l) by (intros; apply app_nil_r).
  assert (R : forall s h k n o, snd (register_output (tick (with_heap s (s_heap s ++ h)) k) n o) = Ok tt ->
     let s' := fst (register_output (tick (with_heap s (s_heap s ++ h)) k) n o) in
     exists i, o = Some i /\ map v_name (s_inputs s') = map v_name (s_inputs s) /\ firstn (length (s_inputs s)) (s_inputs s') = s_inputs s /\
       map v_name (s_decls s') = map v_name (s_decls s) /\ firstn (length (s_decls s)) (s_decls s') = s_decls s /\
       s_obj s' = s_obj s /\ s_cons s' = s_cons s /\ s_dvs s' = s_dvs s /\ s_conns s' = s_conns s /\
       s_outs s' = s_outs s ++ [i] /\ out_name s' i = n /\ same_objects s s' (Some (i, n))).
  { clear s c. intros s h k n o H. destruct (register_effect _ _ _ H) as (i & v & -> & Hi & E1 & E2 & E3 & E4 & E5 & E6 & E7 & E8 & E9).
    cbn in E1, E2, E3, E4, E5, E6, E7, E8, E9, Hi. exists i. rewrite E1, E2, E3, E4, E5, E6, E7, !F0.
    repeat split; auto.
    - unfold out_name. rewrite E9, nth_error_set_nth, Nat.eqb_refl, Hi. reflexivity.
    - eapply same_objects_set; eassumption. }
  intros H. destruct c as [n sh v|n sh ov|n sh v|sh k|n o|o|n im m pr|a b|n|n lo hi|n lo hi eq]; cbn [registers];
    unfold want_inputs, want_decls, want_obj, want_cons, want_dvs, want_conn.
  - cbn [step] in *. destruct (check_banned_chars n); [|discriminate]. destruct (check_default_val_type v); [|discriminate].
    destruct (new_variable n sh _ false) as [vi|] eqn:E; [|discriminate]. cbn. rewrite map_app, !R0, FA, F0. cbn.
    rewrite (new_variable_name _ _ _ _ _ E). repeat split; auto; try tauto. apply same_objects_refl. reflexivity.
  - cbn [step] in *. destruct (check_default_val_type _); [|discriminate].
    match goal with |- context [new_variable n sh ?w ?d] => destruct (new_variable n sh w d) as [vi|] eqn:E end; [|discriminate].
    cbn. rewrite map_app, !R0, FA, F0. cbn.
    rewrite (new_variable_name _ _ _ _ _ E). repeat split; auto; try tauto. apply same_objects_refl. reflexivity.
  - cbn [step] in *. destruct (check_banned_chars n); [|discriminate]. destruct (check_default_val_type v); [|discriminate].
    destruct (new_concatenation n sh _) as [vi|] eqn:E; [|discriminate].
    destruct (R _ _ _ _ _ H) as (i & Ei & E1 & E2 & E3 & E4 & E5 & E6 & E7 & E8 & E9 & E10 & E11). injection Ei as <-.
    rewrite E1, E2, E3, E4, E5, E6, E7, E8, !R0. repeat split; auto; tauto.
  - cbn. rewrite !R0, !F0. repeat split; auto; try tauto. intros i v Hi. exists v. cbn.
    rewrite nth_error_app1; [auto|]. apply nth_error_Some. congruence.
  - cbn [step] in *.
    assert (Es : register_output s n o = register_output (tick (with_heap s (s_heap s ++ [])) 0) n o).
    { rewrite app_nil_r. unfold tick, with_heap. cbn. rewrite N.add_0_r. destruct s; reflexivity. }
    rewrite Es in *.
    destruct (R _ _ _ _ _ H) as (i & -> & E1 & E2 & E3 & E4 & E5 & E6 & E7 & E8 & E9 & E10 & E11).
    rewrite app_nil_r in *. rewrite E1, E2, E3, E4, E5, E6, E7, E8, !R0. repeat split; auto; tauto.
  - assert (X : exists v, nth_error (s_heap s) o = Some v) by (cbn [step] in H; destruct (nth_error (s_heap s) o); [eauto|discriminate]).
    destruct X as [v Eo]. assert (En : out_name s o = v_name v) by (unfold out_name; rewrite Eo; reflexivity).
    cbn [step] in *. rewrite Eo in *. rewrite En.
    destruct (R _ _ _ _ _ H) as (i & Ei & E1 & E2 & E3 & E4 & E5 & E6 & E7 & E8 & E9 & E10 & E11). injection Ei as <-.
    rewrite E1, E2, E3, E4, E5, E6, E7, E8, !R0. repeat split; auto; tauto.
  - cbn [step] in *. destruct (match n with None => Ok tt | Some x => check_banned_chars x end); [|discriminate].
    destruct (negb im); [discriminate|]. destruct (match n with None => false | Some x => smem x (map sb_name (s_subs s)) end); [discriminate|].
    cbn. rewrite !R0, !F0. repeat split; auto; try tauto. apply same_objects_refl. reflexivity.
  - cbn [step] in *. destruct (String.eqb_spec a b); [discriminate|].
    destruct (existsb _ (s_conns s)) eqn:E; cbn; rewrite !R0, !F0; repeat split; auto; try (apply same_objects_refl; reflexivity).
    + intros [Hp| ->]; [exact Hp|]. apply existsb_exists in E. destruct E as ([x y] & Hx & Exy). cbn in Exy.
      apply andb_true_iff in Exy. destruct Exy as [X Y]. apply String.eqb_eq in X, Y. subst. exact Hx.
    + rewrite in_app_iff. cbn. intros [Hp|[Hp|[]]]; auto.
    + rewrite in_app_iff. cbn. intros [Hp|Hp]; auto.
  - cbn [step] in *. destruct (s_obj s); [discriminate|]. cbn. rewrite !R0, !F0. repeat split; auto; try tauto. apply same_objects_refl. reflexivity.
  - cbn [step] in *. destruct (negb _); [discriminate|]. destruct (dmem n (s_dvs s)) eqn:E; [discriminate|]. apply dmem_false in E.
    cbn. rewrite !R0, !F0, dset_new by exact E. repeat split; auto; try tauto. apply same_objects_refl. reflexivity.
  - cbn [step] in *. destruct (dmem n (s_cons s)) eqn:E; [discriminate|]. apply dmem_false in E.
    match type of H with context [match ?r with Ok _ => _ | Err _ => _ end] => destruct r; [|discriminate] end.
    cbn. rewrite !R0, !F0, dset_new by exact E. repeat split; auto; try tauto. apply same_objects_refl. reflexivity.
Qed.
