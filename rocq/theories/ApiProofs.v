From Verif Require Import PyBase NamesModel NamesProofs PromotionsModel PromotionsProofs ApiModel ApiSpec.

Lemma build_app l l' : build (l ++ l') = fold_left (fun s c => fst (step s c)) l' (build l).
Proof. apply fold_left_app. Qed.
Lemma build_snoc l c : build (l ++ [c]) = fst (step (build l) c).
Proof. rewrite build_app. reflexivity. Qed.

Lemma build_ind (P : mst -> Prop) : P mst0 -> (forall s c, P s -> P (fst (step s c))) -> forall l, P (build l).
Proof.
  intros H0 HS l. induction l as [|c l IH] using rev_ind; [exact H0|]. rewrite build_snoc. apply HS, IH.
Qed.

Lemma nth_error_set_nth {A} (l : list A) i x j :
  nth_error (set_nth l i x) j = if Nat.eqb i j then (match nth_error l j with Some _ => Some x | None => None end) else nth_error l j.
Proof.
  revert i j. induction l as [|y l IH]; intros i j.
  - cbn [set_nth]. destruct (Nat.eqb i j); destruct j; reflexivity.
  - destruct i as [|i], j as [|j]; cbn [set_nth nth_error Nat.eqb]; try reflexivity. apply IH.
Qed.

(** [register_output] either leaves the state alone or registers object [i] as [n]. *)
Lemma register_cases s n o :
  (exists e, register_output s n o = (s, Err e)) \/
  (exists i v, o = Some i /\ nth_error (s_heap s) i = Some v /\ check_banned_chars n = Ok tt /\
     ~ In i (s_outs s) /\ ~ In n (s_out_names s) /\ ~ In n (map v_name (s_inputs s)) /\ ~ In n (map v_name (s_decls s)) /\
     register_output s n o =
       (Mst (s_inputs s) (s_decls s) (s_outs s ++ [i]) (s_out_names s ++ [n]) (s_obj s)
            (s_cons s) (s_dvs s) (s_conns s) (s_subs s)
            (set_nth (s_heap s) i (VInfo n (v_shape v) (v_val v) (v_size v) (v_default v))) (s_count s), Ok tt)).
Proof.
  unfold register_output. destruct (check_banned_chars n) as [[]|e] eqn:Eb; [|left; eauto].
  destruct o as [i|]; [|left; eauto]. destruct (nth_error (s_heap s) i) as [v|] eqn:Ei; [|left; eauto].
  destruct (nmem i (s_outs s)) eqn:E1; [left; eauto|]. destruct (smem n (s_out_names s)) eqn:E2; [left; eauto|].
  destruct (smem n (map v_name (s_inputs s))) eqn:E3; [left; eauto|].
  destruct (smem n (map v_name (s_decls s))) eqn:E4; [left; eauto|].
  right. exists i, v. split; [reflexivity|]. split; [exact Ei|]. split; [reflexivity|].
  assert (S : forall x l, smem x l = false -> ~ In x l) by (intros x l H Hi; apply smem_spec in Hi; congruence).
  split; [|split; [|split; [|split]]]; auto.
  intros Hi. unfold nmem in E1. assert (existsb (Nat.eqb i) (s_outs s) = true); [|congruence].
  apply existsb_exists. exists i. split; [exact Hi|apply Nat.eqb_refl].
Qed.

(** ** Rejected calls *)
Lemma same_data_refl s : same_data s s.
Proof. repeat split; auto. Qed.

Ltac dmatch := match goal with
  | |- context [match ?x with _ => _ end] => destruct x eqn:?
  end.

Lemma register_rejected s n o e : snd (register_output s n o) = Err e -> fst (register_output s n o) = s.
Proof.
  destruct (register_cases s n o) as [[e' ->]|(i & v & _ & _ & _ & _ & _ & _ & _ & ->)]; [reflexivity|discriminate].
Qed.

Lemma heap_app_same s h k : same_data s (tick (with_heap s (s_heap s ++ h)) k).
Proof.
  repeat split; try reflexivity. cbn. intros o v H. rewrite nth_error_app1; [exact H|]. apply nth_error_Some. congruence.
Qed.

Lemma rejected_same s c e : snd (step s c) = Err e -> same_data s (fst (step s c)).
Proof.
  destruct c as [n sh v|n sh v|n sh v|sh k|n o|o|n im m pr|a b|n|n lo hi|n lo hi eq]; cbn [step].
  - dmatch; [|intros; apply same_data_refl]. dmatch; [|intros; apply same_data_refl].
    dmatch; [discriminate|]. intros _. repeat split; auto.
  - dmatch; [|intros; apply same_data_refl]. dmatch; [discriminate|]. intros _. repeat split; auto.
  - dmatch; [|intros; apply same_data_refl]. dmatch; [|intros; apply same_data_refl].
    dmatch; [|intros; repeat split; auto]. intros H. rewrite (register_rejected _ _ _ _ H). apply heap_app_same.
  - discriminate.
  - intros H. rewrite (register_rejected _ _ _ _ H). apply same_data_refl.
  - dmatch; [|intros; apply same_data_refl]. intros H. rewrite (register_rejected _ _ _ _ H). apply heap_app_same.
  - dmatch; [|intros; apply same_data_refl]. destruct im; cbn [negb]; [|intros; apply same_data_refl].
    dmatch; [intros; apply same_data_refl|discriminate].
  - dmatch; [intros; apply same_data_refl|]. dmatch; discriminate.
  - dmatch; [intros; apply same_data_refl|discriminate].
  - dmatch; [intros; apply same_data_refl|]. dmatch; [intros; apply same_data_refl|discriminate].
  - dmatch; [intros; apply same_data_refl|]. dmatch; [discriminate|intros; apply same_data_refl].
Qed.

(** ** Effect of accepted calls on each component *)
Record outs_inv (s : mst) : Prop := {
  oi_valid : forall o, In o (s_outs s) -> o < length (s_heap s);
  oi_nodup : NoDup (s_outs s);
  oi_names : map (out_name s) (s_outs s) = s_out_names s;
  oi_ndn : NoDup (s_out_names s);
  oi_chars : Forall (fun n => check_banned_chars n = Ok tt) (s_out_names s)
}.

Lemma set_nth_length {A} (l : list A) i x : length (set_nth l i x) = length l.
Proof. revert i. induction l as [|y l IH]; intros [|i]; cbn; auto. Qed.

Lemma outs_inv_register s n o : outs_inv s -> outs_inv (fst (register_output s n o)).
Proof.
  intros I. destruct (register_cases s n o) as [[e ->]|(i & v & -> & Hi & Hb & H1 & H2 & H3 & H4 & ->)]; [exact I|].
  destruct I as [I1 I2 I3 I4 I5]. cbn [fst]. split; cbn.
  - intros o Ho. rewrite set_nth_length. apply in_app_iff in Ho. destruct Ho as [Ho|[<-|[]]]; [auto|].
    apply nth_error_Some. congruence.
  - apply NoDup_app_single; assumption.
  - rewrite map_app, <- I3. f_equal.
    + apply map_ext_in. intros o Ho. unfold out_name. cbn. rewrite nth_error_set_nth.
      destruct (Nat.eqb_spec i o); [subst; contradiction|reflexivity].
    + cbn. unfold out_name. cbn. rewrite nth_error_set_nth, Nat.eqb_refl, Hi. reflexivity.
  - apply NoDup_app_single; assumption.
  - apply Forall_app. split; [exact I5|]. constructor; [exact Hb|constructor].
Qed.

Lemma outs_inv_heap s h k : outs_inv s -> outs_inv (tick (with_heap s (s_heap s ++ h)) k).
Proof.
  intros [I1 I2 I3 I4 I5]. split; cbn; auto.
  - intros o Ho. rewrite app_length. apply I1 in Ho. lia.
  - rewrite <- I3. apply map_ext_in. intros o Ho. unfold out_name. cbn. rewrite nth_error_app1; [reflexivity|apply I1, Ho].
Qed.

Lemma outs_inv_eq s s' : s_outs s' = s_outs s -> s_out_names s' = s_out_names s -> s_heap s' = s_heap s -> outs_inv s -> outs_inv s'.
Proof.
  intros E1 E2 E3 [I1 I2 I3 I4 I5]. split; rewrite ?E1, ?E2, ?E3; auto.
  rewrite <- I3. apply map_ext. intros o. unfold out_name. rewrite E3. reflexivity.
Qed.

Lemma outs_inv_step s c : outs_inv s -> outs_inv (fst (step s c)).
Proof.
  intros I. destruct c as [n sh v|n sh v|n sh v|sh k|n o|o|n im m pr|a b|n|n lo hi|n lo hi eq]; cbn [step];
    repeat first [ exact I | apply outs_inv_register | apply outs_inv_heap | dmatch ];
    try (apply (outs_inv_eq s); [reflexivity..|exact I]).
Qed.

Lemma outs_inv_build l : outs_inv (build l).
Proof.
  apply build_ind; [|apply outs_inv_step]. split; cbn; try constructor. intros o [].
Qed.

(** C09 *)
Lemma outputs_distinct l : NoDup (map (out_name (build l)) (s_outs (build l))) /\ NoDup (s_outs (build l)).
Proof. destruct (outs_inv_build l) as [I1 I2 I3 I4 I5]. rewrite I3. auto. Qed.

Lemma register_fresh s n o : snd (register_output s n o) = Ok tt ->
  ~ In n (s_out_names s) /\ ~ In n (map v_name (s_inputs s)) /\ ~ In n (map v_name (s_decls s)).
Proof.
  destruct (register_cases s n o) as [[e ->]|(i & v & -> & Hi & Hb & H1 & H2 & H3 & H4 & ->)]; [discriminate|auto].
Qed.

Lemma registered_name_fresh l c s : s = build l ->
  snd (step s c) = Ok tt ->
  s_outs (fst (step s c)) = s_outs s \/
  exists o, s_outs (fst (step s c)) = s_outs s ++ [o] /\
    (forall o', In o' (s_outs s) -> out_name (fst (step s c)) o' = out_name s o') /\
    let n := out_name (fst (step s c)) o in
    ~ In n (map (out_name s) (s_outs s)) /\ ~ In n (map v_name (s_inputs s)) /\ ~ In n (map v_name (s_decls s)) /\
    check_banned_chars n = Ok tt.
Proof.
  intros -> H.
  assert (G : forall s1 n o, outs_inv s1 -> snd (register_output s1 n o) = Ok tt ->
     exists o', s_outs (fst (register_output s1 n o)) = s_outs s1 ++ [o'] /\
       (forall o2, In o2 (s_outs s1) -> out_name (fst (register_output s1 n o)) o2 = out_name s1 o2) /\
       out_name (fst (register_output s1 n o)) o' = n /\
       ~ In n (map (out_name s1) (s_outs s1)) /\ ~ In n (map v_name (s_inputs s1)) /\ ~ In n (map v_name (s_decls s1)) /\
       check_banned_chars n = Ok tt).
  { intros s1 n o I Hok. destruct (register_cases s1 n o) as [[e E]|(i & v & -> & Hi & Hb & H1 & H2 & H3 & H4 & E)].
    - rewrite E in Hok. discriminate.
    - rewrite E. cbn [fst]. exists i. split; [reflexivity|]. destruct I as [I1 I2 I3 I4 I5]. rewrite I3.
      split.
      { intros o2 Ho2. unfold out_name. cbn. rewrite nth_error_set_nth. destruct (Nat.eqb_spec i o2); [subst; contradiction|reflexivity]. }
      split; [unfold out_name; cbn; rewrite nth_error_set_nth, Nat.eqb_refl, Hi; reflexivity|]. auto. }
  pose proof (outs_inv_build l) as I.
  assert (GH : forall h k n o, snd (register_output (tick (with_heap (build l) (s_heap (build l) ++ h)) k) n o) = Ok tt ->
     let s' := fst (register_output (tick (with_heap (build l) (s_heap (build l) ++ h)) k) n o) in
     exists o', s_outs s' = s_outs (build l) ++ [o'] /\
    (forall o2, In o2 (s_outs (build l)) -> out_name s' o2 = out_name (build l) o2) /\
    let n := out_name s' o' in
    ~ In n (map (out_name (build l)) (s_outs (build l))) /\ ~ In n (map v_name (s_inputs (build l))) /\ ~ In n (map v_name (s_decls (build l))) /\
    check_banned_chars n = Ok tt).
  { intros h k n o Hok s'. destruct (G _ _ _ (outs_inv_heap _ h k I) Hok) as (o' & G1 & G2 & G3 & G4 & G5 & G6 & G7).
    exists o'. unfold s'. split; [exact G1|].
    assert (En : forall o2, In o2 (s_outs (build l)) -> out_name (tick (with_heap (build l) (s_heap (build l) ++ h)) k) o2 = out_name (build l) o2).
    { intros o2 Ho2. unfold out_name. cbn. rewrite nth_error_app1; [reflexivity|apply I, Ho2]. }
    split; [intros o2 Ho2; rewrite G2 by exact Ho2; apply En, Ho2|]. cbv zeta. rewrite G3.
    split; [|auto]. intros Hi. apply G4. apply in_map_iff in Hi. destruct Hi as (o2 & E & Ho2). apply in_map_iff.
    exists o2. split; [rewrite En by exact Ho2; exact E|exact Ho2]. }
  destruct c as [n sh v|n sh v|n sh v|sh k|n o|o|n im m pr|a b|n|n lo hi|n lo hi eq]; cbn [step] in *.
  - left. repeat dmatch; reflexivity.
  - left. repeat dmatch; reflexivity.
  - destruct (check_banned_chars n); [|discriminate]. destruct (check_default_val_type v); [|discriminate].
    destruct (new_concatenation n sh a0); [|discriminate]. right. apply GH, H.
  - left. reflexivity.
  - right. destruct (G _ _ _ I H) as (o' & G1 & G2 & G3 & G4). exists o'. cbv zeta. rewrite G3. auto.
  - destruct (nth_error (s_heap (build l)) o); [|discriminate]. right. apply GH, H.
  - left. repeat dmatch; reflexivity.
  - left. repeat dmatch; reflexivity.
  - left. repeat dmatch; reflexivity.
  - left. repeat dmatch; reflexivity.
  - left. repeat dmatch; reflexivity.
Qed.

(** ** Optimisation data *)
Definition below (lo hi : bound) : Prop := any_greater lo hi = Ok false.

Record opt_inv (s : mst) : Prop := {
  pi_dv : NoDup (dkeys (s_dvs s)) /\ incl (dkeys (s_dvs s)) (map v_name (s_inputs s));
  pi_cons : NoDup (dkeys (s_cons s));
  pi_bounds : forall n k l h, In (n, k) (s_cons s) -> k_lower k = Some l -> k_upper k = Some h -> below l h;
  pi_conns : NoDup (s_conns s) /\ forall a b, In (a, b) (s_conns s) -> a <> b
}.

Lemma opt_inv_eq s s' : s_dvs s' = s_dvs s -> incl (map v_name (s_inputs s)) (map v_name (s_inputs s')) ->
  s_cons s' = s_cons s -> s_conns s' = s_conns s -> opt_inv s -> opt_inv s'.
Proof.
  intros E1 E2 E3 E4 [[I1 I1'] I2 I3 I4]. split; rewrite ?E1, ?E3, ?E4; auto.
  split; [exact I1|]. intros x Hx. apply E2, I1', Hx.
Qed.

Lemma opt_inv_register s n o : opt_inv s -> opt_inv (fst (register_output s n o)).
Proof.
  intros I. destruct (register_cases s n o) as [[e ->]|(i & v & -> & Hi & Hb & H1 & H2 & H3 & H4 & ->)]; [exact I|].
  apply (opt_inv_eq s); try reflexivity; [apply incl_refl|exact I].
Qed.

Lemma In_dset {V} (d : dict V) k v x w : In (x, w) (dset d k v) -> (x = k /\ w = v) \/ In (x, w) d.
Proof.
  induction d as [|[k' v'] d IH]; cbn [dset].
  - intros [E|[]]. injection E as <- <-. auto.
  - destruct (String.eqb_spec k k') as [->|Hne].
    + intros [E|H]; [injection E as <- <-; auto|right; right; exact H].
    + intros [E|H]; [right; left; exact E|]. destruct (IH H) as [?|?]; [auto|right; right; assumption].
Qed.

Lemma opt_inv_step s c : opt_inv s -> opt_inv (fst (step s c)).
Proof.
  intros I. destruct c as [n sh v|n sh v|n sh v|sh k|n o|o|n im m pr|a b|n|n lo hi|n lo hi eq]; cbn [step].
  - repeat (dmatch; try exact I); apply (opt_inv_eq s); try reflexivity; try exact I; cbn; rewrite ?map_app;
      [apply incl_appl|]; apply incl_refl.
  - repeat (dmatch; try exact I); apply (opt_inv_eq s); try reflexivity; try exact I; apply incl_refl.
  - repeat (dmatch; try exact I); [apply opt_inv_register|]; apply (opt_inv_eq s); try reflexivity; try exact I; apply incl_refl.
  - apply (opt_inv_eq s); try reflexivity; try exact I; apply incl_refl.
  - apply opt_inv_register, I.
  - dmatch; [|exact I]. apply opt_inv_register. apply (opt_inv_eq s); try reflexivity; try exact I; apply incl_refl.
  - repeat (dmatch; try exact I); apply (opt_inv_eq s); try reflexivity; try exact I; apply incl_refl.
  - destruct (String.eqb_spec a b) as [->|Hab]; [exact I|]. destruct (existsb _ _) eqn:Ex; [exact I|].
    destruct I as [[I1 I1'] I2 I3 [I4 I4']]. split; cbn; auto. split.
    + apply NoDup_app_single; [exact I4|]. intros Hi.
      assert (existsb (fun p => (String.eqb a (fst p) && String.eqb b (snd p))%bool) (s_conns s) = true); [|congruence].
      apply existsb_exists. exists (a, b). split; [exact Hi|]. cbn. rewrite !String.eqb_refl. reflexivity.
    + intros a' b' Hi. apply in_app_iff in Hi. destruct Hi as [Hi|[E|[]]]; [auto|]. injection E as <- <-. exact Hab.
  - dmatch; [exact I|]. apply (opt_inv_eq s); try reflexivity; try exact I; apply incl_refl.
  - destruct (smem n (map v_name (s_inputs s))) eqn:E1; cbn [negb]; [|exact I]. destruct (dmem n (s_dvs s)) eqn:E2; [exact I|].
    destruct I as [[I1 I1'] I2 I3 I4]. split; cbn [fst s_inputs s_dvs s_cons s_conns]; auto. split.
    + apply NoDup_dset, I1.
    + intros x Hx. rewrite dkeys_dset, E2 in Hx. apply in_app_iff in Hx. destruct Hx as [Hx|[<-|[]]]; [apply I1', Hx|apply smem_spec, E1].
  - destruct (dmem n (s_cons s)) eqn:E2; [exact I|]. cbv zeta. dmatch; [|exact I].
    destruct I as [I1 I2 I3 I4]. split; cbn [fst s_inputs s_dvs s_cons s_conns]; auto.
    + apply NoDup_dset, I2.
    + intros x k l h Hx Hl Hh. apply In_dset in Hx. destruct Hx as [[-> ->]|Hx]; [|eapply I3; eassumption].
      cbn in Hl, Hh. subst lo hi. unfold check_constraint_value_type in Heqr.
      repeat match type of Heqr with context [bind ?x _] => let E := fresh "E" in destruct x eqn:E; cbn [bind] in Heqr; try discriminate end.
      destruct a3; [discriminate|]. exact E3.
Qed.

Lemma opt_inv_build l : opt_inv (build l).
Proof.
  apply build_ind; [|apply opt_inv_step]. split; cbn; try constructor; try constructor; try (intros; contradiction).
  intros x Hx. exact Hx.
Qed.

Lemma obj_step s c n : s_obj s = Some n -> s_obj (fst (step s c)) = Some n.
Proof.
  intros H. assert (R : forall s n o, s_obj (fst (register_output s n o)) = s_obj s).
  { intros s1 n1 o. destruct (register_cases s1 n1 o) as [[e ->]|(i & v & -> & Hi & Hb & H1 & H2 & H3 & H4 & ->)]; reflexivity. }
  destruct c as [n' sh v|n' sh v|n' sh v|sh k|n' o|o|n' im m pr|a b|n'|n' lo hi|n' lo hi eq]; cbn [step];
    repeat (dmatch; cbn [fst]; try exact H; try (rewrite R; exact H); try congruence); try exact H; try (rewrite R; exact H).
Qed.

Lemma obj_stable l l' n : s_obj (build l) = Some n -> s_obj (build (l ++ l')) = Some n.
Proof.
  intros H. rewrite build_app. revert H. generalize (build l). induction l' as [|c l' IH]; intros s H; [exact H|].
  cbn [fold_left]. apply IH, obj_step, H.
Qed.

(** ** Submodels *)
Lemma auto_name_spec k : Some (auto_name k) = gen_hex_name (k + 1).
Proof.
  unfold auto_name, subgraph_auto_name. pose proof (gen_hex_name_total (k + 1)).
  destruct (gen_hex_name (k + 1)); [reflexivity|congruence].
Qed.

Lemma subs_step s c : s_subs (fst (step s c)) = s_subs s \/
  exists n m pr b, c = Add n true m pr /\ s_subs (fst (step s c)) = s_subs s ++ [b] /\ sb_model b = m /\ sb_prom b = pr /\
    match n with Some x => sb_name b = x /\ sb_auto b = false /\ ~ In x (map sb_name (s_subs s)) /\ check_banned_chars x = Ok tt
    | None => sb_auto b = true /\ Some (sb_name b) = gen_hex_name (s_count s + 1) end.
Proof.
  assert (R : forall s n o, s_subs (fst (register_output s n o)) = s_subs s).
  { intros s1 n1 o. destruct (register_cases s1 n1 o) as [[e ->]|(i & v & -> & Hi & Hb & H1 & H2 & H3 & H4 & ->)]; reflexivity. }
  destruct c as [n' sh v|n' sh v|n' sh v|sh k|n' o|o|n' im m pr|a b|n'|n' lo hi|n' lo hi eq]; cbn [step];
    try (left; repeat (dmatch; try reflexivity; try (rewrite R; reflexivity)); try rewrite R; reflexivity).
  destruct n' as [x|].
  - destruct (check_banned_chars x) as [[]|] eqn:Eb; [|left; reflexivity]. destruct im; cbn [negb]; [|left; reflexivity].
    destruct (smem x (map sb_name (s_subs s))) eqn:Ex; [left; reflexivity|].
    right. exists (Some x), m, pr, (Subm x false pr m). cbn. repeat split; auto. intros Hi. apply smem_spec in Hi. congruence.
  - destruct im; cbn [negb]; [|left; reflexivity]. right. exists None, m, pr, (Subm (auto_name (s_count s)) true pr m).
    split; [reflexivity|]. split; [reflexivity|]. split; [reflexivity|]. split; [reflexivity|]. split; [reflexivity|]. apply auto_name_spec.
Qed.

Lemma explicit_nodup l : NoDup (explicit_names (build l)).
Proof.
  apply build_ind; [constructor|]. intros s c H.
  destruct (subs_step s c) as [E|(n & m & pr & b & _ & E & _ & _ & Hb)]; unfold explicit_names in *; rewrite E; [exact H|].
  rewrite filter_app, map_app. destruct n as [x|].
  - destruct Hb as (Hn & Ha & Hx & _). cbn [filter]. rewrite Ha. cbn [negb map]. rewrite Hn. apply NoDup_app_single; [exact H|].
    intros Hi. apply Hx. apply in_map_iff in Hi. destruct Hi as (b' & E' & Hb'). apply filter_In in Hb'. apply in_map_iff. exists b'. tauto.
  - destruct Hb as (Ha & _). cbn. rewrite Ha. cbn [negb map]. rewrite app_nil_r. exact H.
Qed.

(** the list of submodels only grows at the end *)
Lemma subs_grow l l' : exists t, s_subs (build (l ++ l')) = s_subs (build l) ++ t.
Proof.
  rewrite build_app. generalize (build l). induction l' as [|c l' IH]; intros s; cbn [fold_left].
  - exists []. rewrite app_nil_r. reflexivity.
  - destruct (IH (fst (step s c))) as [t Ht]. rewrite Ht.
    destruct (subs_step s c) as [E|(n & m & pr & b & _ & E & _)]; rewrite E; [eauto|]. exists (b :: t). rewrite <- app_assoc. reflexivity.
Qed.

(** the counter counts up; generated names of two submodels differ *)
Lemma count_mono s c : (s_count s <= s_count (fst (step s c)))%N.
Proof.
  assert (R : forall s n o, s_count (fst (register_output s n o)) = s_count s).
  { intros s1 n1 o. destruct (register_cases s1 n1 o) as [[e ->]|(i & v & -> & Hi & Hb & H1 & H2 & H3 & H4 & ->)]; reflexivity. }
  destruct c as [n' sh v|n' sh v|n' sh v|sh k|n' o|o|n' im m pr|a b|n'|n' lo hi|n' lo hi eq]; cbn [step];
    repeat (dmatch; try (cbn; lia)); try rewrite R; cbn; lia.
Qed.

(** ** C45 *)
Lemma get_shape_val_ok sh v s o : v <> VOther -> get_shape_val sh v false = Ok (s, o) ->
  exists a, o = Some a /\ a_shape a = s /\
    match v with
    | VNum z => s = sh /\ a_data a = repeat z (prod sh)
    | VArr a0 | VList a0 => a = a0 /\ (sh = [1] \/ a_shape a0 = sh)
    | VOther => False
    end.
Proof.
  intros Hv. unfold get_shape_val. destruct v as [z|a|a|]; [| | |congruence].
  - destruct (shape_eqb sh [1]) eqn:E.
    + apply shape_eqb_spec in E. subst. intros H. injection H as <- <-. eexists. split; [reflexivity|]. split; [reflexivity|]. auto.
    + cbn [full a_shape]. rewrite shape_eqb_refl. intros H. injection H as <- <-. eexists. split; [reflexivity|]. split; reflexivity || auto.
  - destruct (shape_eqb sh [1]) eqn:E.
    + apply shape_eqb_spec in E. intros H. injection H as <- <-. eexists. auto.
    + destruct (shape_eqb (a_shape a) sh) eqn:E2; [|discriminate]. apply shape_eqb_spec in E2. intros H. injection H as <- <-. eexists. auto.
  - destruct (shape_eqb sh [1]) eqn:E.
    + apply shape_eqb_spec in E. intros H. injection H as <- <-. eexists. auto.
    + destruct (shape_eqb (a_shape a) sh) eqn:E2; [|discriminate]. apply shape_eqb_spec in E2. intros H. injection H as <- <-. eexists. auto.
Qed.

Lemma checked_not_other v v' : check_default_val_type v = Ok v' ->
  (exists z, v = VNum z /\ v' = VNum z) \/ (exists a, (v = VArr a \/ v = VList a) /\ v' = VArr a).
Proof. destruct v; cbn; intros H; try discriminate; injection H as <-; eauto. Qed.

Lemma new_variable_ok n sh v v' d vi : check_default_val_type v = Ok v' -> new_variable n sh v' d = Ok vi ->
  v_name vi = n /\ v_size vi = prod (v_shape vi) /\ v_default vi = d /\ val_ok sh v vi.
Proof.
  intros Hc H. apply checked_not_other in Hc.
  unfold new_variable in H. inv_bind H. destruct a as [s1 o1]. rename E into E1. inv_bind H. destruct a as [s2 o2]. rename E into E2.
  injection H as <-. cbn [v_name v_size v_shape v_default v_val fst snd].
  assert (Hno : v' <> VOther) by (destruct Hc as [(z & _ & ->)|(a & _ & ->)]; discriminate).
  destruct (get_shape_val_ok _ _ _ _ Hno E2) as (a & -> & Hs & Hm). split; [reflexivity|].
  destruct Hc as [(z & -> & ->)|(a' & Hv & ->)].
  - cbn in E1. injection E1 as <- _. split; [destruct Hm as [-> _]; reflexivity|]. split; [reflexivity|].
    exists a. cbn. auto.
  - destruct Hm as [-> Hm]. split.
    + unfold get_shape_val in E1. destruct (shape_eqb sh [1]) eqn:E1'.
      * injection E1 as <- _. congruence.
      * injection E1 as <- _. destruct Hm as [->|Hm]; [discriminate|congruence].
    + split; [reflexivity|]. exists a'. cbn. split; [reflexivity|]. split; [exact Hs|]. destruct Hv as [->| ->]; auto.
Qed.

Lemma new_concatenation_ok n sh v v' vi : check_default_val_type v = Ok v' -> new_concatenation n sh v' = Ok vi ->
  v_name vi = n /\ v_size vi = 1 /\ val_ok sh v vi.
Proof.
  intros Hc H. apply checked_not_other in Hc.
  unfold new_concatenation in H. inv_bind H. rename E into E0. inv_bind H. destruct a0 as [s2 o2].
  injection H as <-. cbn [v_name v_size v_shape v_default v_val fst snd].
  assert (Hno : v' <> VOther) by (destruct Hc as [(z & _ & ->)|(a0 & _ & ->)]; discriminate).
  assert (a = v') as -> by (destruct Hc as [(z & _ & ->)|(a0 & _ & ->)]; cbn in E0; congruence).
  destruct (get_shape_val_ok _ _ _ _ Hno E) as (a & -> & Hs & Hm). split; [reflexivity|]. split; [reflexivity|].
  exists a. cbn. split; [reflexivity|]. split; [exact Hs|].
  destruct Hc as [(z & -> & ->)|(a' & [->| ->] & ->)]; auto.
Qed.

Lemma create_input_value s n sh v : snd (step s (CreateInput n sh v)) = Ok tt ->
  exists vi, s_inputs (fst (step s (CreateInput n sh v))) = s_inputs s ++ [vi] /\ v_name vi = n /\ v_size vi = prod (v_shape vi) /\ val_ok sh v vi.
Proof.
  cbn [step]. destruct (check_banned_chars n); [|discriminate]. destruct (check_default_val_type v) as [v'|] eqn:Ec; [|discriminate].
  destruct (new_variable n sh v' false) as [vi|] eqn:En; [|discriminate]. intros _. exists vi. split; [reflexivity|].
  destruct (new_variable_ok _ _ _ _ _ _ Ec En) as (H1 & H2 & _ & H4). auto.
Qed.

Lemma declare_value s n sh ov : snd (step s (DeclareVariable n sh ov)) = Ok tt ->
  exists vi, s_decls (fst (step s (DeclareVariable n sh ov))) = s_decls s ++ [vi] /\ v_name vi = n /\ v_size vi = prod (v_shape vi) /\ v_default vi = (match ov with None => true | Some _ => false end) /\
    val_ok sh (match ov with None => VNum 1 | Some v => v end) vi.
Proof.
  cbn [step]. destruct (check_default_val_type _) as [v'|] eqn:Ec; [|discriminate].
  destruct (new_variable n sh v' _) as [vi|] eqn:En; [|discriminate]. intros _. exists vi. split; [reflexivity|].
  destruct (new_variable_ok _ _ _ _ _ _ Ec En) as (H1 & H2 & H3 & H4). auto.
Qed.

Lemma create_output_value s n sh v : snd (step s (CreateOutput n sh v)) = Ok tt ->
  exists vi, nth_error (s_heap (fst (step s (CreateOutput n sh v)))) (length (s_heap s)) = Some vi /\ s_outs (fst (step s (CreateOutput n sh v))) = s_outs s ++ [length (s_heap s)] /\ v_name vi = n /\ v_size vi = 1 /\ val_ok sh v vi.
Proof.
  cbn [step]. destruct (check_banned_chars n); [|discriminate]. destruct (check_default_val_type v) as [v'|] eqn:Ec; [|discriminate].
  destruct (new_concatenation n sh v') as [vi|] eqn:En; [|discriminate]. intros H.
  destruct (new_concatenation_ok _ _ _ _ _ Ec En) as (H1 & H2 & H4).
  set (s1 := tick _ 1) in *.
  destruct (register_cases s1 n (Some (length (s_heap s)))) as [[e E]|(i & w & Ei & Hi & Hb & G1 & G2 & G3 & G4 & E)]; [rewrite E in H; discriminate|].
  injection Ei as <-. rewrite E. cbn [fst s_heap s_outs].
  assert (Ew : w = vi). { unfold s1 in Hi. cbn in Hi. rewrite nth_error_app2, Nat.sub_diag in Hi by lia. cbn in Hi. congruence. }
  subst w. exists (VInfo n (v_shape vi) (v_val vi) (v_size vi) (v_default vi)).
  split; [rewrite nth_error_set_nth, Nat.eqb_refl, Hi; reflexivity|]. split; [reflexivity|]. cbn. split; [reflexivity|].
  split; [exact H2|]. destruct H4 as (b & A1 & A2 & A3). exists b. auto.
Qed.

(** exactly when a value is refused *)
Lemma value_rejected sh v : (exists e, (do v' <- check_default_val_type v; get_shape_val sh v' false) = Err e) <->
  v = VOther \/ (exists a, (v = VArr a \/ v = VList a) /\ sh <> [1] /\ a_shape a <> sh).
Proof.
  assert (G : forall a, (exists e, get_shape_val sh (VArr a) false = Err e) <-> sh <> [1] /\ a_shape a <> sh).
  { intros a. unfold get_shape_val. destruct (shape_eqb sh [1]) eqn:E1.
    - apply shape_eqb_spec in E1. split; [intros [e H]; discriminate|tauto].
    - destruct (shape_eqb (a_shape a) sh) eqn:E2.
      + apply shape_eqb_spec in E2. split; [intros [e H]; discriminate|tauto].
      + split; [intros _|intros _; eauto]. split; intros E.
        * apply (proj2 (shape_eqb_spec _ _)) in E. congruence.
        * apply (proj2 (shape_eqb_spec _ _)) in E. congruence. }
  destruct v as [z|a|a|]; cbn [check_default_val_type bind].
  - split; [|intros [H|(a & [H|H] & _)]; discriminate]. intros [e H]. exfalso. unfold get_shape_val in H.
    destruct (shape_eqb sh [1]); [discriminate|]. cbn [full a_shape] in H. rewrite shape_eqb_refl in H. discriminate.
  - rewrite G. split; [intros H; right; exists a; auto|]. intros [H|(a' & [H|H] & H')]; try discriminate. injection H as <-. exact H'.
  - rewrite G. split; [intros H; right; exists a; auto|]. intros [H|(a' & [H|H] & H')]; try discriminate. injection H as <-. exact H'.
  - split; [auto|eauto].
Qed.

(** ** Meaning of [any_greater] *)
Lemma existsb_false {A} (f : A -> bool) l : existsb f l = false -> forall x, In x l -> f x = false.
Proof.
  intros H x Hx. destruct (f x) eqn:E; [|reflexivity]. assert (existsb f l = true) by (apply existsb_exists; eauto). congruence.
Qed.

Lemma bound_arr_in l i a : bound_at (BArr l) i = Some a -> In a l.
Proof.
  destruct l as [|x [|y l]]; cbn [bound_at].
  - destruct i; discriminate.
  - intros H. injection H as <-. left. reflexivity.
  - intros H. eapply nth_error_In, H.
Qed.

Lemma not_above lo hi : any_greater lo hi = Ok false -> nowhere_above lo hi.
Proof.
  intros H i a b Ha Hb. destruct lo as [x|l|], hi as [y|l'|]; try discriminate.
  - cbn in *. injection H as H. injection Ha as <-. injection Hb as <-. apply Z.ltb_ge, H.
  - injection H as H. cbn in Ha. injection Ha as <-. apply Z.ltb_ge. exact (existsb_false _ _ H b (bound_arr_in _ _ _ Hb)).
  - assert (H' : existsb (fun a => Z.ltb y a) l = false) by (destruct l as [|z [|z' r]]; cbn in H |- *; congruence).
    cbn in Hb. injection Hb as <-. apply Z.ltb_ge. exact (existsb_false _ _ H' a (bound_arr_in _ _ _ Ha)).
  - destruct l as [|x [|x' l]].
    + destruct i; discriminate Ha.
    + cbn in Ha. injection Ha as <-. cbn [any_greater] in H. injection H as H.
      apply Z.ltb_ge. exact (existsb_false _ _ H b (bound_arr_in _ _ _ Hb)).
    + destruct l' as [|y [|y' l']].
      * destruct i; discriminate Hb.
      * cbn in Hb. injection Hb as <-.
        assert (H' : existsb (fun a => Z.ltb y a) (x :: x' :: l) = false) by (cbn in H |- *; congruence).
        apply Z.ltb_ge. exact (existsb_false _ _ H' a (bound_arr_in _ _ _ Ha)).
      * assert (H' : existsb (fun ab => Z.ltb (snd ab) (fst ab)) (combine (x :: x' :: l) (y :: y' :: l')) = false).
        { unfold any_greater in H. destruct (Nat.eqb _ _) in H; [|discriminate]. congruence. }
        change (nth_error (x :: x' :: l) i = Some a) in Ha. change (nth_error (y :: y' :: l') i = Some b) in Hb.
        apply Z.ltb_ge. apply (existsb_false _ _ H' (a, b)).
        clear H H'. revert Ha Hb. generalize (x :: x' :: l) (y :: y' :: l'). intros u w. revert i w.
        induction u as [|u0 u IH]; intros i w Ha Hb; [destruct i; discriminate|].
        destruct w as [|w0 w]; [destruct i; discriminate|]. destruct i as [|i]; cbn in Ha, Hb.
        { left. congruence. }
        right. eapply IH; eassumption.
Qed.

Lemma opt_consistent l : let s := build l in
  (NoDup (dkeys (s_dvs s)) /\ incl (dkeys (s_dvs s)) (map v_name (s_inputs s))) /\
  NoDup (dkeys (s_cons s)) /\
  (forall n k lo hi, In (n, k) (s_cons s) -> k_lower k = Some lo -> k_upper k = Some hi -> nowhere_above lo hi) /\
  NoDup (s_conns s) /\ (forall a b, In (a, b) (s_conns s) -> a <> b).
Proof.
  intros s. destruct (opt_inv_build l) as [I1 I2 I3 [I4 I5]]. repeat split; try assumption; try apply I1.
  intros n k lo hi H1 H2 H3. eapply not_above, I3; eassumption.
Qed.

Lemma add_effect s n m pr : snd (step s (Add n true m pr)) = Ok tt ->
  exists b, s_subs (fst (step s (Add n true m pr))) = s_subs s ++ [b] /\ sb_model b = m /\ sb_prom b = pr /\
    match n with
    | Some x => sb_name b = x /\ sb_auto b = false /\ ~ In x (map sb_name (s_subs s))
    | None => sb_auto b = true
    end.
Proof.
  intros H. destruct (subs_step s (Add n true m pr)) as [E|(n' & m' & pr' & b & Ec & E & E1 & E2 & Hb)].
  - exfalso. revert H E. cbn [step]. dmatch; [|discriminate]. cbn [negb]. dmatch; [discriminate|].
    intros _ E. cbn [fst s_subs] in E. apply (f_equal (@length subm)) in E. rewrite app_length in E. cbn in E. lia.
  - injection Ec as <- <- <-. exists b. split; [exact E|]. split; [exact E1|]. split; [exact E2|]. destruct n; tauto.
Qed.

Lemma only_add_adds s c : (forall n im m pr, c <> Add n im m pr) -> s_subs (fst (step s c)) = s_subs s.
Proof.
  intros H. destruct (subs_step s c) as [E|(n' & m' & pr' & b & Ec & _)]; [exact E|]. destruct (H n' true m' pr' Ec).
Qed.
