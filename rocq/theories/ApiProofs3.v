From Verif Require Import PyBase NamesModel NamesProofs PromotionsModel PromotionsProofs ApiModel ApiSpec ApiProofs ApiSpec2 ApiProofs2 ApiSpec3.

Lemma one_if_yes (P : Prop) : P -> one_if P 1.
Proof. intros H. split; [reflexivity|]. intros N. destruct (N H). Qed.
Lemma one_if_no (P : Prop) : ~ P -> one_if P 0.
Proof. intros H. split; [intros p; destruct (H p)|reflexivity]. Qed.
Lemma one_if_det (P : Prop) a b : (P \/ ~ P) -> one_if P a -> one_if P b -> a = b.
Proof. intros [H|H] [A1 A2] [B1 B2]; [rewrite A1, B1 by exact H|rewrite A2, B2 by exact H]; reflexivity. Qed.

Lemma name_ok_dec n : name_ok n \/ ~ name_ok n.
Proof.
  rewrite name_ok_spec. destruct (check_unit (check_banned_chars n)) as [[e E]|E]; [right; congruence|left; exact E].
Qed.
Lemma value_dec v : v = VOther \/ v <> VOther.
Proof. destruct v; [right; discriminate..|left; reflexivity]. Qed.

Lemma register_count s n o : s_count (fst (register_output s n o)) = s_count s.
Proof. destruct (register_cases s n o) as [[e ->]|(i & v & -> & Hi & Hb & H1 & H2 & H3 & H4 & ->)]; reflexivity. Qed.

Lemma checked_iff v : (exists v', check_default_val_type v = Ok v') <-> v <> VOther.
Proof. destruct v; cbn; split; try discriminate; try (intros _; eexists; reflexivity); [intros [v' E]; discriminate|congruence]. Qed.

Lemma step_count l c : let s := build l in
  exists k, s_count (fst (step s c)) = (s_count s + k)%N /\ constructs s c k.
Proof.
  cbv zeta. set (s := build l).
  destruct c as [n sh v|n sh ov|n sh v|sh k|n o|o|n im m pr|a b|n|n lo hi|n lo hi eq]; cbn [step constructs].
  - destruct (check_banned_chars n) as [[]|e] eqn:En.
    2: { exists 0%N. split; [cbn; lia|]. apply one_if_no. rewrite name_ok_spec. intros [H _]. congruence. }
    destruct (check_default_val_type v) as [v'|e] eqn:Ev.
    2: { exists 0%N. split; [cbn; lia|]. apply one_if_no. intros [_ H]. apply checked_iff in H. destruct H. congruence. }
    exists 1%N. split; [destruct (new_variable n sh v' false); reflexivity|].
    apply one_if_yes. split; [apply name_ok_spec; exact En|]. apply checked_iff. eexists; exact Ev.
  - set (v := match ov with None => VNum 1 | Some v => v end).
    assert (Q : ov <> Some VOther <-> v <> VOther) by (subst v; destruct ov; [split; congruence|split; discriminate]).
    destruct (check_default_val_type v) as [v'|e] eqn:Ev.
    2: { exists 0%N. split; [cbn; lia|]. apply one_if_no. intros H. apply Q, checked_iff in H. destruct H. congruence. }
    exists 1%N. split; [destruct (new_variable _ sh v' _); reflexivity|].
    apply one_if_yes. apply Q, checked_iff. eexists; exact Ev.
  - destruct (check_banned_chars n) as [[]|e] eqn:En.
    2: { exists 0%N. split; [cbn; lia|]. apply one_if_no. rewrite name_ok_spec. intros [H _]. congruence. }
    destruct (check_default_val_type v) as [v'|e] eqn:Ev.
    2: { exists 0%N. split; [cbn; lia|]. apply one_if_no. intros [_ H]. apply checked_iff in H. destruct H. congruence. }
    exists 1%N. split; [destruct (new_concatenation n sh v'); [rewrite register_count|]; reflexivity|].
    apply one_if_yes. split; [apply name_ok_spec; exact En|]. apply checked_iff. eexists; exact Ev.
  - exists (k + 1)%N. split; reflexivity.
  - exists 0%N. rewrite register_count. split; [lia|reflexivity].
  - destruct (nth_error (s_heap s) o) as [v|] eqn:E.
    + exists 2%N. rewrite register_count. split; [reflexivity|]. exists 1%N. split; [|reflexivity].
      apply one_if_yes. apply nth_error_Some. congruence.
    + exists 0%N. split; [cbn; lia|]. exists 0%N. split; [|reflexivity]. apply one_if_no. apply nth_error_None in E. lia.
  - assert (D : snd (step s (Add n im m pr)) = Ok tt <-> valid s (Add n im m pr)) by apply step_iff.
    cbn [step] in D.
    destruct (match n with None => Ok tt | Some x => check_banned_chars x end) as [[]|e] eqn:Eb.
    2: { exists 0%N. split; [cbn; lia|]. apply one_if_no. rewrite <- D. discriminate. }
    destruct im; cbn [negb] in *.
    2: { exists 0%N. split; [cbn; lia|]. apply one_if_no. rewrite <- D. discriminate. }
    destruct (match n with None => false | Some x => smem x (map sb_name (s_subs s)) end).
    { exists 0%N. split; [cbn; lia|]. apply one_if_no. rewrite <- D. discriminate. }
    exists 1%N. split; [reflexivity|]. apply one_if_yes. apply D. reflexivity.
  - exists 0%N. split; [|reflexivity]. repeat (dmatch; try (cbn; lia)).
  - exists 0%N. split; [|reflexivity]. repeat (dmatch; try (cbn; lia)).
  - exists 0%N. split; [|reflexivity]. repeat (dmatch; try (cbn; lia)).
  - exists 0%N. split; [|reflexivity]. repeat (dmatch; try (cbn; lia)).
Qed.

Lemma constructs_dec l c k k' : constructs (build l) c k -> constructs (build l) c k' -> k = k'.
Proof.
  destruct c as [n sh v|n sh ov|n sh v|sh j|n o|o|n im m pr|a b|n|n lo hi|n lo hi eq]; cbn [constructs]; try congruence.
  - apply one_if_det. destruct (name_ok_dec n), (value_dec v); tauto.
  - apply one_if_det. destruct ov as [v|]; [destruct (value_dec v); [right|left]; congruence|left; discriminate].
  - apply one_if_det. destruct (name_ok_dec n), (value_dec v); tauto.
  - intros (b & B & ->) (b' & B' & ->). f_equal. apply (one_if_det (o < length (s_heap (build l)))); [lia|exact B|exact B'].
  - apply one_if_det. rewrite <- step_iff. destruct (check_unit (snd (step (build l) (Add n im m pr)))) as [[e E]|E]; [right|left]; congruence.
Qed.

Lemma count_iff l k : constructed l k <-> s_count (build l) = k.
Proof.
  revert k. induction l as [|c l IH] using rev_ind; intros k.
  - split; [|intros <-; constructor]. intros H. inversion H as [|l' c n j _ _ E]; [reflexivity|]. destruct l'; discriminate.
  - rewrite build_snoc. destruct (step_count l c) as (j & E & J). rewrite E. split.
    + intros H. inversion H as [E0|l' c' n j' Hl Hc E1]; [destruct l; discriminate|].
      apply app_inj_tail in E1 as [-> ->]. apply IH in Hl. rewrite Hl, (constructs_dec l c j j' J Hc). reflexivity.
    + intros <-. constructor; [apply IH; reflexivity|exact J].
Qed.

Lemma unnamed_output l sh k n : constructed l n ->
  exists x, gen_hex_name (n + k) = Some x /\
    s_heap (build (l ++ [NewOutput sh k])) = s_heap (build l) ++ [VInfo x sh None (prod sh) false].
Proof.
  intros H. apply count_iff in H. rewrite build_snoc. cbn [step fst]. subst n.
  pose proof (gen_hex_name_total (s_count (build l) + k)).
  destruct (gen_hex_name (s_count (build l) + k)) as [x|]; [|congruence]. exists x. split; reflexivity.
Qed.

Lemma unnamed_submodel l m pr n : constructed l n ->
  exists x, gen_hex_name (n + 1) = Some x /\
    s_subs (build (l ++ [Add None true m pr])) = s_subs (build l) ++ [Subm x true pr m].
Proof.
  intros H. apply count_iff in H. rewrite build_snoc. cbn [step fst negb]. subst n.
  exists (auto_name (s_count (build l))). split; [symmetry; apply auto_name_spec|reflexivity].
Qed.

Lemma set_nth_snoc {A} (h : list A) x y : set_nth (h ++ [x]) (length h) y = h ++ [y].
Proof. induction h as [|a h IH]; cbn; [reflexivity|]. rewrite IH. reflexivity. Qed.

Lemma register_new s x k n : snd (register_output (tick (with_heap s (s_heap s ++ [x])) k) n (Some (length (s_heap s)))) = Ok tt ->
  s_heap (fst (register_output (tick (with_heap s (s_heap s ++ [x])) k) n (Some (length (s_heap s))))) =
    s_heap s ++ [VInfo n (v_shape x) (v_val x) (v_size x) (v_default x)].
Proof.
  intros R. destruct (register_cases (tick (with_heap s (s_heap s ++ [x])) k) n (Some (length (s_heap s))))
    as [[e E]|(i & v & Ei & Hi & Hb & H1 & H2 & H3 & H4 & E)].
  - rewrite E in R. discriminate.
  - rewrite E. injection Ei as <-. cbn in Hi. rewrite nth_error_app2, Nat.sub_diag in Hi by lia. injection Hi as <-.
    cbn. apply set_nth_snoc.
Qed.

Lemma print_object s o v : nth_error (s_heap s) o = Some v -> snd (step s (PrintVar o)) = Ok tt ->
  s_heap (fst (step s (PrintVar o))) =
    s_heap s ++ [VInfo (v_name v ++ "_print")%string (v_shape v) None (prod (v_shape v)) false].
Proof.
  intros E. cbn [step]. rewrite E. intros R. rewrite register_new by exact R. reflexivity.
Qed.

Lemma created_object s n sh v : snd (step s (CreateOutput n sh v)) = Ok tt ->
  exists x, s_heap (fst (step s (CreateOutput n sh v))) = s_heap s ++ [x] /\ v_name x = n /\ v_default x = false.
Proof.
  cbn [step]. destruct (check_banned_chars n) as [[]|]; [|discriminate].
  destruct (check_default_val_type v) as [v'|]; [|discriminate].
  destruct (new_concatenation n sh v') as [vi|] eqn:E; [|discriminate]. intros R.
  rewrite register_new by exact R. eexists. split; [reflexivity|]. split; [reflexivity|].
  unfold new_concatenation in E. inv_bind E. inv_bind E. injection E as <-. reflexivity.
Qed.
