(** Invariants of expression building. *)
From Verif Require Import PyBase NamesModel NamesProofs Digraph ExprModel UnflatModel UnflatSpec UnflatProofs.
Set Implicit Arguments.

Lemma nth_upd {A} (l : list A) i f j :
  nth_error (upd l i f) j = if Nat.eqb i j then option_map f (nth_error l j) else nth_error l j.
Proof.
  revert i j; induction l as [|x r IH]; intros [|i] [|j]; cbn; try reflexivity.
  - destruct (Nat.eqb i j); reflexivity.
  - apply IH.
Qed.
Lemma upd_length {A} (l : list A) i f : length (upd l i f) = length l.
Proof. revert i; induction l as [|x r IH]; intros [|i]; cbn; auto. Qed.

Lemma nth_app_last {A} (l : list A) x j o : nth_error (l ++ [x]) j = Some o ->
  nth_error l j = Some o \/ (j = length l /\ o = x).
Proof.
  intros H. destruct (Nat.lt_ge_cases j (length l)) as [Hl|Hl].
  - rewrite nth_error_app1 in H by exact Hl. auto.
  - rewrite nth_error_app2 in H by exact Hl. right. destruct (j - length l) as [|k] eqn:E; cbn in H; [injection H as <-; split; [lia|reflexivity]|].
    destruct k; discriminate.
Qed.
Lemma nth_app_old {A} (l : list A) x j o : nth_error l j = Some o -> nth_error (l ++ [x]) j = Some o.
Proof. intros H. rewrite nth_error_app1; [exact H|]. apply nth_error_Some. congruence. Qed.
Lemma nth_app_new {A} (l : list A) x : nth_error (l ++ [x]) (length l) = Some x.
Proof. rewrite nth_error_app2 by lia. rewrite Nat.sub_diag. reflexivity. Qed.

(** Structure of the heap. *)
Definition computed_by (h : list obj) (v op : nat) : Prop :=
  exists ob, nth_error h v = Some ob /\ ob_deps ob = [op] /\
    (ob_kind ob = KOut \/ (ob_kind ob = KConcat /\ ob_defined ob = true)).
Record obj_ok (h : list obj) (i : nat) (ob : obj) : Prop := {
  ok_var : is_op ob = false -> ob_outs ob = [] /\ (ob_deps ob = [] \/ exists d, ob_deps ob = [d] /\ operation h d);
  ok_op : is_op ob = true -> (forall d, In d (ob_deps ob) -> variable h d) /\
                             (forall v, In v (ob_outs ob) -> computed_by h v i);
  ok_dec : forall d, ob_decomp ob = Some d -> operation h d;
  ok_con : ob_kind ob = KConcat -> ob_defined ob = true -> ob_deps ob <> [];
  ok_out : ob_kind ob = KOut -> ob_deps ob <> []
}.
Definition sinv (h : list obj) : Prop := forall i ob, nth_error h i = Some ob -> obj_ok h i ob.

(** [h'] extends [h]: kinds are kept, and so are the dependencies of computed variables. *)
Record hext (h h' : list obj) : Prop := {
  he_var : forall v, variable h v -> variable h' v;
  he_op : forall v, operation h v -> operation h' v;
  he_cmp : forall v op, computed_by h v op -> computed_by h' v op
}.
Lemma hext_refl h : hext h h.
Proof. split; auto. Qed.
Lemma hext_trans a b c : hext a b -> hext b c -> hext a c.
Proof. intros [A1 A2 A3] [B1 B2 B3]. split; auto. Qed.
Lemma hext_app h x : hext h (h ++ [x]).
Proof.
  split.
  - intros v (ob & E & H). exists ob. split; [apply nth_app_old, E|exact H].
  - intros v (ob & E & H). exists ob. split; [apply nth_app_old, E|exact H].
  - intros v op (ob & E & H). exists ob. split; [apply nth_app_old, E|exact H].
Qed.
Lemma hext_upd h i f : (forall o, ob_kind (f o) = ob_kind o) ->
  (forall o op, nth_error h i = Some o -> ob_deps o = [op] -> (ob_kind o = KOut \/ (ob_kind o = KConcat /\ ob_defined o = true)) ->
     ob_deps (f o) = [op] /\ (ob_defined o = true -> ob_defined (f o) = true)) -> hext h (upd h i f).
Proof.
  intros K D. assert (KO : forall o, is_op (f o) = is_op o) by (intros o; unfold is_op; rewrite K; reflexivity). split.
  - intros v (ob & E & H). destruct (Nat.eqb i v) eqn:Ei.
    + exists (f ob). rewrite nth_upd, Ei, E. rewrite KO. auto.
    + exists ob. rewrite nth_upd, Ei. auto.
  - intros v (ob & E & H). destruct (Nat.eqb i v) eqn:Ei.
    + exists (f ob). rewrite nth_upd, Ei, E. rewrite KO. auto.
    + exists ob. rewrite nth_upd, Ei. auto.
  - intros v op (ob & E & Hd & H). destruct (Nat.eqb i v) eqn:Ei.
    + apply Nat.eqb_eq in Ei. subst v. destruct (D ob op E Hd H) as [D1 D2]. exists (f ob). rewrite nth_upd, Nat.eqb_refl, E. split; [reflexivity|].
      split; [exact D1|]. rewrite K. destruct H as [H|[H H']]; auto.
    + exists ob. rewrite nth_upd, Ei. auto.
Qed.

Lemma obj_ok_ext h h' i ob : hext h h' -> obj_ok h i ob -> obj_ok h' i ob.
Proof.
  intros [X1 X2 X3] [O1 O2 O3 O4 O5]. split; auto.
  - intros H. destruct (O1 H) as [H1 [H2|(d & H2 & H3)]]; split; auto. right. exists d. auto.
  - intros H. destruct (O2 H) as [H1 H2]. split; intros; [apply X1, H1|apply X3, H2]; assumption.
Qed.

Lemma sinv_app h x : sinv h -> obj_ok (h ++ [x]) (length h) x -> sinv (h ++ [x]).
Proof.
  intros S O i ob E. apply nth_app_last in E. destruct E as [E|[-> ->]]; [|exact O].
  eapply obj_ok_ext; [apply hext_app|apply S, E].
Qed.
Lemma sinv_upd h i f : sinv h -> hext h (upd h i f) ->
  (forall ob, nth_error h i = Some ob -> obj_ok (upd h i f) i ob -> obj_ok (upd h i f) i (f ob)) -> sinv (upd h i f).
Proof.
  intros S X H j ob E. rewrite nth_upd in E. destruct (Nat.eqb_spec i j) as [<-|Hne].
  - destruct (nth_error h i) as [o|] eqn:Eo; [|discriminate]. injection E as <-. apply H; [reflexivity|].
    eapply obj_ok_ext; [exact X|apply S, Eo].
  - eapply obj_ok_ext; [exact X|apply S, E].
Qed.

Lemma variable_not_op h v : variable h v -> operation h v -> False.
Proof. intros (a & E & H) (b & E' & H'). congruence. Qed.

(** Effect of a sequence of primitive steps on the state. *)
Record better (s s' : bst) : Prop := {
  bt_sinv : sinv (b_heap s');
  bt_ext : hext (b_heap s) (b_heap s');
  bt_len : length (b_heap s) <= length (b_heap s')
}.
Lemma better_trans a b c : better a b -> better b c -> better a c.
Proof. intros [A1 A2 A3] [B1 B2 B3]. split; [exact B1|eapply hext_trans; eassumption|lia]. Qed.
Lemma better_refl a : sinv (b_heap a) -> better a a.
Proof. intros S. split; [exact S|apply hext_refl|lia]. Qed.

Definition stateless (s s' : bst) : Prop := b_ins s' = b_ins s /\ b_outs s' = b_outs s /\ b_decls s' = b_decls s /\ b_subs s' = b_subs s.

Lemma alloc_better s k n deps s' v : sinv (b_heap s) -> alloc s k n deps = (s', v) ->
  match k with
  | KOp _ => forall d, In d deps -> variable (b_heap s) d
  | KOut => exists d, deps = [d] /\ operation (b_heap s) d
  | _ => deps = []
  end ->
  better s s' /\ v = length (b_heap s) /\ stateless s s' /\
  nth_error (b_heap s') v = Some (Obj k (b_count s) (match n with Some x => x | None => hex_id (b_count s) end) deps [] None false) /\
  b_heap s' = b_heap s ++ [Obj k (b_count s) (match n with Some x => x | None => hex_id (b_count s) end) deps [] None false] /\
  b_count s' = (b_count s + 1)%N.
Proof.
  intros S H K. unfold alloc in H. injection H as <- <-. cbn [b_heap bump with_objs b_count].
  set (o := Obj _ _ _ _ _ _ _). assert (X := hext_app (b_heap s) o).
  split; [|split; [reflexivity|split; [repeat split|split; [apply nth_app_new|split; reflexivity]]]].
  split; [|exact X|cbn; rewrite app_length; cbn; lia]. cbn [b_heap bump with_objs].
  apply sinv_app; [exact S|]. destruct X as [X1 X2 X3]. split; cbn.
  - intros Ho. split; [reflexivity|]. destruct k; cbn in Ho; try discriminate; subst; auto.
    destruct K as (d & -> & Hd). right. exists d. auto.
  - intros Ho. destruct k; try discriminate. split; [auto|intros v []].
  - discriminate.
  - discriminate.
  - intros ->. destruct K as (d & -> & _). discriminate.
Qed.

Lemma new_outputs_better op names : forall s s' vs, sinv (b_heap s) -> operation (b_heap s) op -> new_outputs s op names = (s', vs) ->
  better s s' /\ stateless s s' /\ (forall v, In v vs -> computed_by (b_heap s') v op).
Proof.
  induction names as [|n r IH]; intros s s' vs S O H; cbn [new_outputs] in H.
  - injection H as <- <-. split; [apply better_refl, S|]. split; [repeat split|intros v []].
  - destruct (alloc s KOut n [op]) as [s1 v1] eqn:A. destruct (new_outputs s1 op r) as [s2 vs2] eqn:R. injection H as <- <-.
    destruct (@alloc_better s KOut n [op] s1 v1 S A) as (B1 & _ & T1 & N1 & _); [exists op; auto|].
    destruct (IH s1 s2 vs2 (bt_sinv B1) (he_op (bt_ext B1) O) R) as (B2 & T2 & C2).
    split; [eapply better_trans; eassumption|].
    split; [unfold stateless in *; intuition congruence|].
    intros v [<-|Hv]; [|auto]. apply (he_cmp (bt_ext B2)). eexists. split; [exact N1|]. cbn. auto.
Qed.

Lemma upd_outs_better s op vs : sinv (b_heap s) -> (forall v, In v vs -> computed_by (b_heap s) v op) -> operation (b_heap s) op ->
  better s (with_objs s (upd (b_heap s) op (set_outs vs))).
Proof.
  intros S C O. assert (X : hext (b_heap s) (upd (b_heap s) op (set_outs vs))).
  { apply hext_upd; [reflexivity|]. intros o d _ Hd _. cbn. auto. }
  split; [|exact X|cbn; rewrite upd_length; lia]. cbn [b_heap with_objs]. apply sinv_upd; [exact S|exact X|].
  intros ob E [O1 O2 O3 O4 O5]. assert (Oo : is_op ob = true) by (destruct O as (ob' & E' & H); congruence).
  split; cbn; auto.
  - unfold is_op in *. cbn. rewrite Oo. discriminate.
  - intros _. split; [apply O2, Oo|]. intros v Hv. apply (he_cmp X), C, Hv.
Qed.

Lemma new_op_better s args names s' vs : sinv (b_heap s) -> (forall a, In a args -> variable (b_heap s) a) -> new_op s args names = (s', vs) ->
  better s s' /\ stateless s s' /\ (forall v, In v vs -> exists op, computed_by (b_heap s') v op).
Proof.
  intros S V H. unfold new_op in H. destruct (alloc s (KOp false) None args) as [s1 op] eqn:A.
  destruct (new_outputs s1 op names) as [s2 vs2] eqn:R. injection H as <- <-.
  destruct (@alloc_better s (KOp false) None args s1 op S A V) as (B1 & _ & T1 & N1 & _).
  assert (O1 : operation (b_heap s1) op) by (eexists; split; [exact N1|reflexivity]).
  destruct (@new_outputs_better op names s1 s2 vs2 (bt_sinv B1) O1 R) as (B2 & T2 & C2).
  assert (B3 : better s2 (with_objs s2 (upd (b_heap s2) op (set_outs vs2)))).
  { apply upd_outs_better; [apply B2|exact C2|apply (he_op (bt_ext B2)), O1]. }
  split; [eapply better_trans; [exact B1|eapply better_trans; eassumption]|].
  split; [unfold stateless in *; cbn; intuition congruence|].
  intros v Hv. exists op. apply (he_cmp (bt_ext B3)), C2, Hv.
Qed.

Lemma computed_variable h v op : computed_by h v op -> variable h v.
Proof. intros (ob & E & _ & H). exists ob. split; [exact E|]. unfold is_op. destruct H as [->|[-> _]]; reflexivity. Qed.

Lemma dedup_better args : forall s seen s' l, sinv (b_heap s) -> (forall a, In a args -> variable (b_heap s) a) -> dedup_args s seen args = (s', l) ->
  better s s' /\ stateless s s' /\ (forall a, In a l -> variable (b_heap s') a).
Proof.
  induction args as [|a r IH]; intros s seen s' l S V H; cbn [dedup_args] in H.
  - injection H as <- <-. split; [apply better_refl, S|]. split; [repeat split|intros a []].
  - destruct (memn a seen).
    + destruct (new_op s [a] [None]) as [s1 vs] eqn:N.
      set (a' := match vs with v :: _ => v | [] => a end) in *.
      destruct (dedup_args s1 (a' :: seen) r) as [s2 l2] eqn:R. injection H as <- <-.
      assert (Va : variable (b_heap s) a) by (apply V; left; reflexivity).
      destruct (@new_op_better s [a] [None] s1 vs S) as (B1 & T1 & C1); [intros x [<-|[]]; exact Va|exact N|].
      destruct (IH s1 (a' :: seen) s2 l2 (bt_sinv B1)) as (B2 & T2 & V2); [intros x Hx; apply (he_var (bt_ext B1)), V; right; exact Hx|exact R|].
      split; [eapply better_trans; eassumption|]. split; [unfold stateless in *; intuition congruence|].
      intros x [<-|Hx]; [|auto]. apply (he_var (bt_ext B2)). unfold a'. destruct vs as [|v vs']; [apply (he_var (bt_ext B1)), Va|].
      destruct (C1 v (or_introl eq_refl)) as [op Hop]. eapply computed_variable, Hop.
    + destruct (dedup_args s (a :: seen) r) as [s2 l2] eqn:R. injection H as <- <-.
      destruct (IH s (a :: seen) s2 l2 S) as (B2 & T2 & V2); [intros x Hx; apply V; right; exact Hx|exact R|].
      split; [exact B2|]. split; [exact T2|]. intros x [<-|Hx]; [apply (he_var (bt_ext B2)), V; left; reflexivity|auto].
Qed.

Lemma kind_is_variable s i : kind_is is_variable s i = true <-> variable (b_heap s) i.
Proof.
  unfold kind_is, variable, is_variable. destruct (nth_error (b_heap s) i) as [o|]; split.
  - intros H. exists o. destruct (is_op o); [discriminate|auto].
  - intros (o' & E & H). injection E as <-. rewrite H. reflexivity.
  - discriminate.
  - intros (o' & E & _). discriminate.
Qed.
Lemma kind_is_op s i : kind_is is_op s i = true <-> operation (b_heap s) i.
Proof.
  unfold kind_is, operation. destruct (nth_error (b_heap s) i) as [o|]; split.
  - intros H. exists o. auto.
  - intros (o' & E & H). injection E as <-. exact H.
  - discriminate.
  - intros (o' & E & _). discriminate.
Qed.
Lemma all_variables s args : forallb (kind_is is_variable s) args = true -> forall a, In a args -> variable (b_heap s) a.
Proof. intros H a Ha. rewrite forallb_forall in H. apply kind_is_variable, H, Ha. Qed.

Lemma app_deps_better s op l : sinv (b_heap s) -> operation (b_heap s) op -> (forall a, In a l -> variable (b_heap s) a) ->
  better s (with_objs s (upd (b_heap s) op (app_deps l))).
Proof.
  intros S O V. assert (X : hext (b_heap s) (upd (b_heap s) op (app_deps l))).
  { apply hext_upd; [reflexivity|]. intros o d E _ H. exfalso. destruct O as (ob & E' & Ho). rewrite E in E'. injection E' as <-.
    unfold is_op in Ho. destruct H as [H|[H _]]; rewrite H in Ho; discriminate. }
  split; [|exact X|cbn; rewrite upd_length; lia]. cbn [b_heap with_objs]. apply sinv_upd; [exact S|exact X|].
  intros ob E [O1 O2 O3 O4 O5]. assert (Oo : is_op ob = true) by (destruct O as (ob' & E' & H); congruence).
  split; cbn; auto.
  - unfold is_op in *. cbn. rewrite Oo. discriminate.
  - intros _. split; [|apply O2, Oo]. intros d Hd. apply in_app_iff in Hd. destruct Hd as [Hd|Hd]; [apply O2; auto|apply (he_var X), V, Hd].
  - intros Hk. unfold is_op in Oo. rewrite Hk in Oo. discriminate.
  - intros Hk. unfold is_op in Oo. rewrite Hk in Oo. discriminate.
Qed.

Lemma set_name_better s v n : sinv (b_heap s) -> better s (with_objs s (upd (b_heap s) v (set_name n))).
Proof.
  intros S. assert (X : hext (b_heap s) (upd (b_heap s) v (set_name n))).
  { apply hext_upd; [reflexivity|]. intros o d E Hd H. cbn. auto. }
  split; [|exact X|cbn; rewrite upd_length; lia]. cbn [b_heap with_objs]. apply sinv_upd; [exact S|exact X|].
  intros ob E [O1 O2 O3 O4 O5]. split; cbn; auto.
Qed.

Lemma register_cases s n v : register s n v = s \/
  (register s n v = add_out (with_objs s (upd (b_heap s) v (set_name n))) v /\
   (exists ob, nth_error (b_heap s) v = Some ob /\ is_output ob = true) /\ ~ In v (b_outs s) /\
   (forall w, In w (b_outs s ++ b_ins s ++ b_decls s) -> ~ named (b_heap s) w n) /\ check_banned_chars n = Ok tt).
Proof.
  unfold register. destruct (negb (is_ok (check_banned_chars n))) eqn:E0; [auto|].
  destruct (negb (kind_is is_output s v)) eqn:E1; [auto|].
  destruct (memn v (b_outs s)) eqn:E2; [auto|].
  match goal with |- (if ?A then _ else _) = _ \/ _ => destruct A eqn:E3; [auto|] end.
  match goal with |- (if ?A then _ else _) = _ \/ _ => destruct A eqn:E4; [auto|] end.
  match goal with |- (if ?A then _ else _) = _ \/ _ => destruct A eqn:E5; [auto|] end.
  right. split; [reflexivity|]. split.
  { unfold kind_is in E1. destruct (nth_error (b_heap s) v) as [ob|]; [|discriminate]. exists ob. split; [reflexivity|].
    destruct (is_output ob); [reflexivity|discriminate]. }
  split; [apply memn_false, E2|]. split.
  - intros w Hw (ob & E & Hn). apply smem_false in E3, E4, E5.
    assert (M : forall l, In w l -> In n (map (fun i => match nth_error (b_heap s) i with Some o => ob_name o | None => EmptyString end) l)).
    { intros l Hl. apply in_map_iff. exists w. rewrite E. auto. }
    rewrite !in_app_iff in Hw. destruct Hw as [Hw|[Hw|Hw]]; apply M in Hw; contradiction.
  - destruct (check_banned_chars n) as [[]|]; [reflexivity|discriminate].
Qed.

Lemma register_better s n v : sinv (b_heap s) -> better s (register s n v).
Proof.
  intros S. destruct (register_cases s n v) as [->|(-> & _)]; [apply better_refl, S|].
  destruct (@set_name_better s v n S) as [A1 A2 A3]. split; assumption.
Qed.

Lemma bump_better s k : sinv (b_heap s) -> better s (bump s k).
Proof. intros S. split; [exact S|apply hext_refl|cbn; lia]. Qed.

Lemma bstep_better s e : sinv (b_heap s) -> better s (bstep s e).
Proof.
  intros S. destruct e as [k|n|n|n|args no|args os| |op args os|x fresh|y x|v op|n v|on]; cbn [bstep].
  - apply bump_better, S.
  - destruct (is_ok (check_banned_chars n)); [|apply better_refl, S]. destruct (alloc s KIn (Some n) []) as [s1 v] eqn:A.
    destruct (@alloc_better s KIn (Some n) [] s1 v S A eq_refl) as ([B1 B2 B3] & _). split; assumption.
  - destruct (alloc s KDecl (Some n) []) as [s1 v] eqn:A.
    destruct (@alloc_better s KDecl (Some n) [] s1 v S A eq_refl) as ([B1 B2 B3] & _). split; assumption.
  - destruct (is_ok (check_banned_chars n)); [|apply better_refl, S]. destruct (alloc s KConcat (Some n) []) as [s1 v] eqn:A.
    destruct (@alloc_better s KConcat (Some n) [] s1 v S A eq_refl) as (B1 & _).
    destruct (memn v _); [|apply bump_better, S].
    eapply better_trans; [exact B1|]. apply register_better, B1.
  - destruct (forallb _ args) eqn:V; [|apply better_refl, S]. pose proof (@all_variables s args V) as V'.
    destruct (dedup_args s [] args) as [s1 l] eqn:D. destruct (@dedup_better args s [] s1 l S V' D) as (B1 & _ & V1).
    destruct (new_op s1 l (repeat None no)) as [s2 vs] eqn:N. destruct (@new_op_better s1 l _ s2 vs (bt_sinv B1) V1 N) as (B2 & _).
    cbn [fst]. eapply better_trans; eassumption.
  - destruct (forallb _ args) eqn:V; [|apply better_refl, S]. pose proof (@all_variables s args V) as V'.
    destruct (new_op s args (map Some os)) as [s2 vs] eqn:N. destruct (@new_op_better s args _ s2 vs S V' N) as (B2 & _). exact B2.
  - destruct (alloc s (KOp true) None []) as [s1 v] eqn:A.
    destruct (@alloc_better s (KOp true) None [] s1 v S A) as (B1 & _); [intros d []|exact B1].
  - destruct (kind_is _ s op) eqn:K; [|apply better_refl, S].
    assert (O : operation (b_heap s) op).
    { unfold kind_is in K. destruct (nth_error (b_heap s) op) as [o|] eqn:E; [|discriminate]. exists o. split; [exact E|].
      unfold is_op. destruct (ob_kind o); try discriminate; reflexivity. }
    cbn [andb]. destruct (forallb _ args) eqn:V; [|apply better_refl, S]. pose proof (@all_variables s args V) as V'.
    pose proof (@app_deps_better s op args S O V') as B1. set (s1 := with_objs s _) in *.
    destruct (new_outputs s1 op (map Some os)) as [s2 vs] eqn:N.
    assert (O1 := he_op (bt_ext B1) O). destruct (@new_outputs_better op _ s1 s2 vs (bt_sinv B1) O1 N) as (B2 & _ & C2).
    eapply better_trans; [exact B1|]. eapply better_trans; [exact B2|]. apply upd_outs_better; [apply B2|exact C2|apply (he_op (bt_ext B2)), O1].
  - destruct (nth_error (b_heap s) x) as [o|] eqn:E; [|apply better_refl, S].
    destruct (is_variable o) eqn:V; [|apply better_refl, S].
    assert (Vx : variable (b_heap s) x) by (exists o; split; [exact E|unfold is_variable in V; destruct (is_op o); [discriminate|reflexivity]]).
    match goal with |- context [let (_, _) := ?P in _] => destruct P as [s1 d] eqn:P1 end.
    assert (H1 : better s s1 /\ operation (b_heap s1) d).
    { destruct (ob_decomp o) as [d0|] eqn:D.
      - injection P1 as <- <-. split; [apply better_refl, S|]. exact (ok_dec (S _ _ E) D).
      - destruct (alloc s (KOp false) None [x]) as [s' d'] eqn:A. injection P1 as <- <-.
        destruct (@alloc_better s (KOp false) None [x] s' d' S A) as (B1 & Ed & _ & N1 & EH & _); [intros a [<-|[]]; exact Vx|].
        assert (X : hext (b_heap s') (upd (b_heap s') x (set_decomp d'))).
        { apply hext_upd; [reflexivity|]. intros o' d'' E' Hd H. cbn. auto. }
        assert (Od : operation (b_heap s') d') by (eexists; split; [exact N1|reflexivity]).
        split; [eapply better_trans; [exact B1|]|apply (he_op X), Od].
        split; [|exact X|cbn; rewrite upd_length; lia]. cbn [b_heap with_objs]. apply sinv_upd; [apply B1|exact X|].
        intros ob E' [O1 O2 O3 O4 O5]. split; cbn; auto. intros d'' Hd. injection Hd as <-. apply (he_op X), Od. }
    destruct H1 as [B1 Od]. destruct fresh; [|exact B1].
    destruct (alloc s1 KOut None [d]) as [s2 v] eqn:A.
    destruct (@alloc_better s1 KOut None [d] s2 v (bt_sinv B1) A) as (B2 & _ & _ & N2 & _); [exists d; auto|].
    eapply better_trans; [exact B1|]. eapply better_trans; [exact B2|].
    assert (X : hext (b_heap s2) (upd (b_heap s2) d (add_outs v))).
    { apply hext_upd; [reflexivity|]. intros o' d'' E' Hd H. cbn. auto. }
    split; [|exact X|cbn; rewrite upd_length; lia]. cbn [b_heap with_objs]. apply sinv_upd; [apply B2|exact X|].
    intros ob E' [O1 O2 O3 O4 O5]. assert (Oo : is_op ob = true) by (destruct (he_op (bt_ext B2) Od) as (ob' & E'' & H); congruence).
    split; cbn; auto.
    + unfold is_op in *. cbn. rewrite Oo. discriminate.
    + intros _. split; [apply O2, Oo|]. intros w Hw. apply in_app_iff in Hw. destruct Hw as [Hw|[<-|[]]]; [apply O2; auto|].
      apply (he_cmp X). eexists. split; [exact N2|]. cbn. auto.
  - destruct (nth_error (b_heap s) y) as [o|] eqn:E; [|apply better_refl, S].
    destruct (ob_kind o) eqn:K; try (apply better_refl, S).
    destruct (kind_is is_variable s x) eqn:V; [|apply better_refl, S]. apply kind_is_variable in V.
    assert (Oy : is_op o = false) by (unfold is_op; rewrite K; reflexivity).
    destruct (ob_defined o) eqn:D.
    + destruct (ob_deps o) as [|op dr] eqn:Dp; [apply better_refl, S|]. apply app_deps_better; [exact S| |intros a [<-|[]]; exact V].
      destruct (ok_var (S _ _ E) Oy) as [_ [H|(d & H & Hd)]]; [congruence|]. rewrite Dp in H. injection H as <- _. exact Hd.
    + destruct (alloc s (KOp false) None [x]) as [s1 op] eqn:A.
      destruct (@alloc_better s (KOp false) None [x] s1 op S A) as (B1 & Eop & _ & N1 & EH & _); [intros a [<-|[]]; exact V|].
      eapply better_trans; [exact B1|].
      assert (Ey : nth_error (b_heap s1) y = Some o) by (rewrite EH; apply nth_app_old, E).
      assert (Hyo : y <> op) by (rewrite Eop; assert (y < length (b_heap s)) by (apply nth_error_Some; congruence); lia).
      set (h := b_heap s1) in *. set (h2 := upd (upd h op (set_outs [y])) y (set_defined op)).
      assert (NH : forall j, nth_error h2 j = if Nat.eqb y j then option_map (set_defined op) (nth_error h j) else if Nat.eqb op j then option_map (set_outs [y]) (nth_error h j) else nth_error h j).
      { intros j. unfold h2. rewrite !nth_upd. destruct (Nat.eqb_spec y j) as [<-|_]; [|reflexivity].
        destruct (Nat.eqb_spec op y); [congruence|reflexivity]. }
      assert (Nop : nth_error h2 op = option_map (set_outs [y]) (nth_error h op)).
      { rewrite NH. destruct (Nat.eqb_spec y op); [contradiction|]. rewrite Nat.eqb_refl. reflexivity. }
      assert (Ny : nth_error h2 y = Some (set_defined op o)) by (rewrite NH, Nat.eqb_refl, Ey; reflexivity).
      assert (X : hext h h2).
      { assert (G : forall j ob, nth_error h j = Some ob -> exists ob', nth_error h2 j = Some ob' /\ ob_kind ob' = ob_kind ob /\
                     (j <> y -> ob_deps ob' = ob_deps ob /\ ob_defined ob' = ob_defined ob)).
        { intros j ob Ej. rewrite NH, Ej. destruct (Nat.eqb_spec y j) as [<-|Hj]; [|destruct (Nat.eqb_spec op j) as [<-|Hj2]].
          - eexists. split; [reflexivity|]. split; [reflexivity|congruence].
          - eexists. split; [reflexivity|]. auto.
          - eexists. split; [reflexivity|]. auto. }
        split.
        - intros v (ob & Ev & Hv). destruct (G v ob Ev) as (ob' & E' & K' & _). exists ob'. unfold is_op in *. rewrite K'. auto.
        - intros v (ob & Ev & Hv). destruct (G v ob Ev) as (ob' & E' & K' & _). exists ob'. unfold is_op in *. rewrite K'. auto.
        - intros v op' (ob & Ev & Hd & Hv). destruct (Nat.eq_dec v y) as [->|Hvy].
          + exfalso. rewrite Ey in Ev. injection Ev as <-. destruct Hv as [Hv|[_ Hv]]; congruence.
          + destruct (G v ob Ev) as (ob' & E' & K' & G2). destruct (G2 Hvy) as [G3 G4]. exists ob'. rewrite K', G3, G4. auto. }
      assert (Oop : operation h op) by (eexists; split; [exact N1|reflexivity]).
      assert (Oop2 := he_op X Oop).
      split; [|exact X|cbn; unfold h2; rewrite !upd_length; unfold h; lia]. cbn [b_heap with_objs]. fold h2.
      intros j ob Ej. rewrite NH in Ej. destruct (Nat.eqb_spec y j) as [<-|Hj]; [|destruct (Nat.eqb_spec op j) as [<-|Hj2]].
      * rewrite Ey in Ej. injection Ej as <-. destruct (obj_ok_ext X (bt_sinv B1 _ Ey)) as [O1 O2 O3 O4 O5].
        split; cbn; auto.
        -- intros Ho. destruct (O1 Oy) as [O1' _]. split; [exact O1'|]. right. exists op. auto.
        -- unfold is_op. cbn. rewrite K. discriminate.
        -- discriminate.
        -- discriminate.
      * rewrite N1 in Ej. injection Ej as <-. split; cbn; try discriminate.
        intros _. split; [intros d [<-|[]]; apply (he_var X), (he_var (bt_ext B1)), V|].
        intros v [<-|[]]. exists (set_defined op o). split; [exact Ny|]. cbn. rewrite K. auto.
      * exact (obj_ok_ext X (bt_sinv B1 _ Ej)).
  - destruct (nth_error (b_heap s) v) as [o|] eqn:E; [|apply better_refl, S].
    destruct (is_variable o) eqn:V; [|apply better_refl, S]. cbn [andb].
    destruct (kind_is is_op s op) eqn:K; [|apply better_refl, S]. cbn [andb]. apply kind_is_op in K.
    destruct (ob_deps o) as [|? ?] eqn:D; [|apply better_refl, S].
    assert (X : hext (b_heap s) (upd (b_heap s) v (app_deps [op]))).
    { apply hext_upd; [reflexivity|]. intros o' d'' E' Hd H. rewrite E in E'. injection E' as <-. rewrite D in Hd. discriminate. }
    assert (Vo : is_op o = false) by (unfold is_variable in V; destruct (is_op o); [discriminate|reflexivity]).
    split; [|exact X|cbn; rewrite upd_length; lia]. cbn [b_heap with_objs]. apply sinv_upd; [exact S|exact X|].
    intros ob E' [O1 O2 O3 O4 O5]. rewrite E in E'. injection E' as <-. split; cbn; auto.
    + intros _. destruct (O1 Vo) as [Q _]. split; [exact Q|]. right. exists op. rewrite D. split; [reflexivity|]. apply (he_op X), K.
    + unfold is_op in *. cbn. rewrite Vo. discriminate.
    + intros _ _ H. destruct (ob_deps o); discriminate.
    + intros _ H. destruct (ob_deps o); discriminate.
  - apply register_better, S.
  - destruct on as [n|].
    + destruct (is_ok (check_banned_chars n) && negb (smem n (b_subs s))); [|apply better_refl, S]. split; [exact S|apply hext_refl|cbn; lia].
    + split; [exact S|apply hext_refl|cbn; lia].
Qed.

Theorem history_sinv l : sinv (b_heap (history l)).
Proof.
  unfold history. assert (H : forall l s, sinv (b_heap s) -> sinv (b_heap (fold_left bstep l s))).
  { induction l0 as [|e r IH]; intros s S; [exact S|]. cbn. apply IH. apply (@bstep_better s e S). }
  apply H. intros i ob E. destruct i; discriminate.
Qed.
