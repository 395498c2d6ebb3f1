(** Invariant of programs that build models. *)
From Verif Require Import PyBase NamesModel NamesProofs PromotionsModel ExprModel ExprSpec UnflatModel UnflatSpec UnflatProofs ExprProofs EffectProofs WorldModel WorldSpec.
From Coq Require Import Lia.
Set Implicit Arguments.
Local Open Scope list_scope.

Lemma banned_no_dot n : check_banned_chars n = Ok tt -> has_dot n = false.
Proof.
  unfold check_banned_chars. destruct (all_chars char_ok n) eqn:E; [|discriminate]. intros _. unfold has_dot.
  assert (H : count_dots n = 0); [|rewrite H; reflexivity].
  induction n as [|c r IH]; cbn in *; [reflexivity|]. apply andb_prop in E. destruct E as [E1 E2].
  destruct (Ascii.eqb_spec c "."%char) as [->|_]; [discriminate|auto].
Qed.

Section Used.
Variable used : N.

(** The process seen from the invariant: lists of each model, creator of each object, custom
    operations already applied. *)
Record st := St { t_heap : list obj; t_count : N; t_own : list nat; t_ins : nat -> list nat; t_outs : nat -> list nat; t_decls : nat -> list nat; t_ap : list nat }.
Definition owned (t : st) (i k : nat) : Prop := nth_error (t_own t) i = Some k.

Record oinv (t : st) (i k : nat) (ob : obj) : Prop := {
  o_op : is_op ob = true -> ob_name ob = hex_id (ob_num ob);
  o_name : ob_name ob = hex_id (ob_num ob) \/ chosen_name used (ob_name ob);
  o_in : ob_kind ob = KIn -> In i (t_ins t k) /\ chosen_name used (ob_name ob) /\ ob_deps ob = [];
  o_decl : ob_kind ob = KDecl -> In i (t_decls t k) /\ chosen_name used (ob_name ob) /\ ob_deps ob = [];
  o_con : ob_kind ob = KConcat -> In i (t_outs t k) /\ chosen_name used (ob_name ob) /\ (ob_defined ob = false -> ob_deps ob = []);
  o_deps : forall d, In d (ob_deps ob) -> owned t d k;
  o_outs : forall d, In d (ob_outs ob) -> owned t d k;
  o_dec : forall d, ob_decomp ob = Some d -> owned t d k /\ exists od, nth_error (t_heap t) d = Some od /\ ob_kind od = KOp false;
  o_link : is_op ob = false -> forall o, In o (ob_deps ob) -> writes (t_heap t) o i;
  o_nodup : NoDup (ob_outs ob);
  o_cust : ob_kind ob = KOp true -> ~ In i (t_ap t) -> ob_outs ob = []
}.

Definition leaf_ok (t : st) (kd : okind) (k i : nat) : Prop :=
  exists ob, nth_error (t_heap t) i = Some ob /\ owned t i k /\ ob_kind ob = kd /\ has_dot (ob_name ob) = false.
Definition out_ok (t : st) (k i : nat) : Prop :=
  exists ob, nth_error (t_heap t) i = Some ob /\ owned t i k /\ is_output ob = true /\ chosen_name used (ob_name ob) /\ has_dot (ob_name ob) = false.

Record inv (t : st) : Prop := {
  i_sinv : sinv (t_heap t);
  i_own : length (t_own t) = length (t_heap t);
  i_obj : forall i ob k, nth_error (t_heap t) i = Some ob -> owned t i k -> oinv t i k ob;
  i_num : NoDup (map ob_num (t_heap t));
  i_few : forall o, In o (t_heap t) -> (ob_num o < t_count t)%N;
  i_ins : forall k i, In i (t_ins t k) -> leaf_ok t KIn k i;
  i_outs : forall k i, In i (t_outs t k) -> out_ok t k i;
  i_decls : forall k i, In i (t_decls t k) -> leaf_ok t KDecl k i
}.

(** Later states. *)
Record wext (t t' : st) : Prop := {
  x_obj : forall i ob, nth_error (t_heap t) i = Some ob -> exists ob', nth_error (t_heap t') i = Some ob' /\ ob_kind ob' = ob_kind ob /\
     (ob_name ob' = ob_name ob \/ (is_output ob = true /\ chosen_name used (ob_name ob') /\ has_dot (ob_name ob') = false));
  x_own : forall i k, owned t i k -> owned t' i k;
  x_ins : forall k i, In i (t_ins t k) -> In i (t_ins t' k);
  x_outs : forall k i, In i (t_outs t k) -> In i (t_outs t' k);
  x_decls : forall k i, In i (t_decls t k) -> In i (t_decls t' k);
  x_writes : forall o v, writes (t_heap t) o v -> writes (t_heap t') o v;
  x_ap : forall i, In i (t_ap t) -> In i (t_ap t')
}.

Lemma oinv_ext t t' i k ob : wext t t' -> oinv t i k ob -> oinv t' i k ob.
Proof.
  intros [X1 X2 X3 X4 X5 X6 X7] [A1 A2 A3 A4 A5 A6 A7 A8 A9 A10 A11]. split; auto.
  - intros H. destruct (A3 H) as (? & ? & ?). auto.
  - intros H. destruct (A4 H) as (? & ? & ?). auto.
  - intros H. destruct (A5 H) as (? & ? & ?). auto.
  - intros d H. destruct (A8 d H) as (B & od & E & K). split; [auto|]. destruct (X1 _ _ E) as (od' & E' & K' & _). exists od'. split; [exact E'|congruence].
Qed.
Lemma leaf_ext t t' kd k i : wext t t' -> (kd = KIn \/ kd = KDecl) -> leaf_ok t kd k i -> leaf_ok t' kd k i.
Proof.
  intros X D (ob & E & O & K & H). destruct (x_obj X _ E) as (ob' & E' & K' & N). exists ob'. split; [exact E'|]. split; [apply (x_own X), O|]. split; [congruence|].
  destruct N as [->|(N & _)]; [exact H|]. unfold is_output in N. rewrite K in N. destruct D as [->| ->]; discriminate.
Qed.
Lemma out_ext t t' k i : wext t t' -> out_ok t k i -> out_ok t' k i.
Proof.
  intros X (ob & E & O & K & C & H). destruct (x_obj X _ E) as (ob' & E' & K' & N). exists ob'. split; [exact E'|]. split; [apply (x_own X), O|].
  split; [unfold is_output in *; rewrite K'; exact K|]. destruct N as [->|(_ & N1 & N2)]; auto.
Qed.

Lemma inv_next t t' : inv t -> wext t t' -> sinv (t_heap t') -> length (t_own t') = length (t_heap t') ->
  NoDup (map ob_num (t_heap t')) -> (forall o, In o (t_heap t') -> (ob_num o < t_count t')%N) ->
  (forall i ob k, nth_error (t_heap t') i = Some ob -> owned t' i k -> (nth_error (t_heap t) i = Some ob /\ owned t i k) \/ oinv t' i k ob) ->
  (forall k i, In i (t_ins t' k) -> In i (t_ins t k) \/ leaf_ok t' KIn k i) ->
  (forall k i, In i (t_outs t' k) -> In i (t_outs t k) \/ out_ok t' k i) ->
  (forall k i, In i (t_decls t' k) -> In i (t_decls t k) \/ leaf_ok t' KDecl k i) -> inv t'.
Proof.
  intros I X S L N F O A B C. split; auto.
  - intros i ob k E Ow. destruct (O i ob k E Ow) as [[E' Ow']|H]; [|exact H]. eapply oinv_ext; [exact X|]. eapply i_obj; eauto.
  - intros k i H. destruct (A k i H) as [H'|H']; [|exact H']. eapply leaf_ext; [exact X|auto|]. apply (i_ins I), H'.
  - intros k i H. destruct (B k i H) as [H'|H']; [|exact H']. eapply out_ext; [exact X|]. apply (i_outs I), H'.
  - intros k i H. destruct (C k i H) as [H'|H']; [|exact H']. eapply leaf_ext; [exact X|auto|]. apply (i_decls I), H'.
Qed.

(** A method of model [k] at work. *)
Definition ovr (f : nat -> list nat) (k : nat) (l : list nat) : nat -> list nat := fun j => if Nat.eqb j k then l else f j.
Lemma In_ovr f k l j i : In i (ovr f k l j) <-> (j = k /\ In i l) \/ (j <> k /\ In i (f j)).
Proof. unfold ovr. destruct (Nat.eqb_spec j k) as [->|H]; intuition congruence. Qed.
Definition mk (I O D : nat -> list nat) (ap own : list nat) (k : nat) (s : bst) : st :=
  St (b_heap s) (b_count s) own (ovr I k (b_ins s)) (ovr O k (b_outs s)) (ovr D k (b_decls s)) ap.

Lemma nth_repeat {A} (x : A) n j y : nth_error (repeat x n) j = Some y -> y = x.
Proof. intros H. apply nth_error_In in H. apply repeat_spec in H. exact H. Qed.
Lemma nth_repeat_lt {A} (x : A) n j : j < n -> nth_error (repeat x n) j = Some x.
Proof. revert j. induction n; intros [|j] H; cbn; try lia; auto. apply IHn. lia. Qed.

Lemma owned_app (own : list nat) k n i k' : nth_error (own ++ repeat k n) i = Some k' -> nth_error own i = Some k' \/ (length own <= i /\ k' = k).
Proof.
  intros H. destruct (Nat.lt_ge_cases i (length own)) as [Hl|Hl]; [rewrite nth_error_app1 in H by exact Hl; auto|].
  rewrite nth_error_app2 in H by exact Hl. right. split; [exact Hl|]. eapply nth_repeat, H.
Qed.
Lemma owned_old (own r : list nat) i (k : nat) : nth_error own i = Some k -> nth_error (own ++ r) i = Some k.
Proof. apply EffectProofs.nth_app_old. Qed.
Lemma owned_new (own : list nat) (k : nat) n i : length own <= i < length own + n -> nth_error (own ++ repeat k n) i = Some k.
Proof. intros H. rewrite nth_error_app2 by lia. apply nth_repeat_lt. lia. Qed.
Lemma repeat_more {A} (l : list A) x n m : (l ++ repeat x n) ++ repeat x m = l ++ repeat x (n + m).
Proof. rewrite <- app_assoc, repeat_app. reflexivity. Qed.

Lemma nums_upd h i (f : obj -> obj) : (forall o, ob_num (f o) = ob_num o) -> map ob_num (upd h i f) = map ob_num h.
Proof. intros F. revert i. induction h as [|x r IH]; intros [|i]; cbn; rewrite ?F, ?IH; auto. Qed.
Lemma In_upd (h : list obj) i f o : In o (upd h i f) -> exists o', In o' h /\ (o = o' \/ o = f o').
Proof.
  revert i. induction h as [|x r IH]; intros [|i]; cbn; [intros []|intros []| |].
  - intros [<-|H]; eauto.
  - intros [<-|H]; eauto. destruct (IH _ H) as (o' & H1 & H2). eauto.
Qed.
Lemma few_upd h i (f : obj -> obj) c : (forall o, ob_num (f o) = ob_num o) -> (forall o, In o h -> (ob_num o < c)%N) -> forall o, In o (upd h i f) -> (ob_num o < c)%N.
Proof. intros F H o Ho. apply In_upd in Ho. destruct Ho as (o' & H1 & [->| ->]); [auto|rewrite F; auto]. Qed.
Lemma nums_app h c r : (forall o, In o h -> (ob_num o < c)%N) -> NoDup (map ob_num h) -> NoDup (map ob_num r) ->
  (forall o, In o r -> (c <= ob_num o)%N) -> NoDup (map ob_num (h ++ r)).
Proof.
  intros H N M B. rewrite map_app. induction h as [|x h IH]; [exact M|]. cbn in *. inversion N as [|? ? N1 N2]; subst. constructor.
  - rewrite in_app_iff. intros [Q|Q]; [contradiction|]. apply in_map_iff in Q. destruct Q as (o & E & Ho). specialize (B o Ho). specialize (H x (or_introl eq_refl)). lia.
  - apply IH; auto.
Qed.

Lemma out_objs_num op names : forall c, NoDup (map ob_num (out_objs op c names)) /\
  (forall o, In o (out_objs op c names) -> (c <= ob_num o < c + N.of_nat (length names))%N).
Proof.
  induction names as [|n r IH]; intros c; cbn [out_objs map length]; [split; [constructor|intros o []]|].
  destruct (IH (c + 1)%N) as [N B]. split.
  - constructor; [|exact N]. intros H. apply in_map_iff in H. destruct H as (o & E & Ho). apply B in Ho. cbn in E. lia.
  - intros o [<-|Ho]; [cbn; lia|]. apply B in Ho. lia.
Qed.
Lemma out_objs_nth op names : forall c j o, nth_error (out_objs op c names) j = Some o ->
  exists n, nth_error names j = Some n /\ o = Obj KOut (c + N.of_nat j)%N (match n with Some x => x | None => hex_id (c + N.of_nat j) end) [op] [] None false.
Proof.
  induction names as [|n r IH]; intros c [|j] o H; cbn in H; try discriminate.
  - injection H as <-. exists n. split; [reflexivity|]. rewrite N.add_0_r. reflexivity.
  - apply IH in H. destruct H as (n' & E & ->). exists n'. split; [exact E|]. replace (c + N.of_nat (S j))%N with (c + 1 + N.of_nat j)%N by lia. reflexivity.
Qed.

Lemma writes_app h r o v : writes h o v -> writes (h ++ r) o v.
Proof. intros (ob & E & H). exists ob. split; [apply EffectProofs.nth_app_old, E|exact H]. Qed.
Lemma writes_upd h i (f : obj -> obj) o v : (forall x, nth_error h i = Some x -> ob_kind (f x) = ob_kind x /\ (forall y, is_op x = true -> In y (ob_outs x) -> In y (ob_outs (f x)))) ->
  writes h o v -> writes (upd h i f) o v.
Proof.
  intros F (ob & E & O & H). destruct (Nat.eq_dec i o) as [->|Hne].
  - exists (f ob). rewrite nth_upd, Nat.eqb_refl, E. destruct (F _ E) as [F1 F2]. split; [reflexivity|]. split; [unfold is_op in *; rewrite F1; exact O|auto].
  - exists ob. rewrite nth_upd. destruct (Nat.eqb_spec i o); [contradiction|]. auto.
Qed.
End Used.
