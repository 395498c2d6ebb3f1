(** Names of the objects created by a history. *)
From Verif Require Import PyBase NamesModel NamesProofs Digraph ExprModel UnflatModel UnflatSpec UnflatProofs UnflatProofs2 ExprProofs ExprSpec.
Set Implicit Arguments.

(** The generated ids have five characters, the first 63^4 begin with an underscore. *)
Lemma pad_len k : 1 <= k -> String.length (drop_n k "_0000") = 5 - k /\ (k <= 4 -> exists r, drop_n k "_0000" = String "_"%char r).
Proof.
  intros H. destruct (pad_cases k H) as [(-> & E)|[(-> & E)|[(-> & E)|[(-> & E)|(L & E)]]]]; rewrite E; cbn [String.length]; (split; [lia|intros Q; try (eexists; reflexivity); lia]).
Qed.
Lemma digits_short f n : (N.to_nat (N.size n) < f)%nat -> (n < 63 ^ 4)%N -> String.length (digits f n) <= 4.
Proof.
  intros Hf Hn. change (63 ^ 4)%N with 15752961%N in Hn.
  destruct f as [|f]; [lia|]. cbn [digits].
  destruct (N.eqb_spec (n / 63) 0) as [E1|E1]; [simpl; lia|].
  pose proof (size_half (n/63) n ltac:(lia) E1) as S1.
  destruct f as [|f]; [lia|]. cbn [digits].
  destruct (N.eqb_spec (n / 63 / 63) 0) as [E2|E2]; [simpl; lia|].
  pose proof (size_half (n/63/63) (n/63) ltac:(lia) E2) as S2.
  destruct f as [|f]; [lia|]. cbn [digits].
  destruct (N.eqb_spec (n / 63 / 63 / 63) 0) as [E3|E3]; [simpl; lia|].
  pose proof (size_half (n/63/63/63) (n/63/63) ltac:(lia) E3) as S3.
  destruct f as [|f]; [lia|]. cbn [digits].
  destruct (N.eqb_spec (n / 63 / 63 / 63 / 63) 0) as [E4|E4]; [simpl; lia|].
  exfalso. apply E4. rewrite !N.div_div by lia. apply N.div_small. lia.
Qed.
Lemma hex_id_len k : (k < 62 * 63 ^ 4)%N -> String.length (hex_id k) = 5 /\ ((k < 63 ^ 4)%N -> exists r, hex_id k = String "_"%char r).
Proof.
  intros Hk. assert (Hbig : (62 * 63 ^ 4 < 63 * 2 ^ 53)%N) by (vm_compute; reflexivity).
  unfold hex_id. rewrite gen_hex_name_eq by (eapply N.lt_trans; eassumption). cbv zeta.
  assert (Hf : (N.to_nat (N.size k) < S (N.to_nat (N.size k)))%nat) by lia.
  pose proof (digits_length_lead _ k Hf Hk) as L. pose proof (@digits_short _ k Hf) as D.
  assert (H1 : 1 <= String.length (digits (S (N.to_nat (N.size k))) k)).
  { pose proof (@digits_nonempty _ k (Nat.lt_0_succ (N.to_nat (N.size k)))) as Q. destruct (digits _ k); [congruence|cbn; lia]. }
  destruct (@pad_len _ H1) as [P1 P2]. rewrite length_append_s, P1. split.
  - destruct L as [L|(c & r & -> & _ & L)]; [|cbn [String.length]]; lia.
  - intros Q. destruct (P2 (D Q)) as (r & ->). cbn. eauto.
Qed.
(** So every name of another length can be chosen, and in programs with at most 63^4 nodes
    every name that does not begin with an underscore. *)
Lemma other_length used n : (used <= 62 * 63 ^ 4)%N -> String.length n <> 5 -> chosen_name used n.
Proof. intros U L k Hk <-. apply L, hex_id_len. lia. Qed.
Lemma no_underscore used n : (used <= 63 ^ 4)%N -> (forall r, n <> String "_"%char r) -> chosen_name used n.
Proof. intros U L k Hk E. destruct (@hex_id_len k) as [_ H]; [lia|]. destruct H as [r H]; [lia|]. apply (L r). congruence. Qed.
Lemma chosen_le a b n : (a <= b)%N -> chosen_name b n -> chosen_name a n.
Proof. intros L C k Hk. apply C. lia. Qed.
Lemma clean_le a b e : (a <= b)%N -> clean_event b e -> clean_event a e.
Proof. intros L (C & D). split; [|exact D]. intros n Hn. eapply chosen_le; eauto. Qed.

(** The number of nodes never decreases. *)
Lemma new_outputs_count op names : forall s, (b_count s <= b_count (fst (new_outputs s op names)))%N.
Proof.
  induction names as [|n r IH]; intros s; cbn [new_outputs]; [cbn; lia|]. destruct (alloc s KOut n [op]) as [s1 v] eqn:A. unfold alloc in A. injection A as <- <-.
  match goal with |- context [new_outputs ?s1 op r] => pose proof (IH s1) as Q; destruct (new_outputs s1 op r) as [s2 vs] end. cbn in *. lia.
Qed.
Lemma new_op_count s args names : (b_count s <= b_count (fst (new_op s args names)))%N.
Proof.
  unfold new_op. destruct (alloc s (KOp false) None args) as [s1 op] eqn:A. pose proof (new_outputs_count op names s1) as Q. destruct (new_outputs s1 op names) as [s2 vs].
  unfold alloc in A. injection A as <- _. cbn in *. lia.
Qed.
Lemma dedup_count args : forall s seen, (b_count s <= b_count (fst (dedup_args s seen args)))%N.
Proof.
  induction args as [|a r IH]; intros s seen; cbn [dedup_args]; [cbn; lia|]. destruct (memn a seen).
  - pose proof (new_op_count s [a] [None]) as Q. destruct (new_op s [a] [None]) as [s1 vs]. set (a' := match vs with v :: _ => v | [] => a end).
    pose proof (IH s1 (a' :: seen)) as Q2. destruct (dedup_args s1 (a' :: seen) r) as [s2 l]. cbn in *. lia.
  - pose proof (IH s (a :: seen)) as Q2. destruct (dedup_args s (a :: seen) r) as [s2 l]. cbn in *. lia.
Qed.
Lemma register_count s n v : b_count (register s n v) = b_count s.
Proof. destruct (register_cases s n v) as [->|(-> & _)]; reflexivity. Qed.
Lemma bstep_count s e : (b_count s <= b_count (bstep s e))%N.
Proof.
  destruct e as [k|n|n|n|args no|args os| |op args os|x fresh|y x|v op|n v|on]; cbn [bstep].
  - cbn. lia.
  - destruct (is_ok _); cbn; lia.
  - cbn. lia.
  - destruct (is_ok _); [|lia]. destruct (alloc s KConcat (Some n) []) as [s1 v] eqn:A. unfold alloc in A. injection A as <- <-.
    destruct (memn _ _); [rewrite register_count|]; cbn; lia.
  - destruct (forallb _ args); [|lia]. pose proof (dedup_count args s []) as Q. destruct (dedup_args s [] args) as [s1 l].
    pose proof (new_op_count s1 l (repeat None no)). cbn [fst] in *. lia.
  - destruct (forallb _ args); [|lia]. apply new_op_count.
  - cbn. lia.
  - destruct (_ && _); [|lia]. match goal with |- context [new_outputs ?s1 op ?l] => pose proof (new_outputs_count op l s1) as Q; destruct (new_outputs s1 op l) as [s2 vs] end. cbn in *. lia.
  - destruct (nth_error (b_heap s) x) as [o|]; [|lia]. destruct (is_variable o); [|lia]. destruct (ob_decomp o), fresh; cbn; lia.
  - destruct (nth_error (b_heap s) y) as [o|]; [|lia]. destruct (ob_kind o); try lia. destruct (kind_is _ s x); [|lia]. destruct (ob_defined o); [destruct (ob_deps o)|]; cbn; lia.
  - destruct (nth_error (b_heap s) v) as [o|]; [|lia]. destruct (_ && _); cbn; lia.
  - rewrite register_count. lia.
  - destruct on as [n|]; [destruct (_ && _)|]; cbn; lia.
Qed.

Section Names.
Variable used : N.

Record ninv (nm : bool) (s : bst) : Prop := {
  n_num : forall i ob, nth_error (b_heap s) i = Some ob -> (ob_num ob < b_count s)%N;
  n_inj : forall i j a b, nth_error (b_heap s) i = Some a -> nth_error (b_heap s) j = Some b -> ob_num a = ob_num b -> i = j;
  n_op : forall i ob, nth_error (b_heap s) i = Some ob -> is_op ob = true -> ob_name ob = hex_id (ob_num ob);
  n_name : forall i ob, nth_error (b_heap s) i = Some ob -> ob_name ob = hex_id (ob_num ob) \/ chosen_name used (ob_name ob);
  n_out : forall i ob, nth_error (b_heap s) i = Some ob -> ob_kind ob = KOut -> nm = false -> ob_name ob = hex_id (ob_num ob) \/ In i (b_outs s);
  n_con : forall i ob, nth_error (b_heap s) i = Some ob -> ob_kind ob = KConcat -> In i (b_outs s);
  n_leaf : forall i ob, nth_error (b_heap s) i = Some ob -> ob_kind ob = KIn \/ ob_kind ob = KDecl -> ob_deps ob = [];
  n_ins : forall i, In i (b_ins s) -> exists ob, nth_error (b_heap s) i = Some ob /\ ob_kind ob = KIn;
  n_decls : forall i, In i (b_decls s) -> exists ob, nth_error (b_heap s) i = Some ob /\ ob_kind ob = KDecl;
  n_outs : forall i, In i (b_outs s) -> exists ob, nth_error (b_heap s) i = Some ob /\ is_output ob = true /\ chosen_name used (ob_name ob);
  n_uniq : forall i j n, In i (b_outs s) -> In j (b_outs s) -> named (b_heap s) i n -> named (b_heap s) j n -> i = j;
  n_subs : forall n, In n (b_subs s) -> chosen_name used n
}.

(** Updates that keep kind, number and name. *)
Lemma ninv_upd nm s i f : ninv nm s ->
  (forall o, ob_kind (f o) = ob_kind o /\ ob_num (f o) = ob_num o /\ ob_name (f o) = ob_name o) ->
  (forall o, nth_error (b_heap s) i = Some o -> ob_kind o = KIn \/ ob_kind o = KDecl -> ob_deps (f o) = ob_deps o) ->
  ninv nm (with_objs s (upd (b_heap s) i f)).
Proof.
  intros [A1 A2 A3 A4 A5 A6 A7 A8 A9 A10 A11 A12] K D.
  assert (G : forall j ob, nth_error (upd (b_heap s) i f) j = Some ob -> exists o, nth_error (b_heap s) j = Some o /\
     ob_kind ob = ob_kind o /\ ob_num ob = ob_num o /\ ob_name ob = ob_name o /\ (ob_kind o = KIn \/ ob_kind o = KDecl -> ob_deps ob = ob_deps o)).
  { intros j ob E. rewrite nth_upd in E. destruct (Nat.eqb_spec i j) as [<-|_].
    - destruct (nth_error (b_heap s) i) as [o|] eqn:Eo; [|discriminate]. injection E as <-. exists o. destruct (K o) as (K1 & K2 & K3). auto 8.
    - exists ob. auto 8. }
  assert (G' : forall j o, nth_error (b_heap s) j = Some o -> exists ob, nth_error (upd (b_heap s) i f) j = Some ob /\
     ob_kind ob = ob_kind o /\ ob_num ob = ob_num o /\ ob_name ob = ob_name o).
  { intros j o E. rewrite nth_upd, E. destruct (Nat.eqb i j); [|eauto]. cbn. exists (f o). destruct (K o) as (K1 & K2 & K3). auto. }
  assert (KO : forall a b : obj, ob_kind a = ob_kind b -> is_op a = is_op b /\ is_output a = is_output b) by (intros a b H; unfold is_op, is_output; rewrite H; auto).
  split; cbn [b_heap with_objs b_count b_ins b_outs b_decls b_subs]; auto.
  - intros j ob E. destruct (G j ob E) as (o & Eo & K1 & K2 & K3 & K4). rewrite K2. eauto.
  - intros j k a b E E' H. destruct (G j a E) as (o & Eo & K1 & K2 & K3 & K4). destruct (G k b E') as (o' & Eo' & K1' & K2' & K3' & K4').
    rewrite K2, K2' in H. eauto.
  - intros j ob E H. destruct (G j ob E) as (o & Eo & K1 & K2 & K3 & K4). rewrite K2, K3. apply (A3 _ _ Eo). rewrite <- H. symmetry. apply KO, K1.
  - intros j ob E. destruct (G j ob E) as (o & Eo & K1 & K2 & K3 & K4). rewrite K2, K3. eauto.
  - intros j ob E Hk Hn. destruct (G j ob E) as (o & Eo & K1 & K2 & K3 & K4). rewrite K2, K3. rewrite K1 in Hk. eauto.
  - intros j ob E Hk. destruct (G j ob E) as (o & Eo & K1 & K2 & K3 & K4). rewrite K1 in Hk. eauto.
  - intros j ob E Hk. destruct (G j ob E) as (o & Eo & K1 & K2 & K3 & K4). rewrite K1 in Hk. rewrite K4 by exact Hk. eauto.
  - intros j Hj. destruct (A8 j Hj) as (o & Eo & Hk). destruct (G' j o Eo) as (ob & E & K1 & _). exists ob. split; [exact E|congruence].
  - intros j Hj. destruct (A9 j Hj) as (o & Eo & Hk). destruct (G' j o Eo) as (ob & E & K1 & _). exists ob. split; [exact E|congruence].
  - intros j Hj. destruct (A10 j Hj) as (o & Eo & Hk & Hc). destruct (G' j o Eo) as (ob & E & K1 & _ & K3). exists ob. split; [exact E|].
    rewrite K3. split; [|exact Hc]. rewrite <- Hk. apply KO, K1.
  - intros j k n Hj Hk (a & E & Ha) (b & E' & Hb). destruct (G j a E) as (o & Eo & K1 & K2 & K3 & K4). destruct (G k b E') as (o' & Eo' & K1' & K2' & K3' & K4').
    apply (A11 j k n Hj Hk); [exists o|exists o']; split; congruence.
Qed.

Lemma ninv_bump nm s k : ninv nm s -> ninv nm (bump s k).
Proof.
  intros [A1 A2 A3 A4 A5 A6 A7 A8 A9 A10 A11 A12]. split; cbn; auto. intros i ob E. specialize (A1 i ob E). lia.
Qed.

Lemma ninv_alloc nm s k n deps s' v : ninv nm s -> alloc s k n deps = (s', v) -> k <> KConcat ->
  (k = KIn \/ k = KDecl -> deps = []) ->
  (match n with Some x => chosen_name used x /\ (match k with KOp _ => False | _ => True end) /\ (k = KOut -> nm = true) | None => True end) ->
  ninv nm s' /\ v = length (b_heap s) /\ (exists ob, nth_error (b_heap s') v = Some ob /\ ob_kind ob = k).
Proof.
  intros [A1 A2 A3 A4 A5 A6 A7 A8 A9 A10 A11 A12] H KC KD KN. unfold alloc in H. injection H as <- <-.
  split; [|split; [reflexivity|eexists; split; [apply nth_app_new|reflexivity]]].
  set (o := Obj _ _ _ _ _ _ _).
  assert (Old : forall i, i < length (b_heap s) -> nth_error (b_heap s ++ [o]) i = nth_error (b_heap s) i) by (intros i Hi; apply nth_error_app1, Hi).
  assert (OB : forall i, In i (b_outs s) -> i < length (b_heap s)).
  { intros i Hi. destruct (A10 i Hi) as (ob & E & _). apply nth_error_Some. congruence. }
  split; cbn [b_heap with_objs bump b_count b_ins b_outs b_decls b_subs]; auto.
  - intros i ob E. apply nth_app_last in E. destruct E as [E|[-> ->]]; [specialize (A1 _ _ E); lia|]. cbn. lia.
  - intros i j a b E E' Hn. apply nth_app_last in E, E'. destruct E as [E|[-> ->]], E' as [E'|[-> ->]]; auto.
    + eauto.
    + specialize (A1 _ _ E). cbn in Hn. lia.
    + specialize (A1 _ _ E'). cbn in Hn. lia.
  - intros i ob E Ho. apply nth_app_last in E. destruct E as [E|[-> ->]]; [eauto|]. cbn. destruct n; [|reflexivity].
    destruct KN as (_ & KN & _). unfold is_op in Ho. cbn in Ho. destruct k; try discriminate. destruct KN.
  - intros i ob E. apply nth_app_last in E. destruct E as [E|[-> ->]]; [eauto|]. cbn. destruct n; [right; apply KN|auto].
  - intros i ob E Hk Hnm. apply nth_app_last in E. destruct E as [E|[-> ->]]; [eauto|]. cbn. destruct n; [|auto]. cbn in Hk.
    destruct KN as (_ & _ & KN). rewrite (KN Hk) in Hnm. discriminate.
  - intros i ob E Hk. apply nth_app_last in E. destruct E as [E|[-> ->]]; [eauto|]. cbn in Hk. contradiction.
  - intros i ob E Hk. apply nth_app_last in E. destruct E as [E|[-> ->]]; [eauto|]. cbn in *. auto.
  - intros i Hi. destruct (A8 i Hi) as (ob & E & Hk). exists ob. split; [apply nth_app_old, E|exact Hk].
  - intros i Hi. destruct (A9 i Hi) as (ob & E & Hk). exists ob. split; [apply nth_app_old, E|exact Hk].
  - intros i Hi. destruct (A10 i Hi) as (ob & E & Hk). exists ob. split; [apply nth_app_old, E|exact Hk].
  - intros i j x Hi Hj (a & E & Ha) (b & E' & Hb). rewrite Old in E, E' by auto. apply (A11 i j x Hi Hj); [exists a|exists b]; auto.
Qed.

Lemma ninv_new_outputs nm op names : forall s s' vs, ninv nm s -> new_outputs s op names = (s', vs) ->
  (forall n, In (Some n) names -> chosen_name used n /\ nm = true) -> ninv nm s'.
Proof.
  induction names as [|n r IH]; intros s s' vs N H HN; cbn [new_outputs] in H; [injection H as <- <-; exact N|].
  destruct (alloc s KOut n [op]) as [s1 v1] eqn:A. destruct (new_outputs s1 op r) as [s2 vs2] eqn:R. injection H as <- <-.
  destruct (@ninv_alloc nm s KOut n [op] s1 v1 N A) as (N1 & _); [discriminate|intros [H|H]; discriminate| |].
  - destruct n as [x|]; [|exact I]. destruct (HN x (or_introl eq_refl)) as [H1 H2]. auto.
  - apply (IH s1 s2 vs2 N1 R). intros x Hx. apply HN. right. exact Hx.
Qed.

Lemma ninv_new_op nm s args names s' vs : ninv nm s -> new_op s args names = (s', vs) ->
  (forall n, In (Some n) names -> chosen_name used n /\ nm = true) -> ninv nm s'.
Proof.
  intros N H HN. unfold new_op in H. destruct (alloc s (KOp false) None args) as [s1 op] eqn:A.
  destruct (new_outputs s1 op names) as [s2 vs2] eqn:R. injection H as <- <-.
  destruct (@ninv_alloc nm s (KOp false) None args s1 op N A) as (N1 & _); [discriminate|intros [H|H]; discriminate|exact I|].
  apply ninv_upd; [exact (@ninv_new_outputs nm op names s1 s2 vs2 N1 R HN)|intros o; auto|intros; reflexivity].
Qed.

Lemma ninv_dedup nm args : forall s seen s' l, ninv nm s -> dedup_args s seen args = (s', l) -> ninv nm s'.
Proof.
  induction args as [|a r IH]; intros s seen s' l N H; cbn [dedup_args] in H; [injection H as <- <-; exact N|].
  destruct (memn a seen).
  - destruct (new_op s [a] [None]) as [s1 vs] eqn:NO.
    destruct (dedup_args s1 _ r) as [s2 l2] eqn:R. injection H as <- <-.
    eapply IH; [|exact R]. eapply ninv_new_op; [exact N|exact NO|]. intros n [Hn|[]]; discriminate.
  - destruct (dedup_args s (a :: seen) r) as [s2 l2] eqn:R. injection H as <- <-. eapply IH; eassumption.
Qed.

Lemma ninv_register_gen nm s n v : chosen_name used n ->
  (* all of [ninv] except that [v] may be a Concatenation not yet registered *)
  (forall i ob, nth_error (b_heap s) i = Some ob -> (ob_num ob < b_count s)%N) ->
  (forall i j a b, nth_error (b_heap s) i = Some a -> nth_error (b_heap s) j = Some b -> ob_num a = ob_num b -> i = j) ->
  (forall i ob, nth_error (b_heap s) i = Some ob -> is_op ob = true -> ob_name ob = hex_id (ob_num ob)) ->
  (forall i ob, nth_error (b_heap s) i = Some ob -> ob_name ob = hex_id (ob_num ob) \/ chosen_name used (ob_name ob)) ->
  (forall i ob, nth_error (b_heap s) i = Some ob -> ob_kind ob = KOut -> nm = false -> ob_name ob = hex_id (ob_num ob) \/ In i (b_outs s)) ->
  (forall i ob, nth_error (b_heap s) i = Some ob -> ob_kind ob = KConcat -> In i (b_outs s) \/ i = v) ->
  (forall i ob, nth_error (b_heap s) i = Some ob -> ob_kind ob = KIn \/ ob_kind ob = KDecl -> ob_deps ob = []) ->
  (forall i, In i (b_ins s) -> exists ob, nth_error (b_heap s) i = Some ob /\ ob_kind ob = KIn) ->
  (forall i, In i (b_decls s) -> exists ob, nth_error (b_heap s) i = Some ob /\ ob_kind ob = KDecl) ->
  (forall i, In i (b_outs s) -> exists ob, nth_error (b_heap s) i = Some ob /\ is_output ob = true /\ chosen_name used (ob_name ob)) ->
  (forall i j n, In i (b_outs s) -> In j (b_outs s) -> named (b_heap s) i n -> named (b_heap s) j n -> i = j) ->
  (forall n, In n (b_subs s) -> chosen_name used n) ->
  register s n v <> s -> ninv nm (register s n v).
Proof.
  intros C A1 A2 A3 A4 A5 A6 A7 A8 A9 A10 A11 A12 HR.
  destruct (register_cases s n v) as [E|(E & (ov & Ev & Ov) & Hv & Hn & _)]; [contradiction|]. rewrite E.
  assert (G : forall j, nth_error (upd (b_heap s) v (set_name n)) j = if Nat.eqb v j then Some (set_name n ov) else nth_error (b_heap s) j).
  { intros j. rewrite nth_upd. destruct (Nat.eqb_spec v j) as [<-|_]; [rewrite Ev|]; reflexivity. }
  assert (G1 : forall j ob, nth_error (upd (b_heap s) v (set_name n)) j = Some ob -> exists o, nth_error (b_heap s) j = Some o /\
     ob_kind ob = ob_kind o /\ ob_num ob = ob_num o /\ ob_deps ob = ob_deps o /\ (ob_name ob = ob_name o \/ (j = v /\ ob_name ob = n))).
  { intros j ob Ej. rewrite G in Ej. destruct (Nat.eqb_spec v j) as [<-|Hne]; [|exists ob; auto 8].
    injection Ej as <-. exists ov. cbn. auto 8. }
  split; cbn [b_heap with_objs add_out b_count b_ins b_outs b_decls b_subs]; auto.
  - intros i ob Ei. destruct (G1 i ob Ei) as (o & Eo & K1 & K2 & K3 & K4). rewrite K2. eauto.
  - intros i j a b Ei Ej H. destruct (G1 i a Ei) as (o & Eo & K1 & K2 & K3 & K4). destruct (G1 j b Ej) as (o' & Eo' & K1' & K2' & K3' & K4').
    rewrite K2, K2' in H. eauto.
  - intros i ob Ei Ho. destruct (G1 i ob Ei) as (o & Eo & K1 & K2 & K3 & K4). unfold is_op in Ho. rewrite K1 in Ho. rewrite K2.
    destruct K4 as [->|[-> _]]; [apply (A3 _ _ Eo), Ho|]. exfalso. rewrite Ev in Eo. injection Eo as <-.
    unfold is_output in Ov. destruct (ob_kind ov); discriminate.
  - intros i ob Ei. destruct (G1 i ob Ei) as (o & Eo & K1 & K2 & K3 & K4). rewrite K2. destruct K4 as [->|[-> ->]]; [eauto|auto].
  - intros i ob Ei Hk Hnm. destruct (G1 i ob Ei) as (o & Eo & K1 & K2 & K3 & K4). rewrite K1 in Hk. rewrite K2, in_app_iff. cbn.
    destruct K4 as [->|[-> ->]]; [|auto]. destruct (A5 _ _ Eo Hk Hnm); auto.
  - intros i ob Ei Hk. destruct (G1 i ob Ei) as (o & Eo & K1 & K2 & K3 & K4). rewrite K1 in Hk. rewrite in_app_iff. cbn.
    destruct (A6 _ _ Eo Hk) as [H| ->]; auto.
  - intros i ob Ei Hk. destruct (G1 i ob Ei) as (o & Eo & K1 & K2 & K3 & K4). rewrite K1 in Hk. rewrite K3. eauto.
  - intros i Hi. destruct (A8 i Hi) as (o & Eo & Hk). rewrite G. destruct (Nat.eqb_spec v i) as [<-|_]; [|eauto].
    eexists. split; [reflexivity|]. cbn. congruence.
  - intros i Hi. destruct (A9 i Hi) as (o & Eo & Hk). rewrite G. destruct (Nat.eqb_spec v i) as [<-|_]; [|eauto].
    eexists. split; [reflexivity|]. cbn. congruence.
  - intros i Hi. rewrite in_app_iff in Hi. rewrite G. destruct (Nat.eqb_spec v i) as [<-|Hne].
    + eexists. split; [reflexivity|]. split; [exact Ov|exact C].
    + destruct Hi as [Hi|[Hi|[]]]; [auto|congruence].
  - intros i j x Hi Hj (a & Ei & Ha) (b & Ej & Hb). rewrite in_app_iff in Hi, Hj. rewrite G in Ei, Ej.
    assert (Q : forall w o, In w (b_outs s) -> nth_error (b_heap s) w = Some o -> ob_name o <> n).
    { intros w o Hw Eo Hno. apply (Hn w); [rewrite in_app_iff; auto|]. exists o. auto. }
    destruct (Nat.eqb_spec v i) as [<-|Hvi], (Nat.eqb_spec v j) as [<-|Hvj]; auto.
    + injection Ei as <-. cbn in Ha. rewrite <- Ha in Hb. destruct Hj as [Hj|[Hj|[]]]; [|congruence]. exfalso. exact (Q j b Hj Ej Hb).
    + injection Ej as <-. cbn in Hb. rewrite <- Hb in Ha. destruct Hi as [Hi|[Hi|[]]]; [|congruence]. exfalso. exact (Q i a Hi Ei Ha).
    + destruct Hi as [Hi|[Hi|[]]]; [|congruence]. destruct Hj as [Hj|[Hj|[]]]; [|congruence].
      apply (A11 i j x Hi Hj); [exists a|exists b]; auto.
Qed.

Lemma ninv_register nm s n v : ninv nm s -> chosen_name used n -> ninv nm (register s n v).
Proof.
  intros N C. destruct (register_cases s n v) as [E|(E & _ & Hv & _)]; [rewrite E; exact N|].
  destruct N as [A1 A2 A3 A4 A5 A6 A7 A8 A9 A10 A11 A12]. apply ninv_register_gen; auto.
  - intros i ob Ei Hk. left. eauto.
  - intros H. rewrite H in E. apply (f_equal b_outs) in E. cbn in E. apply (f_equal (@length nat)) in E. rewrite app_length in E. cbn in E. lia.
Qed.

Lemma ninv_step nm s e : ninv nm s -> sinv (b_heap s) -> clean_event used e -> (nm = false -> unnamed_results e) -> ninv nm (bstep s e).
Proof.
  intros N S CL UN. destruct e as [k|n|n|n|args no|args os| |op args os|x fresh|y x|v op|n v|on]; cbn [bstep] in *;
    unfold clean_event in CL; cbn [chosen_names] in CL; destruct CL as (CL & CD).
  - apply ninv_bump, N.
  - destruct (is_ok (check_banned_chars n)); [|exact N]. destruct (alloc s KIn (Some n) []) as [s1 v] eqn:A.
    destruct (@ninv_alloc nm s KIn (Some n) [] s1 v N A) as (N1 & Ev & Hk); [discriminate|auto| |].
    { split; [apply CL; left; reflexivity|]. split; [exact I|discriminate]. }
    destruct N1 as [A1 A2 A3 A4 A5 A6 A7 A8 A9 A10 A11 A12]. split; cbn; auto.
    intros i Hi. apply in_app_iff in Hi. destruct Hi as [Hi|[<-|[]]]; auto.
  - destruct (alloc s KDecl (Some n) []) as [s1 v] eqn:A.
    destruct (@ninv_alloc nm s KDecl (Some n) [] s1 v N A) as (N1 & Ev & Hk); [discriminate|auto| |].
    { split; [apply CL; left; reflexivity|]. split; [exact I|discriminate]. }
    destruct N1 as [A1 A2 A3 A4 A5 A6 A7 A8 A9 A10 A11 A12]. split; cbn; auto.
    intros i Hi. apply in_app_iff in Hi. destruct Hi as [Hi|[<-|[]]]; auto.
  - destruct (is_ok (check_banned_chars n)) eqn:B; [|exact N]. destruct (alloc s KConcat (Some n) []) as [s1 v] eqn:A.
    assert (C : chosen_name used n) by (apply CL; left; reflexivity).
    destruct (memn v (b_outs (register s1 n v))) eqn:M; [|apply ninv_bump, N]. apply memn_spec in M.
    unfold alloc in A. injection A as <- <-. set (o := Obj _ _ _ _ _ _ _) in *.
    destruct N as [A1 A2 A3 A4 A5 A6 A7 A8 A9 A10 A11 A12].
    assert (OB : forall i, In i (b_outs s) -> i < length (b_heap s)).
    { intros i Hi. destruct (A10 i Hi) as (ob & E & _). apply nth_error_Some. congruence. }
    apply ninv_register_gen; cbn [b_heap with_objs bump b_count b_ins b_outs b_decls b_subs]; auto.
    + intros i ob E. apply nth_app_last in E. destruct E as [E|[-> ->]]; [specialize (A1 _ _ E); lia|]. cbn. lia.
    + intros i j a b E E' Hn. apply nth_app_last in E, E'. destruct E as [E|[-> ->]], E' as [E'|[-> ->]]; auto.
      * eauto.
      * specialize (A1 _ _ E). cbn in Hn. lia.
      * specialize (A1 _ _ E'). cbn in Hn. lia.
    + intros i ob E Ho. apply nth_app_last in E. destruct E as [E|[-> ->]]; [eauto|]. discriminate.
    + intros i ob E. apply nth_app_last in E. destruct E as [E|[-> ->]]; [eauto|]. cbn. auto.
    + intros i ob E Hk Hnm. apply nth_app_last in E. destruct E as [E|[-> ->]]; [eauto|]. discriminate.
    + intros i ob E Hk. apply nth_app_last in E. destruct E as [E|[-> ->]]; [left; eauto|]. auto.
    + intros i ob E Hk. apply nth_app_last in E. destruct E as [E|[-> ->]]; [eauto|]. reflexivity.
    + intros i Hi. destruct (A8 i Hi) as (ob & E & Hk). exists ob. split; [apply nth_app_old, E|exact Hk].
    + intros i Hi. destruct (A9 i Hi) as (ob & E & Hk). exists ob. split; [apply nth_app_old, E|exact Hk].
    + intros i Hi. destruct (A10 i Hi) as (ob & E & Hk). exists ob. split; [apply nth_app_old, E|exact Hk].
    + intros i j x Hi Hj (a & E & Ha) (b & E' & Hb). rewrite nth_error_app1 in E, E' by auto. apply (A11 i j x Hi Hj); [exists a|exists b]; auto.
    + intros H. rewrite H in M. cbn in M. apply OB in M. lia.
  - destruct (forallb _ args); [|exact N].
    destruct (dedup_args s [] args) as [s1 l] eqn:D. destruct (new_op s1 l (repeat None no)) as [s2 vs] eqn:NO. cbn [fst].
    eapply ninv_new_op; [eapply ninv_dedup; eassumption|exact NO|]. intros n Hn. apply repeat_spec in Hn. discriminate.
  - destruct (forallb _ args); [|exact N].
    destruct (new_op s args (map Some os)) as [s2 vs] eqn:NO. cbn [fst]. eapply ninv_new_op; [exact N|exact NO|].
    intros n Hn. apply in_map_iff in Hn. destruct Hn as (x & Ex & Hx). injection Ex as <-. split; [apply CL, Hx|].
    destruct nm; [reflexivity|]. specialize (UN eq_refl). cbn in UN. subst. destruct Hx.
  - destruct (alloc s (KOp true) None []) as [s1 v] eqn:A.
    destruct (@ninv_alloc nm s (KOp true) None [] s1 v N A) as (N1 & _); [discriminate|auto|exact I|exact N1].
  - destruct (kind_is _ s op) eqn:K; [|exact N]. cbn [andb]. destruct (forallb _ args); [|exact N].
    assert (N1 : ninv nm (with_objs s (upd (b_heap s) op (app_deps args)))).
    { apply ninv_upd; [exact N|intros o; auto|]. intros o E Hk. exfalso. unfold kind_is in K. rewrite E in K. destruct Hk as [Hk|Hk]; rewrite Hk in K; discriminate. }
    destruct (new_outputs _ op (map Some os)) as [s2 vs] eqn:NO.
    apply ninv_upd; [|intros o; auto|intros; reflexivity].
    eapply ninv_new_outputs; [exact N1|exact NO|].
    intros n Hn. apply in_map_iff in Hn. destruct Hn as (x & Ex & Hx). injection Ex as <-. split; [apply CL, Hx|].
    destruct nm; [reflexivity|]. specialize (UN eq_refl). cbn in UN. subst. destruct Hx.
  - destruct (nth_error (b_heap s) x) as [o|] eqn:E; [|exact N].
    destruct (is_variable o); [|exact N].
    match goal with |- context [let (_, _) := ?P in _] => destruct P as [s1 d] eqn:P1 end.
    assert (N1 : ninv nm s1).
    { destruct (ob_decomp o); [injection P1 as <- <-; exact N|].
      destruct (alloc s (KOp false) None [x]) as [s' d'] eqn:A. injection P1 as <- <-.
      destruct (@ninv_alloc nm s (KOp false) None [x] s' d' N A) as (N1 & _); [discriminate|intros [H|H]; discriminate|exact I|].
      apply ninv_upd; [exact N1|intros; auto|intros; reflexivity]. }
    destruct fresh; [|exact N1]. destruct (alloc s1 KOut None [d]) as [s2 v] eqn:A.
    destruct (@ninv_alloc nm s1 KOut None [d] s2 v N1 A) as (N2 & _); [discriminate|intros [H|H]; discriminate|exact I|].
    apply ninv_upd; [exact N2|intros; auto|intros; reflexivity].
  - destruct (nth_error (b_heap s) y) as [o|] eqn:E; [|exact N].
    destruct (ob_kind o) eqn:K; try exact N. destruct (kind_is is_variable s x); [|exact N].
    destruct (ob_defined o).
    + destruct (ob_deps o) as [|op dr] eqn:Dp; [exact N|]. apply ninv_upd; [exact N|intros; auto|].
      intros o' Eo Hk. exfalso.
      assert (Oy : is_op o = false) by (unfold is_op; rewrite K; reflexivity).
      destruct (ok_var (S _ _ E) Oy) as [_ [H|(d & H & (od & Ed & Hd))]]; [congruence|]. rewrite Dp in H. injection H as <- _.
      rewrite Eo in Ed. injection Ed as <-. unfold is_op in Hd. destruct Hk as [Hk|Hk]; rewrite Hk in Hd; discriminate.
    + destruct (alloc s (KOp false) None [x]) as [s1 op] eqn:A.
      destruct (@ninv_alloc nm s (KOp false) None [x] s1 op N A) as (N1 & Eop & _); [discriminate|intros [H|H]; discriminate|exact I|].
      assert (N2 : ninv nm (with_objs s1 (upd (b_heap s1) op (set_outs [y])))) by (apply ninv_upd; [exact N1|intros; auto|intros; reflexivity]).
      apply (@ninv_upd nm _ y (set_defined op)) in N2; [exact N2|intros; auto|].
      cbn [b_heap with_objs]. intros o' Eo Hk. exfalso. rewrite nth_upd in Eo.
      assert (Ly : y < length (b_heap s)) by (apply nth_error_Some; congruence).
      destruct (Nat.eqb_spec op y) as [Ey|_]; [subst; lia|].
      unfold alloc in A. injection A as <- _. cbn in Eo. rewrite nth_error_app1 in Eo by exact Ly. rewrite E in Eo. injection Eo as <-.
      rewrite K in Hk. destruct Hk; discriminate.
  - destruct CD.
  - apply ninv_register; [exact N|apply CL; left; reflexivity].
  - destruct on as [n|].
    + destruct (is_ok (check_banned_chars n) && negb (smem n (b_subs s))); [|exact N]. apply ninv_bump.
      destruct N as [A1 A2 A3 A4 A5 A6 A7 A8 A9 A10 A11 A12]. split; cbn; auto.
      intros x Hx. apply in_app_iff in Hx. destruct Hx as [Hx|[<-|[]]]; [auto|]. apply CL. left. reflexivity.
    + destruct CD.
Qed.

Lemma ninv_history nm l : (forall e, In e l -> clean_event used e) -> (nm = false -> forall e, In e l -> unnamed_results e) -> ninv nm (history l).
Proof.
  unfold history.
  assert (H : forall l s, ninv nm s -> sinv (b_heap s) -> (forall e, In e l -> clean_event used e) -> (nm = false -> forall e, In e l -> unnamed_results e) ->
     ninv nm (fold_left bstep l s)).
  { induction l0 as [|e r IH]; intros s N S C U; [exact N|]. cbn. apply IH.
    - apply ninv_step; [exact N|exact S|apply C; left; reflexivity|]. intros Hn. apply (U Hn). left. reflexivity.
    - apply (@bstep_better s e S).
    - intros e' He. apply C. right. exact He.
    - intros Hn e' He. apply (U Hn). right. exact He. }
  intros C U. apply H; auto.
  - assert (Z : forall (i : nat) (ob : obj), nth_error [] i = Some ob -> False) by (intros [|i] ob E; discriminate).
    split; cbn; try tauto; try (intros i ob E; exfalso; exact (Z _ _ E)).
    intros i j a b E. exfalso. exact (Z _ _ E).
  - intros i ob E. destruct i; discriminate.
Qed.
End Names.
