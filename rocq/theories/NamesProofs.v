From Verif Require Import PyBase NamesModel.
Require Import ZifyBool ZifyNat ZifyN.
#[local] Ltac Zify.zify_post_hook ::= Z.div_mod_to_equations.
Local Open Scope N_scope.

Lemma round53_small q : q < 2 ^ 53 -> round53 q = q.
Proof. intros H. unfold round53. destruct (N.ltb_spec q (2^53)); [reflexivity|lia]. Qed.

Lemma next_num_small num : num < 63 * 2 ^ 53 -> next_num num = num / 63.
Proof.
  intros H. unfold next_num, base.
  assert (E : (num - num mod 63) / 63 = num / 63) by lia.
  rewrite E. apply round53_small. lia.
Qed.

Lemma round53_pos_bound q : round53 q <= 2 * q.
Proof.
  unfold round53. destruct (N.ltb_spec q (2^53)) as [H|H]; [lia|].
  assert (Hp : 2 ^ (N.log2 q - 52) <= q).
  { etransitivity; [|apply N.log2_spec; lia]. apply N.pow_le_mono_r; lia. }
  cbv zeta. set (e := N.log2 q - 52) in *.
  assert (Hpe : 2 ^ e <> 0) by (apply N.pow_nonzero; lia).
  generalize dependent (2 ^ e). intros p Hp Hpe.
  assert (q / p * p <= q) by (rewrite N.mul_comm; apply N.mul_div_le; lia).
  destruct (_ <? _); [lia|]. destruct (_ <? _); [lia|]. destruct (N.even _); lia.
Qed.

Lemma next_num_size num : num <> 0 -> next_num num < num.
Proof.
  intros H. unfold next_num, base.
  pose proof (round53_pos_bound ((num - num mod 63) / 63)) as B.
  assert (2 * ((num - num mod 63) / 63) < num) by lia. lia.
Qed.

Lemma next_num_half num : 2 * next_num num <= num.
Proof.
  unfold next_num, base.
  pose proof (round53_pos_bound ((num - num mod 63) / 63)) as B. lia.
Qed.

Lemma size_half a b : 2 * a <= b -> a <> 0 -> N.size a < N.size b.
Proof.
  intros H Ha. rewrite !N.size_log2 by lia.
  assert (N.log2 (2 * a) <= N.log2 b) by (apply N.log2_le_mono; lia).
  rewrite N.log2_double in H0 by lia. lia.
Qed.

Lemma hex_loop_total fuel num p s :
  (N.to_nat (N.size num) < fuel)%nat -> hex_loop fuel num p s <> None.
Proof.
  revert num p s. induction fuel as [|f IH]; intros num p s H; [lia|].
  cbn [hex_loop]. destruct (N.eqb_spec (next_num num) 0) as [E|E]; [discriminate|].
  apply IH. pose proof (size_half _ num (next_num_half num) E). lia.
Qed.

Lemma gen_hex_name_total n : gen_hex_name n <> None.
Proof. apply hex_loop_total. lia. Qed.

(** digits *)
Lemma digit_inj_b :
  forallb (fun i => forallb (fun j => orb (negb (Ascii.eqb (digit (N.of_nat i)) (digit (N.of_nat j)))) (Nat.eqb i j)) (seq 0 63)) (seq 0 63) = true.
Proof. vm_compute. reflexivity. Qed.

Lemma digit_inj a b : a < 63 -> b < 63 -> digit a = digit b -> a = b.
Proof.
  intros Ha Hb E. pose proof digit_inj_b as F. rewrite forallb_forall in F.
  specialize (F (N.to_nat a)). rewrite in_seq in F. specialize (F ltac:(lia)).
  rewrite forallb_forall in F. specialize (F (N.to_nat b)). rewrite in_seq in F.
  specialize (F ltac:(lia)). rewrite !N2Nat.id, E in F.
  rewrite Ascii.eqb_refl in F. simpl in F. apply Nat.eqb_eq in F. lia.
Qed.

Lemma digit_ok_b : forallb (fun i => char_ok (digit (N.of_nat i))) (seq 0 63) = true.
Proof. vm_compute. reflexivity. Qed.

Lemma digit_ok a : a < 63 -> char_ok (digit a) = true.
Proof.
  intros Ha. pose proof digit_ok_b as F. rewrite forallb_forall in F.
  specialize (F (N.to_nat a)). rewrite in_seq, N2Nat.id in F. apply F. lia.
Qed.

Lemma append_assoc_s (a b c : string) : ((a ++ b) ++ c)%string = (a ++ (b ++ c))%string.
Proof. induction a as [|x a IH]; simpl; [reflexivity|]. rewrite IH; reflexivity. Qed.

Lemma append_nil_r_s (a : string) : (a ++ "")%string = a.
Proof. induction a as [|x a IH]; simpl; [reflexivity|]. rewrite IH; reflexivity. Qed.

Lemma length_append_s (a b : string) : String.length (a ++ b) = (String.length a + String.length b)%nat.
Proof. induction a as [|x a IH]; simpl; [reflexivity|]. rewrite IH; reflexivity. Qed.

(** base-63 digit strings of the exact quotients *)
Fixpoint digits (fuel : nat) (num : N) : string :=
  match fuel with
  | O => ""
  | S f => if num / 63 =? 0 then String (digit (num mod 63)) ""
           else (digits f (num / 63) ++ String (digit (num mod 63)) "")%string
  end.

Fixpoint drop_n (k : nat) (p : string) : string :=
  match k with O => p | S k' => drop_n k' (drop_last p) end.

Lemma hex_loop_digits fuel num p s :
  num < 63 * 2 ^ 53 -> (N.to_nat (N.size num) < fuel)%nat ->
  hex_loop fuel num p s =
  Some (drop_n (String.length (digits fuel num)) p ++ digits fuel num ++ s)%string.
Proof.
  revert num p s. induction fuel as [|f IH]; intros num p s Hn Hf; [lia|].
  cbn [hex_loop digits]. change base with 63. rewrite next_num_small by exact Hn.
  destruct (N.eqb_spec (num / 63) 0) as [E|E].
  - reflexivity.
  - assert (Hsz : N.size (num / 63) < N.size num) by (apply size_half; lia).
    rewrite IH by lia.
    f_equal. rewrite length_append_s. cbn [String.length].
    rewrite Nat.add_comm. cbn [Nat.add drop_n]. f_equal.
    rewrite append_assoc_s. reflexivity.
Qed.

Lemma append_last_inj (a b : string) x y :
  (a ++ String x "")%string = (b ++ String y "")%string -> a = b /\ x = y.
Proof.
  revert b. induction a as [|c a IH]; intros [|d b]; simpl; intros E.
  - injection E; auto.
  - injection E as _ E. destruct b; discriminate.
  - injection E as _ E. destruct a; discriminate.
  - injection E as -> E. apply IH in E. destruct E as [-> ->]; auto.
Qed.

Lemma digits_nonempty f n : (0 < f)%nat -> digits f n <> ""%string.
Proof.
  destruct f as [|f]; [lia|]. intros _. cbn [digits].
  destruct (_ =? _); [discriminate|]. destruct (digits f (n/63)); discriminate.
Qed.

Lemma digits_inj f g n m :
  (N.to_nat (N.size n) < f)%nat -> (N.to_nat (N.size m) < g)%nat ->
  digits f n = digits g m -> n = m.
Proof.
  revert g n m. induction f as [|f IH]; intros g n m Hf Hg E; [lia|].
  destruct g as [|g]; [lia|]. cbn [digits] in E.
  destruct (N.eqb_spec (n / 63) 0) as [E1|E1]; destruct (N.eqb_spec (m / 63) 0) as [E2|E2].
  - injection E as E. apply digit_inj in E; lia.
  - exfalso. assert (digits g (m/63) <> ""%string).
    { apply digits_nonempty. pose proof (size_half (m/63) m ltac:(lia) E2). lia. }
    destruct (digits g (m/63)) as [|c r]; [congruence|]. simpl in E. injection E as _ E.
    destruct r; discriminate.
  - exfalso. assert (digits f (n/63) <> ""%string).
    { apply digits_nonempty. pose proof (size_half (n/63) n ltac:(lia) E1). lia. }
    destruct (digits f (n/63)) as [|c r]; [congruence|]. simpl in E. injection E as _ E.
    destruct r; discriminate.
  - apply append_last_inj in E. destruct E as [E Ed].
    apply digit_inj in Ed; [|lia|lia].
    pose proof (size_half (n/63) n ltac:(lia) E1).
    pose proof (size_half (m/63) m ltac:(lia) E2).
    apply IH in E; lia.
Qed.

Lemma digits_leading f n : (N.to_nat (N.size n) < f)%nat -> n <> 0 ->
  exists c r, digits f n = String c r /\ c <> digit 0.
Proof.
  revert n. induction f as [|f IH]; intros n Hf Hn; [lia|]. cbn [digits].
  destruct (N.eqb_spec (n / 63) 0) as [E|E].
  - exists (digit (n mod 63)), ""%string. split; [reflexivity|]. intros Hd.
    apply digit_inj in Hd; lia.
  - destruct (IH (n/63)) as (c & r & Ed & Hc).
    { pose proof (size_half (n/63) n ltac:(lia) E). lia. } { exact E. }
    rewrite Ed. exists c, (r ++ String (digit (n mod 63)) "")%string. split; [reflexivity|exact Hc].
Qed.

Lemma gen_hex_name_eq n : n < 63 * 2 ^ 53 ->
  let d := digits (S (N.to_nat (N.size n))) n in
  gen_hex_name n = Some (drop_n (String.length d) "_0000" ++ d)%string.
Proof.
  intros H. cbv zeta. unfold gen_hex_name. rewrite hex_loop_digits by (try exact H; lia).
  rewrite append_nil_r_s. reflexivity.
Qed.

(** the padding prefix as a function of the number of digits *)
Lemma drop_n_empty k : drop_n k "" = ""%string.
Proof. induction k; simpl; auto. Qed.

Lemma pad_cases k : (1 <= k)%nat ->
  (k = 1 /\ drop_n k "_0000" = "_000" \/
   k = 2 /\ drop_n k "_0000" = "_00" \/
   k = 3 /\ drop_n k "_0000" = "_0" \/
   k = 4 /\ drop_n k "_0000" = "_" \/
   5 <= k /\ drop_n k "_0000" = "")%nat%string.
Proof.
  intros H. destruct k as [|[|[|[|[|k]]]]]; [lia|..]; cbn [drop_n drop_last]; auto 10.
  right; right; right; right. split; [lia|]. apply drop_n_empty.
Qed.

Lemma digits_cases f n : (N.to_nat (N.size n) < f)%nat ->
  (n = 0 /\ digits f n = String (digit 0) "") \/
  (exists c r, digits f n = String c r /\ c <> digit 0).
Proof.
  intros H. destruct (N.eq_dec n 0) as [->|Hn].
  - left. split; [reflexivity|]. destruct f; [lia|]. reflexivity.
  - right. apply digits_leading; assumption.
Qed.

(** A five-digit (or longer) digit string may start with '_' only from 62*63^4 on. *)
Lemma digits_length_lead f n :
  (N.to_nat (N.size n) < f)%nat -> n < 62 * 63 ^ 4 ->
  (String.length (digits f n) <= 4)%nat \/
  (exists c r, digits f n = String c r /\ c <> "_"%char /\ String.length r = 4%nat).
Proof.
  intros Hf Hn. change (62 * 63 ^ 4) with 976683582 in Hn.
  destruct f as [|f]; [lia|]. cbn [digits].
  destruct (N.eqb_spec (n / 63) 0) as [E1|E1]; [left; simpl; lia|].
  pose proof (size_half (n/63) n ltac:(lia) E1) as S1.
  destruct f as [|f]; [lia|]. cbn [digits].
  destruct (N.eqb_spec (n / 63 / 63) 0) as [E2|E2]; [left; simpl; lia|].
  pose proof (size_half (n/63/63) (n/63) ltac:(lia) E2) as S2.
  destruct f as [|f]; [lia|]. cbn [digits].
  destruct (N.eqb_spec (n / 63 / 63 / 63) 0) as [E3|E3]; [left; simpl; lia|].
  pose proof (size_half (n/63/63/63) (n/63/63) ltac:(lia) E3) as S3.
  destruct f as [|f]; [lia|]. cbn [digits].
  destruct (N.eqb_spec (n / 63 / 63 / 63 / 63) 0) as [E4|E4]; [left; simpl; lia|].
  pose proof (size_half (n/63/63/63/63) (n/63/63/63) ltac:(lia) E4) as S4.
  destruct f as [|f]; [lia|]. cbn [digits].
  assert (B : n / 63 / 63 / 63 / 63 < 62).
  { clear - Hn. rewrite !N.div_div by lia. apply N.div_lt_upper_bound; lia. }
  destruct (N.eqb_spec (n / 63 / 63 / 63 / 63 / 63) 0) as [E5|E5].
  2:{ exfalso. apply E5. apply N.div_small. lia. }
  right. eexists; eexists. split; [reflexivity|]. split; [|reflexivity].
  rewrite (N.mod_small _ 63) by lia. intros Hd. change "_"%char with (digit 62) in Hd.
  apply digit_inj in Hd; lia.
Qed.

Lemma gen_hex_name_inj n m :
  n < 62 * 63 ^ 4 -> m < 62 * 63 ^ 4 -> gen_hex_name n = gen_hex_name m -> n = m.
Proof.
  intros Hn Hm.
  assert (Hbig : 62 * 63 ^ 4 < 63 * 2 ^ 53) by (vm_compute; reflexivity).
  rewrite !gen_hex_name_eq by (eapply N.lt_trans; eassumption). clear Hbig. cbv zeta.
  assert (Hf : (N.to_nat (N.size n) < S (N.to_nat (N.size n)))%nat) by lia.
  assert (Hg : (N.to_nat (N.size m) < S (N.to_nat (N.size m)))%nat) by lia.
  revert Hf Hg. generalize (S (N.to_nat (N.size n))). generalize (S (N.to_nat (N.size m))).
  intros g f Hf Hg E. injection E as E.
  apply (digits_inj f g); [lia|lia|].
  pose proof (digits_length_lead f n Hf Hn) as Ln.
  pose proof (digits_length_lead g m Hg Hm) as Lm.
  pose proof (digits_cases f n Hf) as Cn. pose proof (digits_cases g m Hg) as Cm.
  assert (Hf1 : (1 <= String.length (digits f n))%nat).
  { assert (digits f n <> ""%string) by (apply digits_nonempty; lia).
    destruct (digits f n); [congruence|simpl; lia]. }
  assert (Hg1 : (1 <= String.length (digits g m))%nat).
  { assert (digits g m <> ""%string) by (apply digits_nonempty; lia).
    destruct (digits g m); [congruence|simpl; lia]. }
  clear Hf Hg Hn Hm. generalize dependent (digits f n). generalize dependent (digits g m).
  intros b Lm Cm Hb1 a E Ln Cn Ha1.
  assert (Z : digit 0 = "0"%char) by reflexivity.
  assert (Hlen : forall s, (1 <= String.length s)%nat -> (String.length s <= 4)%nat ->
      exists p, drop_n (String.length s) "_0000" = String "_"%char p
           /\ String.length p = (4 - String.length s)%nat /\ all_chars (Ascii.eqb "0"%char) p = true).
  { intros s H1 H4. destruct (pad_cases (String.length s) H1) as [(L1&P1)|[(L1&P1)|[(L1&P1)|[(L1&P1)|(L1&P1)]]]];
    rewrite P1; try (eexists; split; [reflexivity|]; rewrite L1; split; reflexivity). lia. }
  (* zero-padded strings of equal total length agree on their significant part *)
  assert (Hpad : forall p q s t,
     all_chars (Ascii.eqb "0"%char) p = true -> all_chars (Ascii.eqb "0"%char) q = true ->
     s = String (digit 0) "" \/ (exists c r, s = String c r /\ c <> digit 0) ->
     t = String (digit 0) "" \/ (exists c r, t = String c r /\ c <> digit 0) ->
     (p ++ s = q ++ t)%string -> s = t).
  { rewrite Z. induction p as [|x p IH]; intros q s t Hp Hq Hs Ht Epq.
    - destruct q as [|y q]; [exact Epq|]. exfalso. cbn [all_chars] in Hq.
      apply andb_true_iff in Hq. destruct Hq as [Hy Hq]. apply Ascii.eqb_eq in Hy. subst y.
      simpl in Epq. destruct Hs as [->|(c & r & -> & Hc)].
      + injection Epq as Eq. destruct q; [|discriminate]. simpl in Eq. subst t.
        destruct Ht as [Ht|(c & r & Ht & _)]; discriminate.
      + injection Epq as E0 _. congruence.
    - cbn [all_chars] in Hp. apply andb_true_iff in Hp. destruct Hp as [Hx Hp].
      apply Ascii.eqb_eq in Hx. subst x. destruct q as [|y q].
      + simpl in Epq. exfalso. destruct Ht as [->|(c & r & -> & Hc)].
        * injection Epq as Eq. destruct p; [|discriminate]. simpl in Eq. subst s.
          destruct Hs as [Hs|(c & r & Hs & _)]; discriminate.
        * injection Epq as E0 _. congruence.
      + simpl in Epq. injection Epq as _ Epq. cbn [all_chars] in Hq.
        apply andb_true_iff in Hq. destruct Hq as [_ Hq]. eapply IH; eassumption. }
  assert (Cn' : a = String (digit 0) "" \/ (exists c r, a = String c r /\ c <> digit 0)) by tauto.
  assert (Cm' : b = String (digit 0) "" \/ (exists c r, b = String c r /\ c <> digit 0)) by tauto.
  destruct (le_dec (String.length a) 4) as [La|La]; destruct (le_dec (String.length b) 4) as [Lb|Lb].
  - destruct (Hlen a Ha1 La) as (p & Ep & _ & Zp). destruct (Hlen b Hb1 Lb) as (q & Eq & _ & Zq).
    rewrite Ep, Eq in E. simpl in E. injection E as E. exact (Hpad p q a b Zp Zq Cn' Cm' E).
  - exfalso. destruct Lm as [Lm|(c & r & -> & Hc & _)]; [lia|].
    destruct (Hlen a Ha1 La) as (p & Ep & _).
    destruct (pad_cases _ Hb1) as [(L1&P1)|[(L1&P1)|[(L1&P1)|[(L1&P1)|(L1&P1)]]]]; try lia.
    rewrite Ep, P1 in E. simpl in E. injection E as E _. congruence.
  - exfalso. destruct Ln as [Ln|(c & r & -> & Hc & _)]; [lia|].
    destruct (Hlen b Hb1 Lb) as (p & Ep & _).
    destruct (pad_cases _ Ha1) as [(L1&P1)|[(L1&P1)|[(L1&P1)|[(L1&P1)|(L1&P1)]]]]; try lia.
    rewrite Ep, P1 in E. simpl in E. injection E as E _. congruence.
  - destruct (pad_cases _ Ha1) as [(L1&P1)|[(L1&P1)|[(L1&P1)|[(L1&P1)|(L1&P1)]]]]; try lia.
    destruct (pad_cases _ Hb1) as [(L2&P2)|[(L2&P2)|[(L2&P2)|[(L2&P2)|(L2&P2)]]]]; try lia.
    rewrite P1, P2 in E. exact E.
Qed.

Lemma gen_hex_name_collision :
  gen_hex_name 1 = gen_hex_name (62 * 63 ^ 4 + 1).
Proof. vm_compute. reflexivity. Qed.

Lemma node_ids_NoDup n : N.of_nat n <= 62 * 63 ^ 4 -> NoDup (node_ids n).
Proof.
  intros H. unfold node_ids. 
  assert (G : forall l, NoDup l -> (forall k, In k l -> (k < n)%nat) ->
            NoDup (map (fun k => gen_hex_name (N.of_nat k)) l)).
  { induction l as [|k l IH]; simpl; intros HN HB; [constructor|].
    inversion HN; subst. constructor; [|apply IH; auto].
    rewrite in_map_iff. intros (k' & E & Hk').
    apply gen_hex_name_inj in E.
    - apply Nat2N.inj in E. subst. contradiction.
    - specialize (HB k' (or_intror Hk')). lia.
    - specialize (HB k (or_introl eq_refl)). lia. }
  apply G; [apply seq_NoDup|]. intros k Hk. apply in_seq in Hk. lia.
Qed.

(** characters *)
Lemma all_chars_app f a b : all_chars f (a ++ b) = (all_chars f a && all_chars f b)%bool.
Proof. induction a as [|c a IH]; simpl; [reflexivity|]. rewrite IH, andb_assoc; reflexivity. Qed.

Lemma drop_last_chars f p : all_chars f p = true -> all_chars f (drop_last p) = true.
Proof.
  induction p as [|c p IH]; simpl; [auto|]. rewrite andb_true_iff. intros [H1 H2].
  destruct p as [|d p]; [reflexivity|]. cbn [all_chars]. rewrite H1. apply IH, H2.
Qed.

Lemma hex_loop_chars fuel num p s r :
  all_chars char_ok p = true -> all_chars char_ok s = true ->
  hex_loop fuel num p s = Some r -> all_chars char_ok r = true.
Proof.
  revert num p s. induction fuel as [|f IH]; intros num p s Hp Hs; [discriminate|].
  cbn [hex_loop].
  assert (Hd : char_ok (digit (num mod base)) = true) by (apply digit_ok; unfold base; lia).
  assert (Hs' : all_chars char_ok (String (digit (num mod base)) s) = true)
    by (cbn [all_chars]; rewrite Hd, Hs; reflexivity).
  destruct (_ =? 0).
  - intros E; injection E as <-. rewrite all_chars_app, Hs', drop_last_chars by assumption. reflexivity.
  - apply IH; [apply drop_last_chars; exact Hp|exact Hs'].
Qed.

Lemma gen_hex_name_chars n r : gen_hex_name n = Some r -> check_banned_chars r = Ok tt.
Proof.
  intros H. unfold check_banned_chars. erewrite hex_loop_chars; [reflexivity|..|exact H]; reflexivity.
Qed.

Lemma check_ok_spec s : check_banned_chars s = Ok tt <-> all_chars char_ok s = true.
Proof. unfold check_banned_chars. destruct (all_chars char_ok s); split; congruence. Qed.

Lemma char_ok_dot : char_ok "."%char = false.
Proof. reflexivity. Qed.

Lemma chars_no_dot s : all_chars char_ok s = true -> count_dots s = O.
Proof.
  induction s as [|c s IH]; simpl; [reflexivity|]. rewrite andb_true_iff. intros [Hc Hs].
  destruct (Ascii.eqb_spec c "."%char) as [->|_]; [discriminate|auto].
Qed.

(** first component of a dotted name *)
Lemma dot_split (a b s t : string) :
  count_dots a = O -> count_dots b = O ->
  (a ++ "." ++ s)%string = (b ++ "." ++ t)%string -> a = b /\ s = t.
Proof.
  revert b. induction a as [|c a IH]; intros [|d b]; simpl; intros Ha Hb E.
  - injection E; auto.
  - injection E as Ec E. subst. discriminate.
  - injection E as Ec E. subst. discriminate.
  - injection E as -> E. destruct (Ascii.eqb d "."%char); [discriminate|].
    apply IH in E; [|assumption..]. destruct E as [-> ->]; auto.
Qed.

Lemma count_dots_app a b : count_dots (a ++ b) = (count_dots a + count_dots b)%nat.
Proof.
  induction a as [|c a IH]; simpl; [reflexivity|]. rewrite IH.
  destruct (Ascii.eqb c "."%char); reflexivity.
Qed.

Lemma path_name_nonempty m p x : m <> ""%string ->
  path_name (m :: p) x = (m ++ "." ++ path_name p x)%string.
Proof.
  intros H. cbn [path_name]. unfold prepend_namespace.
  destruct (String.eqb_spec m ""); [congruence|reflexivity].
Qed.

Lemma path_name_inj p x q y :
  Forall (fun m => check_banned_chars m = Ok tt /\ m <> ""%string) p ->
  Forall (fun m => check_banned_chars m = Ok tt /\ m <> ""%string) q ->
  check_banned_chars x = Ok tt -> check_banned_chars y = Ok tt ->
  path_name p x = path_name q y -> p = q /\ x = y.
Proof.
  rewrite !check_ok_spec. intros Hp Hq Hx Hy. revert q Hq.
  induction Hp as [|m p [Hm Hm0] Hp IH]; intros q Hq E.
  - destruct q as [|m' q]; [auto|]. exfalso.
    inversion Hq as [|? ? [Hm' Hm0'] _]; subst. rewrite path_name_nonempty in E by assumption.
    cbn [path_name] in E. apply (f_equal count_dots) in E.
    rewrite (chars_no_dot _ Hx), !count_dots_app in E. simpl in E. lia.
  - destruct q as [|m' q].
    + exfalso. rewrite path_name_nonempty in E by assumption.
      cbn [path_name] in E. apply (f_equal count_dots) in E.
      rewrite (chars_no_dot _ Hy), !count_dots_app in E. simpl in E. lia.
    + inversion Hq as [|? ? [Hm' Hm0'] Hq']; subst.
      rewrite !path_name_nonempty in E by assumption.
      apply check_ok_spec in Hm, Hm'.
      apply dot_split in E; [|apply chars_no_dot; assumption..].
      destruct E as [-> E]. apply IH in E; [|assumption]. destruct E as [-> ->]; auto.
Qed.
