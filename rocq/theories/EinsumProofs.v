From Verif Require Import PyBase PromotionsModel EinsumModel EinsumSpec.
Set Implicit Arguments.
Open Scope list_scope.

Lemma ceqb_spec a b : ceqb a b = true <-> a = b.
Proof. apply Ascii.eqb_eq. Qed.

Lemma index_of_Some c s k : index_of c s = Some k -> nth_error s k = Some c.
Proof.
  revert k; induction s as [|x r IH]; simpl; [discriminate|].
  destruct (ceqb c x) eqn:E; intros k H.
  - injection H as <-. apply ceqb_spec in E. subst; reflexivity.
  - destruct (index_of c r) as [j|]; [|discriminate]. injection H as <-. simpl. apply IH; reflexivity.
Qed.

Lemma index_of_None c s : index_of c s = None <-> ~ In c s.
Proof.
  induction s as [|x r IH]; simpl; [tauto|].
  destruct (ceqb c x) eqn:E.
  - apply ceqb_spec in E. subst. split; [discriminate|]. intros H; exfalso; auto.
  - assert (c <> x) by (intros ->; rewrite (proj2 (ceqb_spec x x) eq_refl) in E; discriminate).
    destruct (index_of c r); simpl; split; try discriminate; try tauto.
    + intros H'. exfalso. apply H'. right. destruct (in_dec ascii_dec c r); [assumption|].
      apply IH in n0; discriminate.
    + intros _ [H'|H']; [congruence|]. apply IH in H'; auto.
Qed.

(** *** Shapes *)
Lemma find_dim_spec c terms : forall pre shapes pres,
  length pre = length pres -> fits terms shapes ->
  (In c (concat terms) -> exists d, find_dim c terms (length pre) (pres ++ shapes) = Ok (Some d) /\
       labels (pre ++ terms) (pres ++ shapes) c d) /\
  (~ In c (concat terms) -> find_dim c terms (length pre) (pres ++ shapes) = Ok None).
Proof.
  induction terms as [|t terms IH]; intros pre shapes pres HL HF; simpl.
  - split; [tauto|reflexivity].
  - inversion HF as [|? sh ? shapes' Ht HF']; subst.
    destruct (index_of c t) as [k|] eqn:E.
    + assert (Ec := index_of_Some _ _ E).
      assert (Hk : k < length sh) by (rewrite <- Ht; apply nth_error_Some; congruence).
      assert (Es : nth_error (pres ++ sh :: shapes') (length pre) = Some sh).
      { rewrite nth_error_app2 by lia. rewrite HL, Nat.sub_diag. reflexivity. }
      rewrite Es. destruct (nth_error sh k) as [d|] eqn:Ed; [|apply nth_error_None in Ed; lia].
      split.
      * intros _. exists d. split; [reflexivity|]. exists (length pre), t, sh, k. repeat split; auto.
        rewrite nth_error_app2 by lia. rewrite Nat.sub_diag. reflexivity.
      * intros H. exfalso. apply H. apply in_or_app. left. eapply nth_error_In; exact Ec.
    + assert (Hn : ~ In c t) by (apply index_of_None; exact E).
      specialize (IH (pre ++ [t]) shapes' (pres ++ [sh])). rewrite !app_length in IH. simpl in IH.
      rewrite <- !app_assoc in IH. simpl in IH. replace (S (length pre)) with (length pre + 1) by lia.
      destruct IH as [I1 I2]; [lia|exact HF'|].
      rewrite in_app_iff. split; [intros [H|H]; [contradiction|]; apply I1; exact H|].
      intros H. apply I2. tauto.
Qed.

Lemma out_dims_ok terms shapes : fits terms shapes ->
  forall out, (forall c, In c out -> In c (concat terms)) ->
  exists sh, out_dims out terms shapes = Ok sh /\ Forall2 (labels terms shapes) out sh.
Proof.
  intros HF out. induction out as [|c out IH]; intros H; simpl.
  - exists []; split; [reflexivity|constructor].
  - destruct (@find_dim_spec c terms [] shapes [] eq_refl HF) as [H1 _].
    destruct H1 as (d & E & Hl); [apply H; left; reflexivity|]. simpl in E, Hl. rewrite E. simpl.
    destruct IH as (ds & E2 & Hds); [intros; apply H; right; assumption|]. rewrite E2. simpl.
    exists (d :: ds). split; [reflexivity|constructor; assumption].
Qed.

Lemma out_dims_skips terms shapes : fits terms shapes -> forall out,
  out_dims out terms shapes =
  out_dims (filter (fun c => if in_dec ascii_dec c (concat terms) then true else false) out) terms shapes.
Proof.
  intros HF out. induction out as [|c out IH]; [reflexivity|]. simpl.
  destruct (in_dec ascii_dec c (concat terms)) as [Hc|Hc].
  - simpl. rewrite IH. reflexivity.
  - destruct (@find_dim_spec c terms [] shapes [] eq_refl HF) as [_ H2]. simpl in H2. rewrite (H2 Hc). simpl.
    rewrite <- IH. destruct (out_dims out terms shapes); reflexivity.
Qed.

Lemma labels_unique terms shapes out sh sh' : consistent terms shapes ->
  Forall2 (labels terms shapes) out sh -> Forall2 (labels terms shapes) out sh' -> sh = sh'.
Proof.
  intros HC H. revert sh'. induction H as [|c d out sh Hd H IH]; intros sh' H'; inversion H'; subst; [reflexivity|].
  f_equal; [eapply HC; eassumption|auto].
Qed.

Lemma compute_shape_ok terms out shapes : fits terms shapes ->
  (forall c, In c out -> In c (concat terms)) ->
  exists sh, compute_einsum_shape (terms ++ [out]) shapes = Ok sh /\ right_shape terms shapes out sh.
Proof.
  intros HF H. unfold compute_einsum_shape. rewrite rev_app_distr. simpl. destruct out as [|c out].
  - exists [1]. split; [reflexivity|constructor].
  - rewrite rev_involutive. destruct (@out_dims_ok terms shapes HF (c :: out) H) as (sh & E & Hs).
    exists sh. split; [exact E|]. constructor; [discriminate|exact Hs].
Qed.

(** *** Parsing *)
Lemma letters_alpha t : letters t -> Forall (fun c => is_alpha c = true) t.
Proof.
  intros H. apply Forall_forall. intros c Hc. apply H in Hc. clear H.
  assert (F : forallb is_alpha (list_ascii_of_string "abcdefghijklmnopqrstuvwxyzABCDEFGHIJKLMNOPQRSTUVWXYZ") = true)
    by reflexivity.
  rewrite forallb_forall in F. exact (F _ Hc).
Qed.

Lemma tolist_letters t : letters t -> forall s rep acc,
  tolist_loop (t ++ s) rep acc = tolist_loop s (rep ++ t) acc.
Proof.
  intros H. apply letters_alpha in H. revert H.
  induction 1 as [|c t Hc Ht IH]; intros s rep acc; simpl; [rewrite app_nil_r; reflexivity|].
  rewrite Hc, IH, <- app_assoc. reflexivity.
Qed.

Lemma tolist_join terms : Forall letters terms -> terms <> [] -> forall s acc,
  tolist_loop (join_commas terms ++ s) [] acc =
  tolist_loop s (last terms []) (acc ++ removelast terms).
Proof.
  induction terms as [|t terms IH]; intros HL HN s acc; [congruence|].
  inversion HL as [|? ? Ht HL']; subst. destruct terms as [|t2 terms].
  - simpl. rewrite tolist_letters by exact Ht. rewrite app_nil_r. reflexivity.
  - change (join_commas (t :: t2 :: terms)) with (t ++ ","%char :: join_commas (t2 :: terms)).
    rewrite <- app_assoc. rewrite tolist_letters by exact Ht. cbn [app].
    change (tolist_loop (","%char :: join_commas (t2 :: terms) ++ s) t acc)
      with (tolist_loop (join_commas (t2 :: terms) ++ s) [] (acc ++ [t])).
    rewrite IH by (assumption || discriminate).
    change (last (t :: t2 :: terms) []) with (last (t2 :: terms) ([] : chars)).
    change (removelast (t :: t2 :: terms)) with (t :: removelast (t2 :: terms)).
    rewrite <- app_assoc. reflexivity.
Qed.

Lemma parse_explicit terms out : Forall letters terms -> letters out -> terms <> [] ->
  einsum_subscripts_tolist (explicit terms out) = Ok (terms ++ [out]).
Proof.
  intros HL HO HN. unfold einsum_subscripts_tolist, explicit.
  destruct (join_commas terms ++ arrow ++ out) as [|x y] eqn:E.
  { destruct (join_commas terms); discriminate. }
  rewrite <- E. clear E x y. f_equal. rewrite tolist_join by assumption. simpl.
  rewrite <- (app_nil_r out) at 1. rewrite tolist_letters by exact HO. simpl.
  f_equal. symmetry. apply app_removelast_last. exact HN.
Qed.

(** *** Index objects *)
Definition nadd (l : list axis) (a : axis) : list axis := if existsb (Nat.eqb a) l then l else l ++ [a].

Lemma existsb_eqb a l : existsb (Nat.eqb a) l = true <-> In a l.
Proof.
  rewrite existsb_exists. split.
  - intros (x & H & E). apply Nat.eqb_eq in E. subst; exact H.
  - intros H. exists a. split; [exact H|apply Nat.eqb_refl].
Qed.

Lemma aget_keys m a : (exists c, aget m a = Some c) <-> In a (map fst m).
Proof.
  induction m as [|[b c] m IH]; simpl; [split; [intros (c & H); discriminate|tauto]|].
  destruct (Nat.eqb_spec a b) as [->|Hne].
  - split; [auto|eauto].
  - rewrite IH. split; [auto|intros [H|H]; [congruence|exact H]].
Qed.

Lemma aget_None m a : aget m a = None <-> ~ In a (map fst m).
Proof.
  rewrite <- aget_keys. destruct (aget m a); split; try congruence.
  - intros H; exfalso; eauto.
  - intros _ (c & H); discriminate.
Qed.

Lemma aget_app m m' a c : aget m a = Some c -> aget (m ++ m') a = Some c.
Proof.
  induction m as [|[b d] m IH]; simpl; [discriminate|]. destruct (Nat.eqb a b); auto.
Qed.

Lemma aget_app_new m a c : aget m a = None -> aget (m ++ [(a, c)]) a = Some c.
Proof.
  induction m as [|[b d] m IH]; simpl; [rewrite Nat.eqb_refl; auto|].
  destruct (Nat.eqb a b); [discriminate|auto].
Qed.

(** The naming read off a map. *)
Definition naming (m : amap) (a : axis) : ascii := match aget m a with Some c => c | None => "a"%char end.

Definition minv (m : amap) (u : chars) : Prop :=
  NoDup (map fst m) /\ map snd m ++ u = alphabet.

Lemma term_chars_spec axes : forall m u, minv m u ->
  let K := fold_left nadd axes (map fst m) in
  (length K <= 26 ->
     exists m' u' ext, term_chars axes m u = Ok (map (naming m') axes, m', u') /\
       minv m' u' /\ m' = m ++ ext /\ map fst m' = K) /\
  (26 < length K -> term_chars axes m u = Err IndexError).
Proof.
  induction axes as [|a axes IH]; intros m u Hm; cbv zeta.
  - cbn [fold_left]. split.
    + intros _. exists m, u, []. rewrite app_nil_r. repeat split; apply Hm.
    + intros H. exfalso. destruct Hm as [_ Hm]. apply (f_equal (@length ascii)) in Hm.
      rewrite app_length, map_length in Hm. rewrite map_length in H.
      assert (E : length alphabet = 26) by reflexivity. lia.
  - cbn [fold_left]. destruct (aget m a) as [c|] eqn:E.
    + assert (Ha : In a (map fst m)) by (apply aget_keys; eauto).
      assert (En : nadd (map fst m) a = map fst m).
      { unfold nadd. apply existsb_eqb in Ha. rewrite Ha. reflexivity. }
      rewrite En. destruct (IH m u Hm) as [I1 I2]. cbn [term_chars]. rewrite E. split.
      * intros HK. destruct (I1 HK) as (m' & u' & ext & E1 & E2 & E3 & E4). rewrite E1. cbn [bind].
        exists m', u', ext. repeat split; auto; try apply E2. cbn [map]. repeat f_equal.
        unfold naming. rewrite E3, (aget_app _ _ _ E). reflexivity.
      * intros HK. rewrite (I2 HK). reflexivity.
    + assert (Ha : ~ In a (map fst m)) by (apply aget_None; exact E).
      assert (En : nadd (map fst m) a = map fst m ++ [a]).
      { unfold nadd. destruct (existsb (Nat.eqb a) (map fst m)) eqn:Ex; [|reflexivity].
        apply existsb_eqb in Ex. contradiction. }
      rewrite En. cbn [term_chars]. rewrite E. destruct u as [|c u].
      * split; [|reflexivity]. intros HK. exfalso.
        destruct Hm as [_ Hm]. apply (f_equal (@length ascii)) in Hm.
        rewrite app_nil_r, map_length in Hm. assert (E26 : length alphabet = 26) by reflexivity.
        assert (Hmono : forall l k, length k <= length (fold_left nadd l k)).
        { induction l as [|x l IHl]; intros k; simpl; [lia|]. etransitivity; [|apply IHl].
          unfold nadd. destruct (existsb (Nat.eqb x) k); [lia|]. rewrite app_length; lia. }
        specialize (Hmono axes (map fst m ++ [a])). rewrite app_length, map_length in Hmono. simpl in Hmono. lia.
      * assert (Hm' : minv (m ++ [(a, c)]) u).
        { destruct Hm as [Hm1 Hm2]. split.
          - rewrite map_app. simpl. apply NoDup_app_single; assumption.
          - rewrite map_app, <- app_assoc. exact Hm2. }
        destruct (IH _ _ Hm') as [I1 I2]. rewrite map_app in I1, I2. cbn [map fst] in I1, I2. split.
        -- intros HK. destruct (I1 HK) as (m' & u' & ext & E1 & E2 & E3 & E4). rewrite E1. cbn [bind].
           exists m', u', ((a, c) :: ext). repeat split; auto; try apply E2.
           ++ cbn [map]. repeat f_equal. unfold naming. rewrite E3.
              rewrite (aget_app _ _ _ (aget_app_new _ _ _ E)). reflexivity.
           ++ rewrite E3, <- app_assoc. reflexivity.
        -- intros HK. rewrite (I2 HK). reflexivity.
Qed.

Lemma In_nadd_fold l : forall k x, In x (fold_left nadd l k) <-> In x k \/ In x l.
Proof.
  induction l as [|y l IH]; intros k x; simpl; [tauto|]. rewrite IH. unfold nadd.
  destruct (existsb (Nat.eqb y) k) eqn:E.
  - apply existsb_eqb in E. split; [tauto|]. intros [H|[H|H]]; subst; auto.
  - rewrite in_app_iff. simpl. tauto.
Qed.

Lemma NoDup_nadd_fold l : forall k, NoDup k -> NoDup (fold_left nadd l k).
Proof.
  induction l as [|y l IH]; intros k H; simpl; [exact H|]. apply IH. unfold nadd.
  destruct (existsb (Nat.eqb y) k) eqn:E; [exact H|]. apply NoDup_app_single; [exact H|].
  rewrite <- existsb_eqb. congruence.
Qed.

Lemma nadd_mono l : forall k, length k <= length (fold_left nadd l k).
Proof.
  induction l as [|x l IHl]; intros k; simpl; [lia|]. etransitivity; [|apply IHl].
  unfold nadd. destruct (existsb (Nat.eqb x) k); [lia|]. rewrite app_length; lia.
Qed.

Lemma naming_ext m ext l : incl l (map fst m) -> map (naming (m ++ ext)) l = map (naming m) l.
Proof.
  intros H. apply map_ext_in. intros a Ha. unfold naming.
  destruct (proj2 (aget_keys m a) (H a Ha)) as (c & E). rewrite E, (aget_app _ _ _ E). reflexivity.
Qed.

Lemma terms_chars_spec ts : forall m u, minv m u ->
  let K := fold_left nadd (concat ts) (map fst m) in
  (length K <= 26 ->
     exists m' ext, terms_chars ts m u = Ok (map (map (naming m')) ts, m') /\
       (exists u', minv m' u') /\ m' = m ++ ext /\ map fst m' = K) /\
  (26 < length K -> terms_chars ts m u = Err IndexError).
Proof.
  induction ts as [|t ts IH]; intros m u Hm; cbv zeta.
  - simpl. split.
    + intros _. exists m, []. rewrite app_nil_r. repeat split. exists u; exact Hm.
    + intros H. exfalso. destruct Hm as [_ Hm]. apply (f_equal (@length ascii)) in Hm.
      rewrite app_length, map_length in Hm. rewrite map_length in H.
      assert (E : length alphabet = 26) by reflexivity. lia.
  - cbn [concat terms_chars]. rewrite fold_left_app.
    destruct (term_chars_spec t Hm) as [T1 T2]. cbv zeta in T1, T2.
    set (K1 := fold_left nadd t (map fst m)) in *.
    destruct (Nat.le_gt_cases (length K1) 26) as [HK1|HK1].
    + destruct (T1 HK1) as (m1 & u1 & ext1 & E1 & Hm1 & Em1 & Ek1). rewrite E1. cbn [bind].
      destruct (IH m1 u1 Hm1) as [I1 I2]. cbv zeta in I1, I2. rewrite Ek1 in I1, I2. split.
      * intros HK. destruct (I1 HK) as (m2 & ext2 & E2 & Hm2 & Em2 & Ek2). rewrite E2. cbn [bind].
        exists m2, (ext1 ++ ext2). repeat split; auto.
        -- cbn [map]. subst m2. rewrite (@naming_ext m1 ext2 t); [reflexivity|].
           intros x Hx. rewrite Ek1. unfold K1. apply In_nadd_fold. auto.
        -- rewrite Em2, Em1, app_assoc. reflexivity.
      * intros HK. rewrite (I2 HK). reflexivity.
    + rewrite (T2 HK1). cbn [bind]. split; [|reflexivity]. intros HK. exfalso.
      pose proof (nadd_mono (concat ts) K1). lia.
Qed.

Lemma minv_injective m u : minv m u -> injective_on (map fst m) (naming m).
Proof.
  intros [H1 H2] a b Ha Hb E. unfold naming in E.
  destruct (proj2 (aget_keys m a) Ha) as (c & Ec). destruct (proj2 (aget_keys m b) Hb) as (d & Ed).
  rewrite Ec, Ed in E. subst d.
  assert (HNa : NoDup (map snd m)).
  { assert (NoDup alphabet) as HA by (apply (NoDup_count_occ' ascii_dec); intros x Hx;
      repeat (destruct Hx as [<-|Hx]; [reflexivity|]); contradiction).
    rewrite <- H2 in HA. apply NoDup_app_iff in HA. tauto. }
  clear H2. revert Ec Ed. clear Ha Hb. induction m as [|[x y] m IH]; simpl; [discriminate|].
  simpl in H1, HNa. inversion H1; subst. inversion HNa; subst.
  assert (HI : forall k z, aget m k = Some z -> In z (map snd m)).
  { clear. intros k z. induction m as [|[p q] m IH]; simpl; [discriminate|].
    destruct (Nat.eqb k p); [intros E; injection E; auto|auto]. }
  destruct (Nat.eqb_spec a x); destruct (Nat.eqb_spec b x); intros E1 E2.
  - congruence.
  - injection E1 as <-. apply HI in E2. contradiction.
  - injection E2 as <-. apply HI in E1. contradiction.
  - apply IH; auto.
Qed.

Lemma minv_letters m u l : minv m u -> letters (map (naming m) l).
Proof.
  intros [_ H2]. unfold letters. intros c Hc. apply in_map_iff in Hc.
  destruct Hc as (a & <- & _). unfold naming. destruct (aget m a) as [d|] eqn:E; [|simpl; tauto].
  assert (Hd : In d alphabet).
  { rewrite <- H2. apply in_or_app. left. clear H2. induction m as [|[p q] m IH]; simpl in *; [discriminate|].
    destruct (Nat.eqb a p); [injection E; auto|auto]. }
  clear -Hd. repeat (destruct Hd as [<-|Hd]; [cbn; tauto|]). contradiction.
Qed.

Lemma out_chars_spec out m :
  (incl out (map fst m) -> out_chars out m = Ok (map (naming m) out)) /\
  (~ incl out (map fst m) -> out_chars out m = Err KeyError).
Proof.
  induction out as [|a out [I1 I2]]; simpl.
  - split; [reflexivity|]. intros H; exfalso; apply H; intros x [].
  - destruct (aget m a) as [c|] eqn:E.
    + assert (Ha : In a (map fst m)) by (apply aget_keys; eauto). split.
      * intros H. rewrite I1 by (intros x Hx; apply H; right; exact Hx). simpl.
        unfold naming at 2. rewrite E. reflexivity.
      * intros H. rewrite I2; [reflexivity|]. intros H'. apply H. intros x [<-|Hx]; auto.
    + split; [|reflexivity]. intros H. exfalso. apply aget_None in E. apply E, H. left; reflexivity.
Qed.

Lemma minv0 : minv [] alphabet.
Proof. split; [constructor|reflexivity]. Qed.

(** Number of different axes. *)
Definition num_axes (ts : list (list axis)) : nat := length (nodup Nat.eq_dec (concat ts)).

Lemma num_axes_fold ts : length (fold_left nadd (concat ts) []) = num_axes ts.
Proof.
  unfold num_axes. apply Nat.le_antisymm; apply NoDup_incl_length.
  - apply NoDup_nadd_fold; constructor.
  - intros x Hx. apply nodup_In. apply In_nadd_fold in Hx. destruct Hx as [[]|]; assumption.
  - apply NoDup_nodup.
  - intros x Hx. apply In_nadd_fold. right. apply nodup_In in Hx. exact Hx.
Qed.
