From Verif Require Import PyBase NamesModel NamesProofs PromotionsModel PromotionsSpec PromotionsProofs.

(** *** Dotted names *)
Lemma path_name_dotted p x :
  Forall (fun n => has_dot n = false /\ n <> ""%string) p -> path_name p x = dotted p x.
Proof.
  unfold dotted. induction p as [|n p IH]; intros H; [reflexivity|].
  inversion H as [|? ? [_ Hn] Hp]; subst. cbn [path_name]. rewrite prepend_nonempty by exact Hn.
  rewrite IH by exact Hp. cbn [app]. destruct (p ++ [x]) as [|y l] eqn:E.
  - destruct p; discriminate.
  - reflexivity.
Qed.

Lemma path_name_inj' p x q y :
  Forall (fun n => has_dot n = false /\ n <> ""%string) p ->
  Forall (fun n => has_dot n = false /\ n <> ""%string) q ->
  has_dot x = false -> has_dot y = false ->
  path_name p x = path_name q y -> p = q /\ x = y.
Proof.
  intros Hp Hq Hx Hy. revert q Hq.
  induction p as [|m p IH]; intros q Hq E.
  - destruct q as [|m' q]; [auto|]. exfalso. cbn [path_name] in E.
    assert (D : has_dot (path_name (m' :: q) y) = true) by (apply path_name_has_dot; [exact Hq|discriminate]).
    cbn [path_name] in D. congruence.
  - inversion Hp as [|? ? [Dm Hm] Hp']; subst. destruct q as [|m' q].
    + exfalso. assert (D : has_dot (path_name (m :: p) x) = true) by (apply path_name_has_dot; [exact Hp|discriminate]).
      cbn [path_name] in E, D. congruence.
    + inversion Hq as [|? ? [Dm' Hm'] Hq']; subst. cbn [path_name] in E.
      apply prepend_split in E; try assumption. destruct E as [-> E].
      apply IH in E; [|assumption..]. destruct E as [-> ->]; auto.
Qed.

Lemma promoted_ns_names m p x q k s : well_named m -> has_var m p k x s -> promoted_ns m p x q ->
  Forall (fun n => has_dot n = false /\ n <> ""%string) q.
Proof.
  intros W Hv Hp. pose proof (has_var_path_names _ _ _ _ _ W Hv) as H.
  destruct (promoted_ns_prefix _ _ _ _ Hp) as [t Et]. rewrite Et in H. eapply Forall_prefix; exact H.
Qed.

Lemma p2u_correct m pr r :
  well_named m -> resolve m pr = Ok r ->
  NoDup (dkeys (rp_p2u r)) /\
  (forall pn un, maps_to (rp_p2u r) pn un <->
     exists p k x s q, has_var m p k x s /\ promoted_ns m p x q /\ un = dotted p x /\ pn = dotted q x).
Proof.
  intros W H. destruct (resolve_p2u _ _ _ W H) as (HN & HR & _). split; [exact HN|].
  intros pn un. rewrite <- rel_maps_to by exact HN. rewrite HR. split.
  - intros (p & x & q & (k & s & Hv) & Hp & -> & ->). exists p, k, x, s, q.
    split; [exact Hv|]. split; [exact Hp|].
    rewrite !path_name_dotted; [auto|eapply promoted_ns_names; eassumption|eapply has_var_path_names; eassumption].
  - intros (p & k & x & s & q & Hv & Hp & -> & ->). exists p, x, q.
    split; [exists k, s; exact Hv|]. split; [exact Hp|].
    rewrite !path_name_dotted; [auto|eapply promoted_ns_names; eassumption|eapply has_var_path_names; eassumption].
Qed.

Lemma p2u_functional m pr r pn1 pn2 un :
  well_named m -> resolve m pr = Ok r ->
  rel (rp_p2u r) pn1 un -> rel (rp_p2u r) pn2 un -> pn1 = pn2.
Proof.
  intros W H H1 H2. destruct (resolve_p2u _ _ _ W H) as (_ & HR & _).
  apply HR in H1, H2.
  destruct H1 as (p1 & x1 & q1 & (k1 & s1 & Hv1) & Hp1 & -> & ->).
  destruct H2 as (p2 & x2 & q2 & (k2 & s2 & Hv2) & Hp2 & E & ->).
  apply path_name_inj' in E;
    [|eapply has_var_path_names; eassumption|eapply has_var_path_names; eassumption
     |eapply has_var_no_dot; eassumption|eapply has_var_no_dot; eassumption].
  destruct E as [-> ->]. f_equal. eapply promoted_ns_fun; eassumption.
Qed.

(** reverse map *)
Lemma reverse_inner (vs : list string) (k : string) (d : dict string) un (pn : string) :
  dget (fold_left (fun d3 kk => dset d3 kk k) vs d) un = Some pn <->
  (In un vs /\ pn = k) \/ (~ In un vs /\ dget d un = Some pn).
Proof.
  revert d. induction vs as [|v vs IH]; intros d; simpl.
  - split; [auto|]. intros [[[] _]|[_ H]]; exact H.
  - rewrite IH. destruct (string_dec v un) as [->|Hne].
    + rewrite dget_dset_same. destruct (in_dec string_dec un vs) as [Hi|Hi]; split.
      * intros [[_ ->]|[H _]]; [auto|contradiction].
      * intros [[_ ->]|[H _]]; [auto|exfalso; auto].
      * intros [[H _]|[_ H]]; [contradiction|]. injection H as <-. auto.
      * intros [[_ ->]|[H _]]; [auto|exfalso; auto].
    + rewrite dget_dset_other by congruence. split.
      * intros [[H ->]|[H1 H2]]; [auto|]. right. split; [|exact H2]. intros [E|E]; contradiction.
      * intros [[[E|E] ->]|[H1 H2]]; [congruence|auto|]. right. split; [|exact H2]. intros E; auto.
Qed.

Lemma reverse_map_spec (d : dict (list string)) un pn :
  (forall k1 k2 v, rel d k1 v -> rel d k2 v -> k1 = k2) ->
  (dget (create_reverse_map d) un = Some pn <-> rel d pn un).
Proof.
  intros HF. unfold create_reverse_map.
  assert (G : forall l acc, (forall k1 k2 v, rel l k1 v -> rel l k2 v -> k1 = k2) ->
     (dget (fold_left (fun d2 kv => fold_left (fun d3 kk => dset d3 kk (fst kv)) (snd kv) d2) l acc) un = Some pn <->
      rel l pn un \/ ((forall k, ~ rel l k un) /\ dget acc un = Some pn))).
  { clear d HF. induction l as [|[k vs] l IH]; intros acc HF; simpl.
    - split; [intros H; right; split; [intros k (x & [] & _)|exact H]|].
      intros [(x & [] & _)|[_ H]]; exact H.
    - rewrite IH.
      2:{ intros k1 k2 v (l1 & Hi1 & Hv1) (l2 & Hi2 & Hv2). apply (HF k1 k2 v); [exists l1|exists l2]; split; auto using in_cons. }
      rewrite reverse_inner. split.
      + intros [(l1 & Hi & Hv)|(Hno & [[Hin ->]|[Hnin Hg]])].
        * left. exists l1. split; [right; exact Hi|exact Hv].
        * left. exists vs. split; [left; reflexivity|exact Hin].
        * right. split; [|exact Hg]. intros k0 (l1 & [E|Hi] & Hv).
          -- injection E as <- <-. contradiction.
          -- apply (Hno k0). exists l1; auto.
      + intros [(l1 & [E|Hi] & Hv)|[Hno Hg]].
        * injection E as <- <-. destruct (in_dec string_dec un (concat (map snd l))) as [Hc|Hc].
          -- left. apply in_concat in Hc. destruct Hc as (l1 & Hl1 & Hu). apply in_map_iff in Hl1.
             destruct Hl1 as ([k1 l1'] & E1 & Hi1). cbn [snd] in E1. subst l1'.
             assert (k = k1). { apply (HF k k1 un); [exists vs|exists l1]; split; auto using in_eq, in_cons. }
             subst k1. exists l1; auto.
          -- right. split; [|auto]. intros k0 (l1 & Hi1 & Hu). apply Hc. apply in_concat. exists l1.
             split; [apply in_map_iff; exists (k0, l1); auto|exact Hu].
        * left. exists l1; auto.
        * right. split.
          -- intros k0 (l1 & Hi & Hv). apply (Hno k0). exists l1; split; [right; exact Hi|exact Hv].
          -- right. split; [|exact Hg]. intros Hin. apply (Hno k). exists vs; split; [left; reflexivity|exact Hin]. }
  rewrite G by exact HF. simpl. split; [intros [H|[_ H]]; [exact H|discriminate]|auto].
Qed.

Lemma u2p_correct m pr r un pn :
  well_named m -> resolve m pr = Ok r ->
  (dget (create_reverse_map (rp_p2u r)) un = Some pn <-> maps_to (rp_p2u r) pn un).
Proof.
  intros W H. destruct (resolve_p2u _ _ _ W H) as (HN & _ & _).
  rewrite <- rel_maps_to by exact HN. apply reverse_map_spec.
  intros k1 k2 v. apply (p2u_functional m pr r); assumption.
Qed.

(** *** Sources are unique *)
Lemma check_dup_Ok {V} (a b : dict V) x :
  check_duplicate_keys a b = Ok tt -> In x (dkeys a) -> In x (dkeys b) -> False.
Proof.
  unfold check_duplicate_keys. destruct (existsb _ _) eqn:E; [discriminate|]. intros _ Ha Hb.
  assert (existsb (fun k => dmem k a) (dkeys b) = true); [|congruence].
  apply existsb_exists. exists x. split; [exact Hb|apply dmem_spec; exact Ha].
Qed.

Lemma resolve_children_src_disjoint f l accs acct s t cs :
  resolve_children f l accs acct = Ok (s, t, cs) ->
  (forall nm pr sm r x, In (nm, pr, sm) l -> f sm pr = Ok r -> In x (dkeys (rp_src r)) -> ~ In x (dkeys accs)) /\
  (forall n1 p1 m1 r1 n2 p2 m2 r2 x, In (n1, p1, m1) l -> In (n2, p2, m2) l -> n1 <> n2 ->
      f m1 p1 = Ok r1 -> f m2 p2 = Ok r2 -> In x (dkeys (rp_src r1)) -> In x (dkeys (rp_src r2)) -> False).
Proof.
  revert accs acct s t cs. induction l as [|[[nm pr] sm] l IH]; intros accs acct s t cs H.
  - split; intros; contradiction.
  - cbn [resolve_children] in H. inv_bind H. rename a into r, E into Er.
    inv_bind H. destruct a. inv_bind H. inv_bind H. destruct a0 as [[s' t'] cs'].
    fold (resolve_children f) in E1. apply IH in E1. destruct E1 as [I1 I2]. clear IH H.
    assert (Hhead : forall x, In x (dkeys (rp_src r)) -> ~ In x (dkeys accs)).
    { intros x H1 H2. eapply check_dup_Ok; eassumption. }
    assert (Htail : forall n' p' m' r' x, In (n', p', m') l -> f m' p' = Ok r' ->
               In x (dkeys (rp_src r')) -> ~ In x (dkeys accs) /\ ~ In x (dkeys (rp_src r))).
    { intros n' p' m' r' x Hi Hr Hx. specialize (I1 _ _ _ _ _ Hi Hr Hx). rewrite In_dkeys_dupdate in I1. tauto. }
    split.
    + intros n' p' m' r' x [E'|Hi] Hr Hx.
      * injection E' as <- <- <-. rewrite Er in Hr. injection Hr as <-. apply Hhead; exact Hx.
      * eapply Htail; eassumption.
    + intros n1 p1 m1 r1 n2 p2 m2 r2 x [E1|H1] [E2|H2] Hne Hr1 Hr2 Hx1 Hx2.
      * injection E1 as <- <- <-. injection E2 as <- <- <-. congruence.
      * injection E1 as <- <- <-. rewrite Er in Hr1. injection Hr1 as <-.
        destruct (Htail _ _ _ _ _ H2 Hr2 Hx2) as [_ Hn]. contradiction.
      * injection E2 as <- <- <-. rewrite Er in Hr2. injection Hr2 as <-.
        destruct (Htail _ _ _ _ _ H1 Hr1 Hx1) as [_ Hn]. contradiction.
      * eapply I2; [exact H1|exact H2|eassumption..].
Qed.

Lemma is_nil_false_In {V} (d : dict V) x : In x (dkeys d) -> is_nil d = false.
Proof. destruct d; [intros []|reflexivity]. Qed.

Lemma sources_unique m pr r p1 p2 x s1 s2 q :
  well_named m -> resolve m pr = Ok r ->
  has_source m p1 x s1 -> has_source m p2 x s2 ->
  promoted_ns m p1 x q -> promoted_ns m p2 x q -> p1 = p2.
Proof.
  revert pr r p1 p2 q. induction m as [m IH] using model_ind'.
  intros pr r p1 p2 q W H (k1 & Hk1 & Hv1) (k2 & Hk2 & Hv2) Hp1 Hp2.
  apply resolve_inv in H. destruct H as (csrc & ctgt & cs & Hch & Hdup & _ & _ & _ & _ & _ & _).
  pose proof (resolve_children_src_disjoint _ _ _ _ _ _ _ Hch) as [_ Hdis].
  apply resolve_children_spec in Hch. destruct Hch as (_ & Hc2 & Hcs & _).
  destruct (well_named_here _ W) as (HN & _ & _).
  (* a source of a submodel that is visible here is in that child's dictionary *)
  assert (Hvis : forall nm p k s, is_source k -> has_var m (nm :: p) k x s -> promoted_ns m (nm :: p) x [] ->
      exists pr' sm r', In (nm, pr', sm) (m_subs m) /\ resolve sm pr' = Ok r' /\ In x (dkeys (rp_src r')) /\
        has_var sm p k x s /\ promoted_ns sm p x []).
  { intros nm p k s Hk Hv Hp. apply promoted_ns_cons in Hp.
    destruct Hp as (pr1 & sm1 & q0 & Hi1 & Hp & [(-> & HL & _)|(_ & Hx)]); [|discriminate].
    apply has_var_sub in Hv. destruct Hv as (pr' & sm' & Hi' & Hv).
    destruct (sub_unique _ _ _ _ _ _ HN Hi1 Hi') as [-> ->].
    destruct (Hc2 _ _ _ Hi') as (r' & Hr' & _). exists pr', sm', r'.
    split; [exact Hi'|]. split; [exact Hr'|]. split; [|auto].
    apply (resolve_names sm' pr' r'); [eapply well_named_sub; eassumption|exact Hr'|].
    split; [|exact HL]. exists p, k, s; auto. }
  assert (Hlocal : forall k s nm p k' s', is_source k -> has_var m [] k x s ->
      is_source k' -> has_var m (nm :: p) k' x s' -> promoted_ns m (nm :: p) x [] -> False).
  { intros k s nm p k' s' Hk Hv Hk' Hv' Hp'.
    destruct (Hvis _ _ _ _ Hk' Hv' Hp') as (pr' & sm & r' & Hi & Hr & Hx & _).
    assert (Hc : In x (dkeys csrc)) by (apply Hcs; right; eauto 10).
    eapply check_dup_Ok; [apply Hdup; eapply is_nil_false_In; exact Hc| |exact Hc].
    apply local_sources_keys. exists k, s. split; [exact Hk|apply has_var_here; exact Hv]. }
  destruct q as [|n q].
  - destruct p1 as [|n1 p1]; destruct p2 as [|n2 p2]; [reflexivity| | |].
    + exfalso. eapply (Hlocal k1 s1 n2 p2 k2 s2); eassumption.
    + exfalso. eapply (Hlocal k2 s2 n1 p1 k1 s1); eassumption.
    + destruct (Hvis _ _ _ _ Hk1 Hv1 Hp1) as (pr1 & sm1 & r1 & Hi1 & Hr1 & Hx1 & Hw1 & Hq1).
      destruct (Hvis _ _ _ _ Hk2 Hv2 Hp2) as (pr2 & sm2 & r2 & Hi2 & Hr2 & Hx2 & Hw2 & Hq2).
      destruct (string_dec n1 n2) as [->|Hne].
      * destruct (sub_unique _ _ _ _ _ _ HN Hi1 Hi2) as [-> ->]. f_equal.
        eapply IH with (pr := pr2) (r := r2) (q := []);
          [exact Hi2|eapply well_named_sub; eassumption|exact Hr2|exists k1; auto|exists k2; auto|exact Hq1|exact Hq2].
      * exfalso. eapply Hdis; [exact Hi1|exact Hi2|exact Hne|exact Hr1|exact Hr2|exact Hx1|exact Hx2].
  - destruct p1 as [|n1 p1]; [inversion Hp1|]. destruct p2 as [|n2 p2]; [inversion Hp2|].
    apply promoted_ns_cons in Hp1, Hp2.
    destruct Hp1 as (pr1 & sm1 & q1 & Hi1 & Hp1 & [(_ & _ & Hx)|(_ & E1)]); [discriminate|].
    destruct Hp2 as (pr2 & sm2 & q2 & Hi2 & Hp2 & [(_ & _ & Hx)|(_ & E2)]); [discriminate|].
    injection E1 as <- <-. injection E2 as <- <-.
    destruct (sub_unique _ _ _ _ _ _ HN Hi1 Hi2) as [<- <-].
    apply has_var_sub in Hv1, Hv2.
    destruct Hv1 as (pr1' & sm1' & Hi1' & Hv1). destruct Hv2 as (pr2' & sm2' & Hi2' & Hv2).
    destruct (sub_unique _ _ _ _ _ _ HN Hi1 Hi1') as [<- <-].
    destruct (sub_unique _ _ _ _ _ _ HN Hi1 Hi2') as [<- <-].
    destruct (Hc2 _ _ _ Hi1) as (r' & Hr' & _). f_equal.
    eapply IH with (pr := pr1) (r := r') (q := q);
      [exact Hi1|eapply well_named_sub; eassumption|exact Hr'|exists k1; auto|exists k2; auto|exact Hp1|exact Hp2].
Qed.

(** *** Sizes *)
Lemma find_names_Ok a b x s1 s2 :
  find_names_with_matching_shapes a b = Ok tt -> In (x, s1) a -> dget b x = Some s2 -> prod s1 = prod s2.
Proof.
  induction a as [|[k v] a IH]; simpl; [tauto|]. intros H [E|Hi] Hb.
  - injection E as -> ->. rewrite Hb in H. destruct (shape_eqb s1 s2) eqn:Es.
    + apply shape_eqb_spec in Es. congruence.
    + destruct (Nat.eqb_spec (prod s1) (prod s2)); [assumption|discriminate].
  - destruct (dget b k) as [v2|]; [|auto]. destruct (shape_eqb v v2); [auto|].
    destruct (Nat.eqb (prod v) (prod v2)); [auto|discriminate].
Qed.

Lemma resolve_src_NoDup m pr r : resolve m pr = Ok r -> NoDup (dkeys (rp_src r)) /\ NoDup (dkeys (rp_tgt r)).
Proof.
  intros H. apply resolve_inv in H. destruct H as (csrc & ctgt & cs & _ & _ & _ & _ & _ & Hs & Ht & _).
  rewrite Hs, Ht. split.
  - assert (NoDup (dkeys (dupdate (local_sources m) csrc))) by (apply NoDup_dupdate, NoDup_dict_of).
    destruct pr; simpl; [apply NoDup_filter_keys|]; assumption.
  - assert (NoDup (dkeys (dupdate (local_targets m) ctgt))) by (apply NoDup_dupdate, NoDup_dict_of).
    destruct pr; simpl; [apply NoDup_filter_keys|]; assumption.
Qed.

Lemma resolve_children_sizes l accs acct s t cs :
  resolve_children resolve l accs acct = Ok (s, t, cs) ->
  (forall x v, dget acct x = Some v -> exists v', dget t x = Some v' /\ prod v' = prod v) /\
  (forall nm pr sm r x v, In (nm, pr, sm) l -> resolve sm pr = Ok r -> dget (rp_tgt r) x = Some v ->
      exists v', dget t x = Some v' /\ prod v' = prod v) /\
  (forall x v, dget accs x = Some v -> dget s x = Some v) /\
  (forall nm pr sm r x v, In (nm, pr, sm) l -> resolve sm pr = Ok r -> dget (rp_src r) x = Some v -> dget s x = Some v).
Proof.
  revert accs acct s t cs. induction l as [|[[nm pr] sm] l IH]; intros accs acct s t cs H.
  - simpl in H. injection H as <- <- <-. repeat split; [eauto|contradiction|auto|contradiction].
  - cbn [resolve_children] in H. inv_bind H. rename a into r, E into Er.
    inv_bind H. destruct a. inv_bind H. destruct a. inv_bind H. destruct a as [[s' t'] cs']. cbn [fst snd] in H.
    injection H as <- <- <-. fold (resolve_children resolve) in E1. apply IH in E1.
    destruct E1 as (I1 & I2 & I3 & I4). destruct (resolve_src_NoDup _ _ _ Er) as [HNs HNt].
    assert (Hacc : forall x v, dget acct x = Some v -> exists v', dget (dupdate acct (rp_tgt r)) x = Some v' /\ prod v' = prod v).
    { intros x v Hx. rewrite dget_dupdate by exact HNt. destruct (dget (rp_tgt r) x) as [w|] eqn:Ew; [|eauto].
      exists w. split; [reflexivity|]. apply dget_In in Ew. eapply find_names_Ok; eassumption. }
    assert (Hhd : forall x v, dget (rp_tgt r) x = Some v -> dget (dupdate acct (rp_tgt r)) x = Some v).
    { intros x v Hx. rewrite dget_dupdate by exact HNt. rewrite Hx. reflexivity. }
    assert (Hsacc : forall x v, dget accs x = Some v -> dget (dupdate accs (rp_src r)) x = Some v).
    { intros x v Hx. rewrite dget_dupdate by exact HNs. destruct (dget (rp_src r) x) as [w|] eqn:Ew; [|exact Hx].
      exfalso. eapply check_dup_Ok; [exact E|eapply dget_Some_key; exact Ew|eapply dget_Some_key; exact Hx]. }
    assert (Hshd : forall x v, dget (rp_src r) x = Some v -> dget (dupdate accs (rp_src r)) x = Some v).
    { intros x v Hx. rewrite dget_dupdate by exact HNs. rewrite Hx. reflexivity. }
    split; [|split; [|split]].
    + intros x v Hx. destruct (Hacc _ _ Hx) as (v1 & H1 & P1). destruct (I1 _ _ H1) as (v2 & H2 & P2).
      exists v2. split; [exact H2|congruence].
    + intros n' p' m' r' x v [E'|Hi] Hr Hx.
      * injection E' as <- <- <-. rewrite Er in Hr. injection Hr as <-. apply Hhd in Hx. apply I1; exact Hx.
      * eapply I2; eassumption.
    + intros x v Hx. apply I3, Hsacc, Hx.
    + intros n' p' m' r' x v [E'|Hi] Hr Hx.
      * injection E' as <- <- <-. rewrite Er in Hr. injection Hr as <-. apply I3, Hshd, Hx.
      * eapply I4; eassumption.
Qed.

(** same-named variables of one model have one size *)
Lemma locally_consistent_sub m nm pr sm : locally_consistent m -> In (nm, pr, sm) (m_subs m) -> locally_consistent sm.
Proof. intros W Hi p m' Hs. apply (W (nm :: p) m'). econstructor; eassumption. Qed.

Lemma local_source_get m x s : dget (local_sources m) x = Some s -> exists k, is_source k /\ In (x, s) (vars k m).
Proof.
  unfold local_sources. intros H. apply dget_dict_of_In, in_app_iff in H. destruct H as [H|H].
  - exists KInput. split; [discriminate|exact H].
  - exists KOutput. split; [discriminate|exact H].
Qed.

Lemma local_target_get m x s : dget (local_targets m) x = Some s -> In (x, s) (vars KDeclared m).
Proof. intros H. apply dget_dict_of_In in H. exact H. Qed.

Lemma visible_sizes m pr r :
  well_named m -> locally_consistent m -> resolve m pr = Ok r ->
  (forall p k x s, is_source k -> has_var m p k x s -> promoted_ns m p x [] -> lifts pr x ->
     exists s', dget (rp_src r) x = Some s' /\ prod s' = prod s) /\
  (forall p x s, has_var m p KDeclared x s -> promoted_ns m p x [] -> lifts pr x ->
     exists s', dget (rp_tgt r) x = Some s' /\ prod s' = prod s).
Proof.
  revert pr r. induction m as [m IH] using model_ind'. intros pr r W L H.
  apply resolve_inv in H. destruct H as (csrc & ctgt & cs & Hch & Hdup & Htt & _ & _ & Hs & Ht & _).
  pose proof (resolve_children_sizes _ _ _ _ _ _ Hch) as (_ & Hct & _ & Hcs).
  pose proof (resolve_children_spec _ _ _ _ _ _ _ Hch) as (_ & Hc2 & Hks & Hkt).
  destruct (well_named_here _ W) as (HN & _ & _).
  assert (Lh : forall k1 k2 x s1 s2, In (x, s1) (vars k1 m) -> In (x, s2) (vars k2 m) -> prod s1 = prod s2)
    by (intros k1 k2; apply (L [] m); constructor).
  assert (NDs : NoDup (dkeys (dupdate (local_sources m) csrc))) by (apply NoDup_dupdate, NoDup_dict_of).
  assert (NDt : NoDup (dkeys (dupdate (local_targets m) ctgt))) by (apply NoDup_dupdate, NoDup_dict_of).
  assert (Ncs : NoDup (dkeys csrc) /\ NoDup (dkeys ctgt)).
  { assert (G : forall l a b s t c, NoDup (dkeys a) -> NoDup (dkeys b) -> resolve_children resolve l a b = Ok (s, t, c) ->
        NoDup (dkeys s) /\ NoDup (dkeys t)).
    { clear. induction l as [|[[nm pr] sm] l IH]; intros a b s t c Ha Hb H.
      - simpl in H. injection H as <- <- <-. auto.
      - cbn [resolve_children] in H. inv_bind H. inv_bind H. inv_bind H. inv_bind H.
        destruct a3 as [[s' t'] cs']. cbn [fst snd] in H. injection H as <- <- <-.
        eapply IH; [| |exact E2]; apply NoDup_dupdate; assumption. }
    eapply G; [| |exact Hch]; constructor. }
  destruct Ncs as [Ncs Nct].
  rewrite Hs, Ht. split.
  - intros p k x s Hk Hv Hp HL.
    assert (Hg : exists s', dget (dupdate (local_sources m) csrc) x = Some s' /\ prod s' = prod s).
    { rewrite dget_dupdate by exact Ncs. destruct p as [|nm p].
      - assert (Hx : In x (dkeys (local_sources m))).
        { apply local_sources_keys. exists k, s. split; [exact Hk|apply has_var_here; exact Hv]. }
        destruct (dget csrc x) as [w|] eqn:Ew.
        + exfalso. apply dget_Some_key in Ew.
          eapply check_dup_Ok; [apply Hdup; eapply is_nil_false_In; exact Ew|exact Hx|exact Ew].
        + apply In_key_dget in Hx. destruct Hx as [w Hw]. exists w. split; [exact Hw|].
          apply local_source_get in Hw. destruct Hw as (k' & _ & Hw). apply has_var_here in Hv. eapply Lh; eassumption.
      - apply promoted_ns_cons in Hp. destruct Hp as (pr1 & sm1 & q0 & Hi1 & Hp & [(-> & HL1 & _)|(_ & Hx)]); [|discriminate].
        apply has_var_sub in Hv. destruct Hv as (pr' & sm' & Hi' & Hv).
        destruct (sub_unique _ _ _ _ _ _ HN Hi1 Hi') as [-> ->].
        destruct (Hc2 _ _ _ Hi') as (r' & Hr' & _).
        destruct (IH _ _ _ Hi' pr' r') as [I1 _];
          [eapply well_named_sub; eassumption|eapply locally_consistent_sub; eassumption|exact Hr'|].
        destruct (I1 _ _ _ _ Hk Hv Hp HL1) as (s' & Hg & Hpr).
        rewrite (Hcs _ _ _ _ _ _ Hi' Hr' Hg). eauto. }
    destruct Hg as (s' & Hg & Hpr). exists s'. split; [|exact Hpr]. apply promotable_get; auto.
  - intros p x s Hv Hp HL.
    assert (Hg : exists s', dget (dupdate (local_targets m) ctgt) x = Some s' /\ prod s' = prod s).
    { rewrite dget_dupdate by exact Nct. destruct p as [|nm p].
      - assert (Hx : In x (dkeys (local_targets m))).
        { apply local_targets_keys. exists s. apply has_var_here in Hv. exact Hv. }
        apply In_key_dget in Hx. destruct Hx as [u Hu].
        assert (Pu : prod u = prod s).
        { apply has_var_here in Hv. apply local_target_get in Hu. eapply Lh; eassumption. }
        destruct (dget ctgt x) as [w|] eqn:Ew; [|eauto].
        exists w. split; [reflexivity|]. rewrite <- Pu.
        eapply find_names_Ok; [apply Htt; eapply is_nil_false_In, dget_Some_key; exact Ew|apply dget_In; exact Ew|exact Hu].
      - apply promoted_ns_cons in Hp. destruct Hp as (pr1 & sm1 & q0 & Hi1 & Hp & [(-> & HL1 & _)|(_ & Hx)]); [|discriminate].
        apply has_var_sub in Hv. destruct Hv as (pr' & sm' & Hi' & Hv).
        destruct (sub_unique _ _ _ _ _ _ HN Hi1 Hi') as [-> ->].
        destruct (Hc2 _ _ _ Hi') as (r' & Hr' & _).
        destruct (IH _ _ _ Hi' pr' r') as [_ I1];
          [eapply well_named_sub; eassumption|eapply locally_consistent_sub; eassumption|exact Hr'|].
        destruct (I1 _ _ _ Hv Hp HL1) as (s' & Hg & Hpr).
        destruct (Hct _ _ _ _ _ _ Hi' Hr' Hg) as (s2 & Hg2 & Hpr2). rewrite Hg2. exists s2. split; [reflexivity|congruence]. }
    destruct Hg as (s' & Hg & Hpr). exists s'. split; [|exact Hpr]. apply promotable_get; auto.
Qed.

Lemma lifts_none x : lifts None x. Proof. exact I. Qed.

(** resolution of a model does not depend on how it is promoted *)
Lemma resolve_None m pr r : resolve m pr = Ok r -> exists r', resolve m None = Ok r'.
Proof.
  intros H. destruct m as [ins outs decl conns dvs csts obj subs].
  cbn [resolve] in H |- *. inv_bind H. rewrite E. cbn [bind].
  inv_bind H. rewrite E0. cbn [bind]. inv_bind H. rewrite E1. cbn [bind].
  inv_bind H. rewrite E2. cbn [bind]. inv_bind H. rewrite E3. cbn [bind].
  inv_bind H. rewrite E4. cbn [bind]. eauto.
Qed.

Lemma resolve_sub m pr r nm pr' sm : resolve m pr = Ok r -> In (nm, pr', sm) (m_subs m) -> exists r', resolve sm pr' = Ok r'.
Proof.
  intros H Hi. apply resolve_inv in H. destruct H as (csrc & ctgt & cs & Hch & _).
  apply resolve_children_spec in Hch. destruct Hch as (_ & Hc2 & _). destruct (Hc2 _ _ _ Hi) as (r' & Hr & _). eauto.
Qed.

Lemma targets_same_size m pr r p1 p2 x s1 s2 q :
  well_named m -> locally_consistent m -> resolve m pr = Ok r ->
  has_target m p1 x s1 -> has_target m p2 x s2 ->
  promoted_ns m p1 x q -> promoted_ns m p2 x q -> prod s1 = prod s2.
Proof.
  intros W L H. revert m pr r p1 p2 W L H. induction q as [|n q IHq]; intros m pr r p1 p2 W L H H1 H2 P1 P2.
  - destruct (resolve_None _ _ _ H) as [r' H'].
    destruct (visible_sizes _ _ _ W L H') as [_ V].
    destruct (V _ _ _ H1 P1 (lifts_none x)) as (a & Ga & Pa).
    destruct (V _ _ _ H2 P2 (lifts_none x)) as (b & Gb & Pb). congruence.
  - destruct (well_named_here _ W) as (HN & _ & _).
    destruct p1 as [|n1 p1]; [inversion P1|]. destruct p2 as [|n2 p2]; [inversion P2|].
    apply promoted_ns_cons in P1, P2.
    destruct P1 as (pr1 & sm1 & q1 & Hi1 & P1 & [(_ & _ & Hx)|(_ & E1)]); [discriminate|].
    destruct P2 as (pr2 & sm2 & q2 & Hi2 & P2 & [(_ & _ & Hx)|(_ & E2)]); [discriminate|].
    injection E1 as <- <-. injection E2 as <- <-.
    destruct (sub_unique _ _ _ _ _ _ HN Hi1 Hi2) as [<- <-].
    apply has_var_sub in H1, H2.
    destruct H1 as (pr1' & sm1' & Hi1' & H1). destruct H2 as (pr2' & sm2' & Hi2' & H2).
    destruct (sub_unique _ _ _ _ _ _ HN Hi1 Hi1') as [<- <-].
    destruct (sub_unique _ _ _ _ _ _ HN Hi1 Hi2') as [<- <-].
    destruct (resolve_sub _ _ _ _ _ _ H Hi1) as [r' Hr'].
    eapply IHq; [eapply well_named_sub; eassumption|eapply locally_consistent_sub; eassumption|exact Hr'|eassumption..].
Qed.

Lemma source_target_same_size m pr r p1 p2 x s1 s2 q :
  well_named m -> locally_consistent m -> resolve m pr = Ok r ->
  has_source m p1 x s1 -> has_target m p2 x s2 ->
  promoted_ns m p1 x q -> promoted_ns m p2 x q ->
  prefix p1 p2 \/ prefix p2 p1 -> prod s1 = prod s2.
Proof.
  revert pr r p1 p2 q. induction m as [m IH] using model_ind'.
  intros pr r p1 p2 q W L H (k1 & Hk1 & Hv1) Hv2 P1 P2 Hpre.
  destruct (well_named_here _ W) as (HN & _ & _).
  (* both strictly inside the same submodel *)
  assert (Hinner : forall n pp1 pp2, p1 = n :: pp1 -> p2 = n :: pp2 -> prod s1 = prod s2).
  { intros n pp1 pp2 -> ->.
    assert (Hpre' : prefix pp1 pp2 \/ prefix pp2 pp1).
    { destruct Hpre as [[t Et]|[t Et]]; injection Et as ->; [left|right]; exists t; reflexivity. }
    apply promoted_ns_cons in P1, P2.
    destruct P1 as (pr1 & sm1 & q1 & Hi1 & P1 & C1). destruct P2 as (pr2 & sm2 & q2 & Hi2 & P2 & C2).
    destruct (sub_unique _ _ _ _ _ _ HN Hi1 Hi2) as [<- <-].
    apply has_var_sub in Hv1, Hv2.
    destruct Hv1 as (pr1' & sm1' & Hi1' & Hv1). destruct Hv2 as (pr2' & sm2' & Hi2' & Hv2).
    destruct (sub_unique _ _ _ _ _ _ HN Hi1 Hi1') as [<- <-].
    destruct (sub_unique _ _ _ _ _ _ HN Hi1 Hi2') as [<- <-].
    destruct (resolve_sub _ _ _ _ _ _ H Hi1) as [r' Hr'].
    assert (q1 = q2).
    { destruct C1 as [(-> & _ & E1)|(_ & E1)]; destruct C2 as [(-> & _ & E2)|(_ & E2)]; congruence. }
    subst q2.
    eapply IH with (pr := pr1) (r := r') (q := q1) (p1 := pp1) (p2 := pp2);
      [exact Hi1|eapply well_named_sub; eassumption|eapply locally_consistent_sub; eassumption|exact Hr'|exists k1; auto|exact Hv2|exact P1|exact P2|exact Hpre']. }
  destruct p1 as [|n1 p1]; destruct p2 as [|n2 p2].
  - apply has_var_here in Hv1. unfold has_target in Hv2. apply has_var_here in Hv2. eapply (L [] m); [constructor|eassumption..].
  - inversion P1; subst.
    destruct (resolve_None _ _ _ H) as [r0 H0].
    apply resolve_inv in H. destruct H as (csrc & ctgt & cs & Hch & _ & _ & Hst & _ & _).
    pose proof (resolve_children_sizes _ _ _ _ _ _ Hch) as (_ & Hct & _ & _).
    apply resolve_children_spec in Hch. destruct Hch as (_ & Hc2 & _ & _).
    apply promoted_ns_cons in P2. destruct P2 as (pr1 & sm1 & q0 & Hi1 & P2 & [(-> & HL1 & _)|(_ & Hx)]); [|discriminate].
    apply has_var_sub in Hv2. destruct Hv2 as (pr' & sm' & Hi' & Hv2).
    destruct (sub_unique _ _ _ _ _ _ HN Hi1 Hi') as [-> ->].
    destruct (Hc2 _ _ _ Hi') as (r' & Hr' & _).
    destruct (visible_sizes sm' pr' r') as [_ V]; [eapply well_named_sub; eassumption|eapply locally_consistent_sub; eassumption|exact Hr'|].
    destruct (V _ _ _ Hv2 P2 HL1) as (a & Ga & Pa).
    destruct (Hct _ _ _ _ _ _ Hi' Hr' Ga) as (b & Gb & Pb).
    assert (Hx : In x (dkeys (local_sources m))).
    { apply local_sources_keys. exists k1, s1. split; [exact Hk1|apply has_var_here; exact Hv1]. }
    apply In_key_dget in Hx. destruct Hx as [u Hu].
    assert (prod u = prod b) by (eapply find_names_Ok; [exact Hst|apply dget_In; exact Hu|exact Gb]).
    assert (prod s1 = prod u).
    { apply local_source_get in Hu. destruct Hu as (k' & _ & Hu). apply has_var_here in Hv1. eapply (L [] m); [constructor|eassumption..]. }
    congruence.
  - inversion P2; subst.
    apply resolve_inv in H. destruct H as (csrc & ctgt & cs & Hch & _ & _ & _ & Hst & _).
    pose proof (resolve_children_sizes _ _ _ _ _ _ Hch) as (_ & _ & _ & Hct).
    apply resolve_children_spec in Hch. destruct Hch as (_ & Hc2 & _ & _).
    apply promoted_ns_cons in P1. destruct P1 as (pr1 & sm1 & q0 & Hi1 & P1 & [(-> & HL1 & _)|(_ & Hx)]); [|discriminate].
    apply has_var_sub in Hv1. destruct Hv1 as (pr' & sm' & Hi' & Hv1).
    destruct (sub_unique _ _ _ _ _ _ HN Hi1 Hi') as [-> ->].
    destruct (Hc2 _ _ _ Hi') as (r' & Hr' & _).
    destruct (visible_sizes sm' pr' r') as [V _]; [eapply well_named_sub; eassumption|eapply locally_consistent_sub; eassumption|exact Hr'|].
    destruct (V _ _ _ _ Hk1 Hv1 P1 HL1) as (a & Ga & Pa).
    pose proof (Hct _ _ _ _ _ _ Hi' Hr' Ga) as Gb.
    unfold has_target in Hv2. apply has_var_here in Hv2.
    assert (Hx : In x (dkeys (local_targets m))) by (apply local_targets_keys; eauto).
    apply In_key_dget in Hx. destruct Hx as [u Hu].
    assert (prod a = prod u) by (eapply find_names_Ok; [exact Hst|apply dget_In; exact Gb|exact Hu]).
    assert (prod s2 = prod u).
    { apply local_target_get in Hu. eapply (L [] m); [constructor|eassumption..]. }
    congruence.
  - destruct Hpre as [[t Et]|[t Et]]; injection Et as -> _; eapply Hinner; reflexivity.
Qed.

(** *** Promotes lists *)
Lemma resolve_sub_at m p m' pr r : sub_at m p m' -> resolve m pr = Ok r -> exists pr' r', resolve m' pr' = Ok r'.
Proof.
  intros Hs. revert pr r. induction Hs as [m|m nm pr0 sm p m' Hi Hs IH]; intros pr r H; [eauto|].
  destruct (resolve_sub _ _ _ _ _ _ H Hi) as [r' Hr']. eapply IH; exact Hr'.
Qed.

Lemma well_named_sub_at m p m' : sub_at m p m' -> well_named m -> well_named m'.
Proof.
  intros Hs W. induction Hs as [m|m nm pr0 sm p m' Hi Hs IH]; [exact W|].
  apply IH. eapply well_named_sub; eassumption.
Qed.

Lemma promotes_visible m pr r p m' nm l sm x :
  well_named m -> resolve m pr = Ok r -> sub_at m p m' ->
  In (nm, Some l, sm) (m_subs m') -> In x l ->
  exists pv k s, has_var m' pv k x s /\ promoted_ns m' pv x [].
Proof.
  intros W H Hs Hi Hx. destruct (resolve_sub_at _ _ _ _ _ Hs H) as (pr' & r' & H').
  pose proof (well_named_sub_at _ _ _ Hs W) as W'.
  destruct (resolve_p2u _ _ _ W' H') as (_ & _ & HV).
  destruct (HV _ _ _ _ Hi Hx) as [(pv & k & s & _ & Hv & Hp)|(pv & k & s & _ & Hv & Hp)]; eauto.
Qed.
