(** Completeness: a hierarchy obeying the documented rules is accepted. *)
From Verif Require Import PyBase NamesModel NamesProofs PromotionsModel PromotionsSpec
  PromotionsProofs PromotionsProofs2.

Lemma promoted_ns_up m nm pr sm p x q : In (nm, pr, sm) (m_subs m) -> promoted_ns sm p x q ->
  promoted_ns m (nm :: p) x (if (if q then true else false) then (if lifts_dec pr x then [] else [nm]) else nm :: q).
Proof.
  intros Hi Hp. destruct q as [|a q].
  - destruct (lifts_dec pr x); [eapply pn_lifted; eassumption|eapply pn_prefixed; eauto].
  - eapply pn_prefixed; eauto. left; discriminate.
Qed.

Lemma unique_sources_sub m nm pr sm : unique_sources m -> In (nm, pr, sm) (m_subs m) -> unique_sources sm.
Proof.
  intros U Hi p1 p2 x s1 s2 q (k1 & K1 & V1) (k2 & K2 & V2) P1 P2.
  assert (E : nm :: p1 = nm :: p2); [|injection E; auto].
  eapply U; [exists k1; split; [exact K1|apply has_var_sub; eauto]|exists k2; split; [exact K2|apply has_var_sub; eauto]
            |eapply promoted_ns_up; eassumption|eapply promoted_ns_up; eassumption].
Qed.

Lemma sizes_agree_sub m nm pr sm : sizes_agree m -> In (nm, pr, sm) (m_subs m) -> sizes_agree sm.
Proof.
  intros U Hi p1 p2 k1 k2 x s1 s2 q V1 V2 P1 P2.
  eapply U; [apply has_var_sub; eauto|apply has_var_sub; eauto
            |eapply promoted_ns_up; eassumption|eapply promoted_ns_up; eassumption].
Qed.

Lemma valid_promotes_sub m nm pr sm : valid_promotes m -> In (nm, pr, sm) (m_subs m) -> valid_promotes sm.
Proof. intros U Hi p m' n l s' x Hs. eapply U. econstructor; eassumption. Qed.

Lemma find_names_intro (a b : dict shape) :
  (forall x s1 s2, In (x, s1) a -> dget b x = Some s2 -> prod s1 = prod s2) ->
  find_names_with_matching_shapes a b = Ok tt.
Proof.
  induction a as [|[k v] a IH]; simpl; intros H; [reflexivity|].
  destruct (dget b k) as [w|] eqn:E.
  - assert (P : prod v = prod w) by (eapply H; [left; reflexivity|exact E]).
    destruct (shape_eqb v w); [apply IH; eauto|]. rewrite P, Nat.eqb_refl. apply IH; eauto.
  - apply IH; eauto.
Qed.

Lemma check_dup_intro {V} (a b : dict V) :
  (forall x, In x (dkeys a) -> In x (dkeys b) -> False) -> check_duplicate_keys a b = Ok tt.
Proof.
  intros H. unfold check_duplicate_keys. destruct (existsb _ _) eqn:E; [|reflexivity].
  exfalso. apply existsb_exists in E. destruct E as (x & Hx & Hm). apply dmem_spec in Hm. eauto.
Qed.

Lemma dget_dupdate_or {V} (e d : dict V) x v : NoDup (dkeys e) ->
  dget (dupdate d e) x = Some v -> dget e x = Some v \/ dget d x = Some v.
Proof.
  intros HN. rewrite dget_dupdate by exact HN. destruct (dget e x); intros H; [left|right]; congruence.
Qed.

(** every recorded shape is the shape of a visible variable *)
Lemma resolve_children_shapes l accs acct s t cs :
  resolve_children resolve l accs acct = Ok (s, t, cs) ->
  (forall x v, dget s x = Some v -> dget accs x = Some v \/
     exists nm pr sm r, In (nm, pr, sm) l /\ resolve sm pr = Ok r /\ dget (rp_src r) x = Some v) /\
  (forall x v, dget t x = Some v -> dget acct x = Some v \/
     exists nm pr sm r, In (nm, pr, sm) l /\ resolve sm pr = Ok r /\ dget (rp_tgt r) x = Some v).
Proof.
  revert accs acct s t cs. induction l as [|[[nm pr] sm] l IH]; intros accs acct s t cs H.
  - simpl in H. injection H as <- <- <-. auto.
  - cbn [resolve_children] in H. inv_bind H. rename a into r, E into Er.
    inv_bind H. inv_bind H. inv_bind H. destruct a1 as [[s' t'] cs']. cbn [fst snd] in H.
    injection H as <- <- <-. fold (resolve_children resolve) in E1. apply IH in E1. destruct E1 as [I1 I2].
    destruct (resolve_src_NoDup _ _ _ Er) as [HNs HNt]. split.
    + intros x v Hx. apply I1 in Hx. destruct Hx as [Hx|(n' & p' & m' & r' & Hi & Hx)].
      * apply dget_dupdate_or in Hx; [|exact HNs]. destruct Hx as [Hx|Hx]; [right|auto].
        exists nm, pr, sm, r. auto using in_eq.
      * right. exists n', p', m', r'. split; [right; exact Hi|exact Hx].
    + intros x v Hx. apply I2 in Hx. destruct Hx as [Hx|(n' & p' & m' & r' & Hi & Hx)].
      * apply dget_dupdate_or in Hx; [|exact HNt]. destruct Hx as [Hx|Hx]; [right|auto].
        exists nm, pr, sm, r. auto using in_eq.
      * right. exists n', p', m', r'. split; [right; exact Hi|exact Hx].
Qed.

Lemma resolve_children_NoDup l a b s t c : NoDup (dkeys a) -> NoDup (dkeys b) ->
  resolve_children resolve l a b = Ok (s, t, c) -> NoDup (dkeys s) /\ NoDup (dkeys t).
Proof.
  revert a b s t c. induction l as [|[[nm pr] sm] l IH]; intros a b s t c Ha Hb H.
  - simpl in H. injection H as <- <- <-. auto.
  - cbn [resolve_children] in H. inv_bind H. inv_bind H. inv_bind H. inv_bind H.
    destruct a3 as [[s' t'] cs']. cbn [fst snd] in H. injection H as <- <- <-.
    eapply IH; [| |exact E2]; apply NoDup_dupdate; assumption.
Qed.

Lemma resolve_shapes m pr r : resolve m pr = Ok r ->
  (forall x s, dget (rp_src r) x = Some s -> lifts pr x /\ exists p k, is_source k /\ has_var m p k x s /\ promoted_ns m p x []) /\
  (forall x s, dget (rp_tgt r) x = Some s -> lifts pr x /\ exists p, has_var m p KDeclared x s /\ promoted_ns m p x []).
Proof.
  revert pr r. induction m as [m IH] using model_ind'. intros pr r H.
  apply resolve_inv in H. destruct H as (csrc & ctgt & cs & Hch & _ & _ & _ & _ & Hs & Ht & _).
  pose proof (resolve_children_shapes _ _ _ _ _ _ Hch) as [S1 S2].
  destruct (resolve_children_NoDup (m_subs m) [] [] csrc ctgt cs ltac:(constructor) ltac:(constructor) Hch) as [Ns Nt].
  rewrite Hs, Ht. split; intros x s Hx.
  - apply promotable_get in Hx; [|apply NoDup_dupdate, NoDup_dict_of]. destruct Hx as [Hx HL]. split; [exact HL|].
    apply dget_dupdate_or in Hx; [|exact Ns]. destruct Hx as [Hx|Hx].
    + apply S1 in Hx. destruct Hx as [Hx|(nm & pr' & sm & r' & Hi & Hr & Hg)]; [discriminate|].
      destruct (IH _ _ _ Hi _ _ Hr) as [I1 _]. apply I1 in Hg. destruct Hg as (HL' & p & k & Hk & Hv & Hp).
      exists (nm :: p), k. split; [exact Hk|]. split; [apply has_var_sub; eauto|econstructor; eassumption].
    + apply local_source_get in Hx. destruct Hx as (k & Hk & Hi). exists [], k.
      split; [exact Hk|]. split; [apply has_var_here; exact Hi|constructor].
  - apply promotable_get in Hx; [|apply NoDup_dupdate, NoDup_dict_of]. destruct Hx as [Hx HL]. split; [exact HL|].
    apply dget_dupdate_or in Hx; [|exact Nt]. destruct Hx as [Hx|Hx].
    + apply S2 in Hx. destruct Hx as [Hx|(nm & pr' & sm & r' & Hi & Hr & Hg)]; [discriminate|].
      destruct (IH _ _ _ Hi _ _ Hr) as [_ I1]. apply I1 in Hg. destruct Hg as (HL' & p & Hv & Hp).
      exists (nm :: p). split; [apply has_var_sub; eauto|econstructor; eassumption].
    + apply local_target_get in Hx. exists []. split; [apply has_var_here; exact Hx|constructor].
Qed.

(** lengths *)
Lemma length_ddel {V} (d : dict V) k : In k (dkeys d) -> S (length (ddel d k)) = length d.
Proof.
  induction d as [|[k' v] d IH]; simpl; [tauto|]. intros H.
  destruct (String.eqb_spec k k') as [->|Hne]; [reflexivity|]. simpl. rewrite IH; [reflexivity|].
  destruct H as [H|H]; [congruence|exact H].
Qed.

Lemma ddel_keeps {V} (d : dict V) k x : x <> k -> In x (dkeys d) -> In x (dkeys (ddel d k)).
Proof.
  induction d as [|[k' v] d IH]; simpl; [tauto|]. intros Hne H.
  destruct (String.eqb_spec k k') as [->|_]; [destruct H; [congruence|assumption]|].
  simpl. destruct H; auto.
Qed.

Lemma length_fold_ddel {V W} (keep : dict W) f (d : dict V) :
  (forall a b, f a = f b -> a = b) -> NoDup (dkeys keep) ->
  (forall k, In k (dkeys keep) -> In (f k) (dkeys d)) ->
  length keep + length (fold_left (fun d kv => ddel d (f (fst kv))) keep d) = length d.
Proof.
  intros Hf. revert d. induction keep as [|[k w] keep IH]; intros d HN Hin; [reflexivity|].
  cbn [fold_left fst length]. simpl in HN. inversion HN; subst.
  rewrite <- (length_ddel d (f k)) by (apply Hin; left; reflexivity).
  rewrite <- (IH (ddel d (f k))); [reflexivity|assumption|].
  intros k' Hk'. apply ddel_keeps; [|apply Hin; right; exact Hk'].
  intros E. apply Hf in E. subst. contradiction.
Qed.

Lemma merge_child_succeeds ns p c :
  NoDup (dkeys (c_p2u c)) ->
  (forall l x, c_prom c = Some l -> In x l -> In x ns) ->
  exists p', merge_child ns p c = Ok p'.
Proof.
  intros HNc Hns. unfold merge_child. set (s := c_name c).
  set (pfc := map (fun kv => (fst kv, map (prepend_namespace s) (snd kv))) (c_p2u c)).
  set (np0 := map (fun kv => (prepend_namespace s (fst kv), map (prepend_namespace s) (snd kv))) (c_p2u c)).
  assert (HNn : NoDup (dkeys np0)).
  { unfold np0, dkeys. rewrite map_map. cbn [fst].
    assert (G : forall l : dict (list string), NoDup (dkeys l) -> NoDup (map (fun kv => prepend_namespace s (fst kv)) l)).
    { induction l as [|[k v] l IH]; simpl; intros HN; [constructor|].
      inversion HN; subst. constructor; [|auto]. rewrite in_map_iff. intros ([k' v'] & E & Hi).
      apply prepend_inj in E. simpl in E. subst k'. apply (in_map fst) in Hi. contradiction. }
    apply G, HNc. }
  rewrite (dict_of_NoDup _ HNn).
  assert (Hl : length np0 = length pfc) by (unfold np0, pfc; rewrite !map_length; reflexivity).
  unfold raise_if at 1. rewrite Hl, Nat.eqb_refl. cbn [negb].
  assert (HNf : NoDup (dkeys pfc)) by (unfold pfc; rewrite dkeys_map_fst; exact HNc).
  assert (Hk : forall k, In k (dkeys pfc) -> In (prepend_namespace s k) (dkeys np0)).
  { intros k Hk. unfold pfc in Hk. rewrite dkeys_map_fst in Hk. unfold np0, dkeys. rewrite map_map. cbn [fst].
    unfold dkeys in Hk. apply in_map_iff in Hk. destruct Hk as ([k' v] & <- & Hi).
    apply in_map_iff. exists (k', v). auto. }
  assert (Hlen : forall f : string * list string -> bool, let keep := filter f pfc in
     length keep + length (fold_left (fun d kv => ddel d (prepend_namespace s (fst kv))) keep np0) = length pfc).
  { intros f keep. rewrite <- Hl. apply length_fold_ddel; [apply prepend_inj|apply NoDup_filter_keys; exact HNf|].
    intros k Hkk. apply Hk. apply filter_keys_incl in Hkk. destruct Hkk as (v & Hi & _). apply (in_map fst) in Hi. exact Hi. }
  destruct (c_prom c) as [[|x l]|] eqn:Epr.
  - cbn [bind]. unfold raise_if. cbn [fst snd length Nat.add]. rewrite Hl, Nat.eqb_refl. cbn [negb]. eauto.
  - destruct (existsb (fun k => negb (smem k ns)) (x :: l)) eqn:Ex.
    + exfalso. apply existsb_exists in Ex. destruct Ex as (y & Hy & Hn).
      specialize (Hns _ _ eq_refl Hy). apply smem_spec in Hns. rewrite Hns in Hn. discriminate.
    + cbn [bind]. unfold raise_if. cbn [fst snd]. rewrite Hlen, Nat.eqb_refl. cbn [negb]. eauto.
  - cbn [bind]. unfold raise_if. cbn [fst snd]. rewrite Hlen, Nat.eqb_refl. cbn [negb]. eauto.
Qed.

Lemma merge_children_succeeds ns cs p :
  (forall c, In c cs -> NoDup (dkeys (c_p2u c)) /\ (forall l x, c_prom c = Some l -> In x l -> In x ns)) ->
  exists p', merge_children ns p cs = Ok p'.
Proof.
  revert p. induction cs as [|c cs IH]; intros p H; [simpl; eauto|].
  cbn [merge_children]. destruct (H c (or_introl eq_refl)) as [H1 H2].
  destruct (merge_child_succeeds ns p c H1 H2) as [p' Hp']. rewrite Hp'. cbn [bind].
  apply IH. intros c' Hc'. apply H. right; exact Hc'.
Qed.

Lemma resolve_complete m pr :
  well_named m -> unique_sources m -> sizes_agree m -> valid_promotes m -> exists r, resolve m pr = Ok r.
Proof.
  revert pr. induction m as [m IH] using model_ind'. intros pr W U Z V.
  destruct (well_named_here _ W) as (HN & Hnm & _).
  assert (IH' : forall nm pr sm, In (nm, pr, sm) (m_subs m) -> exists r, resolve sm pr = Ok r).
  { intros nm pr' sm Hi. eapply IH; [exact Hi|eapply well_named_sub; eassumption|eapply unique_sources_sub; eassumption
      |eapply sizes_agree_sub; eassumption|eapply valid_promotes_sub; eassumption]. }
  (* everything recorded for a child is a visible variable below that child *)
  assert (Hsrc : forall nm pr' sm r x s, In (nm, pr', sm) (m_subs m) -> resolve sm pr' = Ok r -> dget (rp_src r) x = Some s ->
      exists p, has_source m (nm :: p) x s /\ promoted_ns m (nm :: p) x []).
  { intros nm pr' sm r x s Hi Hr Hg. apply (proj1 (resolve_shapes _ _ _ Hr)) in Hg.
    destruct Hg as (HL & p & k & Hk & Hv & Hp). exists p. split; [exists k; split; [exact Hk|apply has_var_sub; eauto]|].
    econstructor; eassumption. }
  assert (Htgt : forall nm pr' sm r x s, In (nm, pr', sm) (m_subs m) -> resolve sm pr' = Ok r -> dget (rp_tgt r) x = Some s ->
      exists p, has_var m (nm :: p) KDeclared x s /\ promoted_ns m (nm :: p) x []).
  { intros nm pr' sm r x s Hi Hr Hg. apply (proj2 (resolve_shapes _ _ _ Hr)) in Hg.
    destruct Hg as (HL & p & Hv & Hp). exists p. split; [apply has_var_sub; eauto|]. econstructor; eassumption. }
  assert (Hch : exists csrc ctgt cs, resolve_children resolve (m_subs m) [] [] = Ok (csrc, ctgt, cs)).
  { assert (G : forall l done accs acct,
      m_subs m = done ++ l ->
      NoDup (dkeys accs) -> NoDup (dkeys acct) ->
      (forall x s, dget accs x = Some s -> exists nm pr' sm r, In (nm, pr', sm) done /\ resolve sm pr' = Ok r /\ dget (rp_src r) x = Some s) ->
      (forall x s, dget acct x = Some s -> exists nm pr' sm r, In (nm, pr', sm) done /\ resolve sm pr' = Ok r /\ dget (rp_tgt r) x = Some s) ->
      exists o, resolve_children resolve l accs acct = Ok o).
    { induction l as [|[[nm pr'] sm] l IHl]; intros done accs acct Hd HNs HNt Ha Hb; [simpl; eauto|].
      cbn [resolve_children].
      assert (Hi : In (nm, pr', sm) (m_subs m)) by (rewrite Hd; apply in_app_iff; right; left; reflexivity).
      destruct (IH' _ _ _ Hi) as [r Hr]. rewrite Hr. cbn [bind].
      destruct (resolve_src_NoDup _ _ _ Hr) as [Rs Rt].
      rewrite check_dup_intro; cbn [bind].
      2:{ intros x Hx1 Hx2. apply In_key_dget in Hx1, Hx2. destruct Hx1 as [s1 Hx1]. destruct Hx2 as [s2 Hx2].
          apply Ha in Hx2. destruct Hx2 as (n2 & pr2 & m2 & r2 & Hi2 & Hr2 & Hx2).
          assert (Hi2' : In (n2, pr2, m2) (m_subs m)) by (rewrite Hd; apply in_app_iff; left; exact Hi2).
          destruct (Hsrc _ _ _ _ _ _ Hi Hr Hx1) as (p1 & V1 & P1).
          destruct (Hsrc _ _ _ _ _ _ Hi2' Hr2 Hx2) as (p2 & V2 & P2).
          assert (E : nm :: p1 = n2 :: p2) by (eapply U; eassumption). injection E as <- _.
          rewrite Hd, map_app in HN. cbn [map fst] in HN. apply NoDup_remove_2 in HN. apply HN.
          apply in_app_iff. left. apply in_map_iff. exists (nm, pr2, m2). auto. }
      rewrite find_names_intro; cbn [bind].
      2:{ intros x s1 s2 Hx1 Hx2. apply In_dget in Hx1; [|exact Rt].
          apply Hb in Hx2. destruct Hx2 as (n2 & pr2 & m2 & r2 & Hi2 & Hr2 & Hx2).
          assert (Hi2' : In (n2, pr2, m2) (m_subs m)) by (rewrite Hd; apply in_app_iff; left; exact Hi2).
          destruct (Htgt _ _ _ _ _ _ Hi Hr Hx1) as (p1 & V1 & P1).
          destruct (Htgt _ _ _ _ _ _ Hi2' Hr2 Hx2) as (p2 & V2 & P2).
          eapply Z; eassumption. }
      destruct (IHl (done ++ [(nm, pr', sm)]) (dupdate accs (rp_src r)) (dupdate acct (rp_tgt r))) as [o Ho].
      - rewrite <- app_assoc. exact Hd.
      - apply NoDup_dupdate; exact HNs.
      - apply NoDup_dupdate; exact HNt.
      - intros x s Hx. apply dget_dupdate_or in Hx; [|exact Rs]. destruct Hx as [Hx|Hx].
        + exists nm, pr', sm, r. split; [apply in_app_iff; right; left; reflexivity|auto].
        + apply Ha in Hx. destruct Hx as (n2 & pr2 & m2 & r2 & Hi2 & Hx). exists n2, pr2, m2, r2.
          split; [apply in_app_iff; left; exact Hi2|exact Hx].
      - intros x s Hx. apply dget_dupdate_or in Hx; [|exact Rt]. destruct Hx as [Hx|Hx].
        + exists nm, pr', sm, r. split; [apply in_app_iff; right; left; reflexivity|auto].
        + apply Hb in Hx. destruct Hx as (n2 & pr2 & m2 & r2 & Hi2 & Hx). exists n2, pr2, m2, r2.
          split; [apply in_app_iff; left; exact Hi2|exact Hx].
      - fold (resolve_children resolve). rewrite Ho. cbn [bind]. eauto. }
    destruct (G (m_subs m) [] [] []) as [[[a b] c] Ho]; [reflexivity|constructor|constructor|discriminate|discriminate|].
    exists a, b, c. exact Ho. }
  destruct Hch as (csrc & ctgt & cs & Hch).
  pose proof (resolve_children_shapes _ _ _ _ _ _ Hch) as [S1 S2].
  destruct (resolve_children_NoDup (m_subs m) [] [] csrc ctgt cs ltac:(constructor) ltac:(constructor) Hch) as [Ns Nt].
  pose proof (resolve_children_spec _ _ _ _ _ _ _ Hch) as (C1 & C2 & K1 & K2).
  assert (Vsrc : forall x s, dget csrc x = Some s -> exists n p, has_source m (n :: p) x s /\ promoted_ns m (n :: p) x []).
  { intros x s Hx. apply S1 in Hx. destruct Hx as [Hx|(nm & pr' & sm & r' & Hi & Hr & Hg)]; [discriminate|].
    destruct (Hsrc _ _ _ _ _ _ Hi Hr Hg) as (p & Hp). exists nm, p; exact Hp. }
  assert (Vtgt : forall x s, dget ctgt x = Some s -> exists n p, has_var m (n :: p) KDeclared x s /\ promoted_ns m (n :: p) x []).
  { intros x s Hx. apply S2 in Hx. destruct Hx as [Hx|(nm & pr' & sm & r' & Hi & Hr & Hg)]; [discriminate|].
    destruct (Htgt _ _ _ _ _ _ Hi Hr Hg) as (p & Hp). exists nm, p; exact Hp. }
  assert (Lsrc : forall x s, dget (local_sources m) x = Some s -> exists k, is_source k /\ has_var m [] k x s).
  { intros x s Hx. apply local_source_get in Hx. destruct Hx as (k & Hk & Hi). exists k. split; [exact Hk|apply has_var_here; exact Hi]. }
  assert (Ltgt : forall x s, dget (local_targets m) x = Some s -> has_var m [] KDeclared x s).
  { intros x s Hx. apply local_target_get in Hx. apply has_var_here; exact Hx. }
  assert (D1 : check_duplicate_keys (local_sources m) csrc = Ok tt).
  { apply check_dup_intro. intros x H1 H2. apply In_key_dget in H1, H2. destruct H1 as [s1 H1]. destruct H2 as [s2 H2].
    apply Lsrc in H1. destruct H1 as (k & Hk & H1). apply Vsrc in H2. destruct H2 as (n & p & H2 & P2).
    assert (E : [] = n :: p); [|discriminate]. eapply U; [exists k; split; [exact Hk|exact H1]|exact H2|constructor|exact P2]. }
  assert (D2 : find_names_with_matching_shapes ctgt (local_targets m) = Ok tt).
  { apply find_names_intro. intros x s1 s2 H1 H2. apply In_dget in H1; [|exact Nt].
    apply Vtgt in H1. destruct H1 as (n & p & H1 & P1). apply Ltgt in H2. eapply Z; [exact H1|exact H2|exact P1|constructor]. }
  assert (D3 : find_names_with_matching_shapes (local_sources m) ctgt = Ok tt).
  { apply find_names_intro. intros x s1 s2 H1 H2. apply In_dget in H1; [|apply NoDup_dict_of].
    apply Lsrc in H1. destruct H1 as (k & Hk & H1). apply Vtgt in H2. destruct H2 as (n & p & H2 & P2).
    eapply Z; [exact H1|exact H2|constructor|exact P2]. }
  assert (D4 : find_names_with_matching_shapes csrc (local_targets m) = Ok tt).
  { apply find_names_intro. intros x s1 s2 H1 H2. apply In_dget in H1; [|exact Ns].
    apply Vsrc in H1. destruct H1 as (n & p & (k & Hk & H1) & P1). apply Ltgt in H2. eapply Z; [exact H1|exact H2|exact P1|constructor]. }
  destruct (merge_children_succeeds
     (dkeys (dupdate (local_sources m) csrc) ++ dkeys (dupdate (local_targets m) ctgt)) cs (p2u_local m)) as [p' Hp'].
  { intros c Hc. apply C1 in Hc. destruct Hc as (nm & pr' & sm & r' & Hi & Hr & ->). cbn [c_p2u c_prom].
    split.
    - apply (resolve_p2u sm pr' r'); [eapply well_named_sub; eassumption|exact Hr].
    - intros l x -> Hx. destruct (V [] m nm l sm x) as (pv & k & s & Hv & Hp); [constructor|exact Hi|exact Hx|].
      assert (Ws : well_named sm) by (eapply well_named_sub; eassumption).
      destruct (resolve_names _ _ _ Ws Hr) as [N1 N2].
      apply in_app_iff. rewrite !In_dkeys_dupdate.
      destruct k.
      + left; right. apply K1. right. exists nm, (Some l), sm, r'. split; [exact Hi|]. split; [exact Hr|].
        apply N1. split; [exists pv, KInput, s; split; [discriminate|auto]|exact Hx].
      + left; right. apply K1. right. exists nm, (Some l), sm, r'. split; [exact Hi|]. split; [exact Hr|].
        apply N1. split; [exists pv, KOutput, s; split; [discriminate|auto]|exact Hx].
      + right; right. apply K2. right. exists nm, (Some l), sm, r'. split; [exact Hi|]. split; [exact Hr|].
        apply N2. split; [exists pv, KDeclared, s; auto|exact Hx]. }
  destruct m as [ins outs decl conns dvs csts obj subs]. cbn [resolve].
  cbn [m_subs] in Hch. rewrite Hch. cbn [bind fst snd].
  unfold local_sources, local_targets in *. cbn [m_inputs m_outputs m_declared] in *.
  rewrite D1, D2, D3, D4. replace (if is_nil csrc then Ok tt else Ok tt) with (Ok tt) by (destruct (is_nil csrc); reflexivity).
  replace (if is_nil ctgt then Ok tt else Ok tt) with (Ok tt) by (destruct (is_nil ctgt); reflexivity).
  cbn [bind]. unfold p2u_local, local_sources, local_targets in Hp'. cbn [m_inputs m_outputs m_declared] in Hp'.
  rewrite Hp'. cbn [bind]. eauto.
Qed.

(** A checker for [well_named], used to exhibit concrete models. *)
Fixpoint nodupb (l : list string) : bool :=
  match l with [] => true | x :: r => negb (smem x r) && nodupb r end.
Lemma nodupb_spec l : nodupb l = true -> NoDup l.
Proof.
  induction l as [|x l IH]; simpl; intros H; [constructor|]. apply andb_true_iff in H. destruct H as [H1 H2].
  constructor; [|auto]. intros Hi. apply smem_spec in Hi. rewrite Hi in H1. discriminate.
Qed.

Definition node_okb (m : model) : bool :=
  nodupb (map (fun t => fst (fst t)) (m_subs m)) &&
  forallb (fun t => negb (has_dot (fst (fst t))) && negb (String.eqb (fst (fst t)) "")) (m_subs m) &&
  forallb (fun v => negb (has_dot (fst v))) (m_inputs m ++ m_outputs m ++ m_declared m).

Fixpoint well_namedb (m : model) : bool :=
  match m with
  | Mdl i o d c v k b subs =>
    node_okb (Mdl i o d c v k b subs) &&
    (fix go (l : list (string * promotes_t * model)) : bool :=
       match l with [] => true | (_, _, sm) :: r => well_namedb sm && go r end) subs
  end.

Lemma well_namedb_cons m : well_namedb m = true ->
  node_okb m = true /\ forall nm pr sm, In (nm, pr, sm) (m_subs m) -> well_namedb sm = true.
Proof.
  destruct m as [i o d c v k b subs]. cbn [well_namedb m_subs]. rewrite andb_true_iff. intros [H1 H2].
  split; [exact H1|]. clear H1. induction subs as [|[[n p] s] l IH]; intros nm pr sm; [intros []|].
  apply andb_true_iff in H2. destruct H2 as [H2 H3]. intros [E|Hi]; [injection E as <- <- <-; exact H2|].
  eapply IH; [exact H3|exact Hi].
Qed.

Lemma node_okb_spec m : node_okb m = true ->
  NoDup (map (fun t => fst (fst t)) (m_subs m)) /\
  (forall nm pr sm, In (nm, pr, sm) (m_subs m) -> has_dot nm = false /\ nm <> ""%string) /\
  (forall k x s, In (x, s) (vars k m) -> has_dot x = false).
Proof.
  unfold node_okb. rewrite !andb_true_iff, !forallb_forall. intros [[H1 H2] H3].
  split; [apply nodupb_spec, H1|]. split.
  - intros nm pr sm Hi. apply H2 in Hi. cbn [fst] in Hi. apply andb_true_iff in Hi. destruct Hi as [A B].
    split; [destruct (has_dot nm); [discriminate|reflexivity]|]. intros ->. discriminate.
  - intros k x s Hi. assert (G : In (x, s) (m_inputs m ++ m_outputs m ++ m_declared m)).
    { rewrite !in_app_iff. destruct k; auto. }
    apply H3 in G. cbn [fst] in G. destruct (has_dot x); [discriminate|reflexivity].
Qed.

Lemma well_namedb_sound m : well_namedb m = true -> well_named m.
Proof.
  intros H p m' Hs. revert H. induction Hs as [m|m nm pr sm p m' Hi Hs IH]; intros H;
    apply well_namedb_cons in H; destruct H as [H1 H2].
  - apply node_okb_spec, H1.
  - apply IH. eapply H2; exact Hi.
Qed.
