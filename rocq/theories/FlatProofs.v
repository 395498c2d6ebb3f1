From Coq Require Import Permutation.
From Verif Require Import PyBase NamesModel Digraph FlatModel FlatSpec.
Set Implicit Arguments.

Section Contract.
  Context {A : Type} (eqb : A -> A -> bool) (eqb_spec : forall x y, eqb x y = true <-> x = y).
  Notation eqb_refl := (eqb_refl eqb eqb_spec).
  Notation eqb_false := (eqb_false eqb eqb_spec).

  (** Where a node ends up after a list of (kept, removed) contractions. *)
  Definition repl (l : list (A * A)) (x : A) : A := fold_left (fun x uv => subst eqb (snd uv) (fst uv) x) l x.

  Lemma repl_app l l' x : repl (l ++ l') x = repl l' (repl l x).
  Proof. unfold repl. apply fold_left_app. Qed.
  Lemma subst_same v u : subst eqb v u v = u.
  Proof. unfold subst. rewrite eqb_refl. reflexivity. Qed.
  Lemma subst_other v u x : x <> v -> subst eqb v u x = x.
  Proof. intros H. unfold subst. apply not_eq_sym, eqb_false in H. rewrite H. reflexivity. Qed.
  Lemma repl_not_in l x : ~ In x (map snd l) -> repl l x = x.
  Proof.
    revert x. induction l as [|[u v] l IH]; intros x H; [reflexivity|]. unfold repl in *. cbn in *.
    rewrite subst_other by (intros ->; tauto). apply IH. tauto.
  Qed.
  Lemma repl_in l1 u x l2 : NoDup (map snd (l1 ++ (u, x) :: l2)) -> repl (l1 ++ (u, x) :: l2) x = repl l2 u.
  Proof.
    intros N. rewrite map_app in N. cbn in N. rewrite repl_app, (@repl_not_in l1).
    - unfold repl. cbn. rewrite subst_same. reflexivity.
    - apply NoDup_app_iff in N. destruct N as (_ & _ & Hd). intros H. apply (Hd _ H). left. reflexivity.
  Qed.

  Context (isv : A -> bool).
  (** A list of contractions that can be carried out: nothing is removed twice and nothing
      is kept after having been removed. *)
  Fixpoint steps_ok (l : list (A * A)) : Prop :=
    match l with
    | [] => True
    | (u, v) :: r => u <> v /\ (forall u' v', In (u', v') r -> u' <> v /\ v' <> v) /\ steps_ok r
    end.

  Lemma contract_all_ok l : forall g, wf g -> steps_ok l ->
    (forall u v, In (u, v) l -> node g u /\ node g v /\ isv u = true /\ isv v = true) ->
    (forall a b, edge g a b -> isv a = true -> isv b = true -> False) ->
    exists g', contract_all eqb g l = Ok g' /\ wf g' /\
      (forall x, node g' x <-> node g x /\ ~ In x (map snd l)) /\
      (forall a b, edge g' a b <-> exists a' b', edge g a' b' /\ repl l a' = a /\ repl l b' = b).
  Proof.
    induction l as [|[u v] l IH]; intros g W SO HN HE; cbn [contract_all].
    - exists g. split; [reflexivity|]. split; [exact W|]. split; [cbn; tauto|].
      intros a b. split; [intros H; exists a, b; auto|intros (a' & b' & H & <- & <-); exact H].
    - destruct SO as (Huv & Hl & SO). destruct (HN u v (or_introl eq_refl)) as (Nu & Nv & Vu & Vv).
      destruct (contract_spec eqb eqb_spec g u v W Huv Nu Nv) as (g1 & E1 & W1 & HN1 & HE1).
      { intros H. eapply HE; eauto. }
      { intros H. eapply HE; eauto. }
      rewrite E1. cbn [bind].
      assert (HV : forall x, isv (subst eqb v u x) = isv x).
      { intros x. unfold subst. destruct (eqb v x) eqn:E; [|reflexivity]. apply eqb_spec in E. congruence. }
      destruct (IH g1 W1 SO) as (g' & E & W' & HN' & HE').
      { intros u' v' Hi. destruct (Hl _ _ Hi) as [H1 H2]. destruct (HN u' v' (or_intror Hi)) as (N1 & N2 & V1 & V2).
        rewrite !HN1. auto. }
      { intros a b H Ha Hb. apply HE1 in H. destruct H as (a' & b' & H & <- & <-). rewrite HV in *. eapply HE; eauto. }
      exists g'. split; [exact E|]. split; [exact W'|]. split.
      + intros x. rewrite HN', HN1. cbn. intuition congruence.
      + intros a b. rewrite HE'. split.
        * intros (a1 & b1 & H & E2 & E3). apply HE1 in H. destruct H as (a' & b' & H & <- & <-). exists a', b'. auto.
        * intros (a' & b' & H & E2 & E3). exists (subst eqb v u a'), (subst eqb v u b'). split; [apply HE1; exists a', b'; auto|auto].
  Qed.
End Contract.

Section Auto.
  Context {A : Type} (eqb : A -> A -> bool) (eqb_spec : forall x y, eqb x y = true <-> x = y) (attr : A -> nattr).
  Notation pname := (pname attr).

  (** *** Choice of the surviving declared variable *)
  Definition named (k : string) (l : list A) : list A := filter (fun t => String.eqb (pname t) k) l.

  Lemma depth_vat x : depth attr x = count_dots (va_uns (vat attr x)).
  Proof. unfold depth, vat. destruct (attr x); reflexivity. Qed.
  Lemma default_vat x : has_default attr x = va_default (vat attr x).
  Proof. unfold has_default, vat. destruct (attr x); reflexivity. Qed.

  Lemma preferred_single x : preferred attr [x] x.
  Proof.
    exists [], []. split; [reflexivity|]. split; [intros t [<-|[]]; lia|]. split; intros; cbn in *; tauto.
  Qed.
  Lemma preferred_snoc_better c r t : preferred attr c r -> depth attr t < depth attr r -> preferred attr (c ++ [t]) t.
  Proof.
    intros (l1 & l2 & E & Hm & H2 & H1) Hd. exists c, []. split; [reflexivity|].
    split; [intros x Hx; apply in_app_iff in Hx; destruct Hx as [Hx|[<-|[]]]; [specialize (Hm _ Hx); lia|lia]|].
    split; [intros x []|]. intros _ x Hx. specialize (Hm _ Hx). lia.
  Qed.
  Lemma preferred_snoc_tie c r t : preferred attr c r -> depth attr t = depth attr r -> has_default attr t = false ->
    preferred attr (c ++ [t]) t.
  Proof.
    intros (l1 & l2 & E & Hm & H2 & H1) Hd Hf. exists c, []. split; [reflexivity|].
    split; [intros x Hx; apply in_app_iff in Hx; destruct Hx as [Hx|[<-|[]]]; [specialize (Hm _ Hx); lia|lia]|].
    split; [intros x []|]. congruence.
  Qed.
  Lemma preferred_snoc_keep c r t : preferred attr c r ->
    depth attr r < depth attr t \/ (depth attr t = depth attr r /\ has_default attr t = true) -> preferred attr (c ++ [t]) r.
  Proof.
    intros (l1 & l2 & E & Hm & H2 & H1) Hd. exists l1, (l2 ++ [t]). split; [rewrite E, <- app_assoc; reflexivity|].
    split; [intros x Hx; apply in_app_iff in Hx; destruct Hx as [Hx|[<-|[]]]; [specialize (Hm _ Hx); lia|lia]|].
    split; [|exact H1]. intros x Hx Hdx. apply in_app_iff in Hx. destruct Hx as [Hx|[<-|[]]]; [apply H2; assumption|].
    destruct Hd as [Hd|[_ Hd]]; [lia|exact Hd].
  Qed.

  Lemma named_snoc k l t : named k (l ++ [t]) = named k l ++ (if String.eqb (pname t) k then [t] else []).
  Proof. unfold named. rewrite filter_app. reflexivity. Qed.

  Lemma unique_targets_spec l : NoDup (dkeys (unique_targets attr l)) /\
    (forall k, match dget (unique_targets attr l) k with
               | Some r => preferred attr (named k l) r
               | None => named k l = []
               end).
  Proof.
    unfold unique_targets. rewrite <- (rev_involutive l). induction (rev l) as [|t l' [ND IH]]; [split; [constructor|intros k; reflexivity]|].
    cbn [rev]. rewrite fold_left_app. cbn [fold_left]. set (ut := fold_left (choose_target attr) (rev l') []) in *.
    unfold choose_target. pose proof (IH (pname t)) as It. rewrite <- !depth_vat, <- default_vat.
    assert (Upd : forall r, preferred attr (named (pname t) (rev l') ++ [t]) r ->
              NoDup (dkeys (dset ut (pname t) r)) /\ forall k, match dget (dset ut (pname t) r) k with
               | Some r => preferred attr (named k (rev l' ++ [t])) r | None => named k (rev l' ++ [t]) = [] end).
    { intros r Hr. split; [apply NoDup_dset, ND|]. intros k. rewrite named_snoc. destruct (String.eqb_spec (pname t) k) as [<-|Hk].
      - rewrite dget_dset_same. exact Hr.
      - rewrite dget_dset_other by congruence. rewrite app_nil_r. apply IH. }
    destruct (dget ut (pname t)) as [cur|] eqn:Ec.
    - rewrite <- depth_vat. assert (Keep : preferred attr (named (pname t) (rev l') ++ [t]) cur -> NoDup (dkeys ut) /\
        forall k, match dget ut k with Some r => preferred attr (named k (rev l' ++ [t])) r | None => named k (rev l' ++ [t]) = [] end).
      { intros Hr. split; [exact ND|]. intros k. rewrite named_snoc. destruct (String.eqb_spec (pname t) k) as [<-|Hk].
        - rewrite Ec. exact Hr.
        - rewrite app_nil_r. apply IH. }
      destruct (Nat.ltb_spec (depth attr t) (depth attr cur)) as [Hlt|Hge].
      + apply Upd. eapply preferred_snoc_better; eassumption.
      + destruct (Nat.eqb_spec (depth attr cur) (depth attr t)) as [He|Hne].
        * destruct (has_default attr t) eqn:Ed; cbn [negb].
          -- apply Keep. apply preferred_snoc_keep; [exact It|]. right. auto.
          -- apply Upd. eapply preferred_snoc_tie; [exact It|auto|exact Ed].
        * apply Keep. apply preferred_snoc_keep; [exact It|]. left. lia.
    - apply Upd. rewrite It. cbn. apply preferred_single.
  Qed.

  Lemma preferred_In c r : preferred attr c r -> In r c.
  Proof. intros (l1 & l2 & -> & _). apply in_app_iff. cbn. auto. Qed.

  Lemma In_named k l t : In t (named k l) <-> In t l /\ pname t = k.
  Proof. unfold named. rewrite filter_In, String.eqb_eq. reflexivity. Qed.

  Lemma ut_get l k r : dget (unique_targets attr l) k = Some r -> In r l /\ pname r = k.
  Proof.
    intros H. destruct (unique_targets_spec l) as [_ S]. specialize (S k). rewrite H in S. apply preferred_In in S.
    apply In_named in S. exact S.
  Qed.
  Lemma ut_total l t : In t l -> exists r, dget (unique_targets attr l) (pname t) = Some r.
  Proof.
    intros H. destruct (unique_targets_spec l) as [_ S]. specialize (S (pname t)).
    destruct (dget (unique_targets attr l) (pname t)) as [r|]; [eauto|]. exfalso.
    assert (Hi : In t (named (pname t) l)) by (apply In_named; auto). rewrite S in Hi. exact Hi.
  Qed.
  Lemma ut_values l r : In r (map snd (unique_targets attr l)) <-> dget (unique_targets attr l) (pname r) = Some r.
  Proof.
    destruct (unique_targets_spec l) as [ND _]. split.
    - intros H. apply in_map_iff in H. destruct H as ([k x] & E & H). cbn in E. subst x.
      apply (In_dget _ _ _ ND) in H. destruct (ut_get _ _ H) as [_ Hk]. rewrite Hk. exact H.
    - intros H. apply dget_In in H. apply (in_map snd) in H. exact H.
  Qed.

  (** *** Redundant targets *)
  Lemma redundant_fold l d : NoDup (dkeys d) ->
    (forall k ts, In (k, ts) d -> forall t, In t ts -> pname t = k) -> (forall t, In t l -> forall k ts, In (k, ts) d -> ~ In t ts) ->
    NoDup l -> (forall k ts, In (k, ts) d -> NoDup ts) ->
    let d' := fold_left (add_redundant attr) l d in
    NoDup (dkeys d') /\ (forall k ts, In (k, ts) d' -> NoDup ts /\ (forall t, In t ts -> pname t = k)) /\
    (forall t, (exists k ts, In (k, ts) d' /\ In t ts) <-> (exists k ts, In (k, ts) d /\ In t ts) \/ In t l).
  Proof.
    revert d. induction l as [|t l IH]; intros d ND HK HF NL HD; cbn [fold_left]; cbv zeta.
    - split; [exact ND|]. split; [intros k ts H; split; [eapply HD; exact H|eapply HK; exact H]|]. intros t. split; [auto|intros [H|[]]; exact H].
    - inversion NL as [|? ? N1 N2]; subst.
      set (old := match dget d (pname t) with Some l => l | None => [] end).
      assert (Ed : add_redundant attr d t = dset d (pname t) (old ++ [t])).
      { unfold add_redundant, old. destruct (dget d (pname t)); reflexivity. }
      rewrite Ed.
      assert (Hold : forall x, In x old -> exists k ts, In (k, ts) d /\ In x ts).
      { intros x Hx. unfold old in Hx. destruct (dget d (pname t)) as [ts|] eqn:Eg; [|destruct Hx]. apply dget_In in Eg. eauto. }
      assert (Hset : forall k ts, In (k, ts) (dset d (pname t) (old ++ [t])) <-> (k = pname t /\ ts = old ++ [t]) \/ (k <> pname t /\ In (k, ts) d)).
      { intros k ts. assert (ND' : NoDup (dkeys (dset d (pname t) (old ++ [t])))) by (apply NoDup_dset, ND). split.
        - intros H. apply (In_dget _ _ _ ND') in H. destruct (string_dec k (pname t)) as [->|Hk].
          + rewrite dget_dset_same in H. injection H as <-. auto.
          + rewrite dget_dset_other in H by exact Hk. apply dget_In in H. auto.
        - intros [[-> ->]|[Hk H]]; apply dget_In; [apply dget_dset_same|].
          rewrite dget_dset_other by exact Hk. apply In_dget; assumption. }
      assert (Hnot : ~ In t old). { intros H. destruct (Hold _ H) as (k & ts & H1 & H2). eapply HF; [left; reflexivity|exact H1|exact H2]. }
      assert (NDold : NoDup old). { unfold old. destruct (dget d (pname t)) as [ts|] eqn:Eg; [|constructor]. apply dget_In in Eg. eapply HD; exact Eg. }
      assert (Kold : forall x, In x old -> pname x = pname t).
      { unfold old. destruct (dget d (pname t)) as [ts|] eqn:Eg; [|intros x []]. apply dget_In in Eg. eapply HK; exact Eg. }
      destruct (IH (dset d (pname t) (old ++ [t]))) as (R1 & R2 & R3); [apply NoDup_dset, ND| | |exact N2| |].
      + intros k ts H x Hx. apply Hset in H. destruct H as [[-> ->]|[_ H]]; [|eapply HK; eassumption].
        apply in_app_iff in Hx. destruct Hx as [Hx|[<-|[]]]; [apply Kold, Hx|reflexivity].
      + intros x Hx k ts H Hi. apply Hset in H. destruct H as [[-> ->]|[_ H]].
        * apply in_app_iff in Hi. destruct Hi as [Hi|[<-|[]]]; [|contradiction]. destruct (Hold _ Hi) as (k & ts & H1 & H2).
          eapply HF; [right; exact Hx|exact H1|exact H2].
        * eapply HF; [right; exact Hx|exact H|exact Hi].
      + intros k ts H. apply Hset in H. destruct H as [[-> ->]|[_ H]]; [|eapply HD; exact H]. apply NoDup_app_single; assumption.
      + split; [exact R1|]. split; [exact R2|]. intros x. rewrite R3. cbn [In]. split.
        * intros [(k & ts & H & Hx)|H]; [|auto]. apply Hset in H. destruct H as [[-> ->]|[_ H]]; [|left; eauto].
          apply in_app_iff in Hx. destruct Hx as [Hx|[<-|[]]]; [left; apply Hold, Hx|auto].
        * intros [(k & ts & H & Hx)|[<-|H]]; [| |auto]; left.
          -- destruct (string_dec k (pname t)) as [->|Hk]; [|exists k, ts; rewrite Hset; auto].
             exists (pname t), (old ++ [t]). rewrite Hset. split; [auto|]. apply in_app_iff. left. unfold old.
             apply (In_dget _ _ _ ND) in H. rewrite H. exact Hx.
          -- exists (pname t), (old ++ [t]). rewrite Hset. split; [auto|]. apply in_app_iff. cbn. auto.
  Qed.

  Lemma redundant_spec l : NoDup l -> let rt := redundant_targets eqb attr l (unique_targets attr l) in
    NoDup (dkeys rt) /\ (forall k ts, In (k, ts) rt -> NoDup ts /\ (forall t, In t ts -> pname t = k)) /\
    (forall t, (exists k ts, In (k, ts) rt /\ In t ts) <-> In t l /\ dget (unique_targets attr l) (pname t) <> Some t).
  Proof.
    intros NL rt. unfold rt, redundant_targets.
    destruct (@redundant_fold (filter (fun t => negb (memA eqb t (map snd (unique_targets attr l)))) l) []) as (R1 & R2 & R3).
    - constructor.
    - intros k ts [].
    - intros t _ k ts [].
    - apply NoDup_filter, NL.
    - intros k ts [].
    - split; [exact R1|]. split; [exact R2|]. intros t. rewrite R3, filter_In, negb_true_iff, (memA_false eqb eqb_spec), ut_values. split.
      + intros [(k & ts & [] & _)|H]; exact H.
      + auto.
  Qed.

  (** *** The whole pass *)
  Lemma is_var_spec x : is_var attr x = true <-> exists v, var_node attr x v.
  Proof. unfold is_var, var_node. destruct (attr x) as [v|c]; split; intros H; try discriminate; eauto. destruct H as [v H]. discriminate. Qed.
  Lemma is_src_spec x : is_src attr x = true <-> exists v, source_node attr x v.
  Proof.
    unfold is_src, source_node. destruct (attr x) as [v|c]; [|split; [discriminate|intros (v & H & _); discriminate]].
    destruct (va_class v) eqn:E; split; intros H; try discriminate; try (exists v; auto; fail);
      destruct H as (v' & H & [H'|H']); congruence.
  Qed.
  Lemma is_tgt_spec x : is_tgt attr x = true <-> exists v, target_node attr x v.
  Proof.
    unfold is_tgt, target_node. destruct (attr x) as [v|c]; [|split; [discriminate|intros (v & H & _); discriminate]].
    destruct (va_class v) eqn:E; split; intros H; try discriminate; try (exists v; auto; fail);
      destruct H as (v' & H & H'); congruence.
  Qed.
  Lemma src_not_tgt x : is_src attr x = true -> is_tgt attr x = true -> False.
  Proof. unfold is_src, is_tgt. destruct (attr x) as [v|c]; [destruct (va_class v)|]; discriminate. Qed.
  Lemma src_is_var x : is_src attr x = true -> is_var attr x = true.
  Proof. unfold is_src, is_var. destruct (attr x); congruence. Qed.
  Lemma tgt_is_var x : is_tgt attr x = true -> is_var attr x = true.
  Proof. unfold is_tgt, is_var. destruct (attr x); congruence. Qed.

  Lemma steps_ok_app l l' : @steps_ok A l -> steps_ok l' ->
    (forall u v u' v', In (u, v) l -> In (u', v') l' -> u' <> v /\ v' <> v) -> steps_ok (l ++ l').
  Proof.
    induction l as [|[u v] l IH]; intros H1 H2 H3; [exact H2|]. cbn in *. destruct H1 as (Ha & Hb & Hc).
    split; [exact Ha|]. split; [|apply IH; auto; intros; eapply H3; [right; eassumption|assumption]].
    intros u' v' H. apply in_app_iff in H. destruct H as [H|H]; [auto|]. eapply H3; [left; reflexivity|exact H].
  Qed.
  Lemma steps_ok_disjoint l : NoDup (map snd l) -> (forall u v u' v', In (u, v) l -> In (u', v') l -> u' <> v) -> @steps_ok A l.
  Proof.
    induction l as [|[u v] l IH]; intros N H; [exact I|]. cbn in *. inversion N as [|? ? N1 N2]; subst.
    split; [eapply H; left; reflexivity|]. split; [|apply IH; auto; intros; eapply H; eauto].
    intros u' v' Hi. split; [eapply H; eauto|]. intros ->. apply N1. apply (in_map snd) in Hi. exact Hi.
  Qed.

  Section Graph.
    Context (g : digraph A) (W : wf g).
    Let vars := filter (is_var attr) (g_nodes g).
    Let srcs := filter (is_src attr) vars.
    Let sources : dict A := dict_of (map (fun x => (pname x, x)) srcs).
    Let targets := filter (is_tgt attr) vars.
    Let ut := unique_targets attr targets.
    Let rt := redundant_targets eqb attr targets ut.

    Lemma In_targets t : In t targets <-> node g t /\ is_tgt attr t = true.
    Proof. unfold targets, vars. rewrite !filter_In. fold (node g t). split; [tauto|]. intros [H1 H2]. pose proof (tgt_is_var _ H2). tauto. Qed.
    Lemma In_srcs t : In t srcs <-> node g t /\ is_src attr t = true.
    Proof. unfold srcs, vars. rewrite !filter_In. fold (node g t). split; [tauto|]. intros [H1 H2]. pose proof (src_is_var _ H2). tauto. Qed.
    Lemma NoDup_targets : NoDup targets.
    Proof. apply NoDup_filter, NoDup_filter, (wf_nodes _ W). Qed.

    Lemma sources_fold l : forall d, (forall k x, dget d k = Some x -> pname x = k /\ is_src attr x = true /\ node g x) ->
      (forall x, In x l -> is_src attr x = true /\ node g x) ->
      forall k, match dget (dupdate d (map (fun x => (pname x, x)) l)) k with
        | Some x => pname x = k /\ is_src attr x = true /\ node g x
        | None => dget d k = None /\ forall x, In x l -> pname x <> k
        end.
    Proof.
      induction l as [|y l IH]; intros d Hd Hl k.
      - cbn. destruct (dget d k) eqn:E; [apply Hd, E|]. split; [reflexivity|intros x []].
      - cbn [map]. rewrite dupdate_cons. cbn [fst snd].
        assert (Hd' : forall k x, dget (dset d (pname y) y) k = Some x -> pname x = k /\ is_src attr x = true /\ node g x).
        { intros k' x H. destruct (string_dec k' (pname y)) as [->|Hk].
          - rewrite dget_dset_same in H. injection H as <-. split; [reflexivity|]. apply Hl. left. reflexivity.
          - rewrite dget_dset_other in H by exact Hk. apply Hd, H. }
        specialize (IH _ Hd' (fun x H => Hl x (or_intror H)) k).
        destruct (dget (dupdate (dset d (pname y) y) _) k) as [x|]; [exact IH|]. destruct IH as [IH1 IH2].
        assert (Hk : k <> pname y). { intros ->. rewrite dget_dset_same in IH1. discriminate. }
        rewrite dget_dset_other in IH1 by exact Hk. split; [exact IH1|]. intros x [<-|Hx]; [congruence|auto].
    Qed.
    Lemma sources_spec k : match dget sources k with
        | Some x => pname x = k /\ is_src attr x = true /\ node g x
        | None => forall x, In x srcs -> pname x <> k
        end.
    Proof.
      pose proof (@sources_fold srcs [] ltac:(discriminate) ltac:(intros x H; apply In_srcs in H; tauto) k) as H.
      unfold sources, dict_of. destruct (dget (dupdate [] _) k); [exact H|apply H].
    Qed.
    Lemma NoDup_sources : NoDup (dkeys sources).
    Proof. apply NoDup_dupdate. constructor. Qed.

    Let steps1 := flat_map (fun kt => match dget ut (fst kt) with Some u => map (fun t => (u, t)) (snd kt) | None => [] end) rt.
    Let steps2 := flat_map (fun ks => match dget ut (fst ks) with Some u => [(snd ks, u)] | None => [] end) sources.

    Lemma ut_tgt k u : dget ut k = Some u -> In u targets /\ pname u = k.
    Proof. apply ut_get. Qed.

    Lemma In_steps1 u t : In (u, t) steps1 <-> In t targets /\ dget ut (pname t) = Some u /\ u <> t.
    Proof.
      destruct (redundant_spec NoDup_targets) as (R1 & R2 & R3). fold ut rt in R1, R2, R3.
      unfold steps1. rewrite in_flat_map. split.
      - intros ([k ts] & Hi & H). cbn in H. destruct (dget ut k) as [u'|] eqn:E; [|destruct H].
        apply in_map_iff in H. destruct H as (t' & E' & Ht). injection E' as -> ->.
        destruct (R2 _ _ Hi) as [_ Hk]. rewrite (Hk _ Ht). destruct (proj1 (R3 t)) as [H1 H2]; [eauto|].
        rewrite (Hk _ Ht), E in H2. split; [exact H1|]. split; [exact E|congruence].
      - intros (Ht & E & Hne). destruct (proj2 (R3 t)) as (k & ts & Hi & Hts); [split; [exact Ht|congruence]|].
        exists (k, ts). split; [exact Hi|]. cbn. destruct (R2 _ _ Hi) as [_ Hk]. rewrite <- (Hk _ Hts), E. apply in_map. exact Hts.
    Qed.
    Lemma In_steps2 s u : In (s, u) steps2 <-> exists k, dget sources k = Some s /\ dget ut k = Some u.
    Proof.
      unfold steps2. rewrite in_flat_map. split.
      - intros ([k s'] & Hi & H). cbn in H. destruct (dget ut k) as [u'|] eqn:E; [|destruct H].
        destruct H as [H|[]]. injection H as -> ->. exists k. split; [apply In_dget; [exact NoDup_sources|exact Hi]|exact E].
      - intros (k & H1 & H2). exists (k, s). split; [apply dget_In, H1|]. cbn. rewrite H2. left. reflexivity.
    Qed.

    Lemma NoDup_steps1 : NoDup (map snd steps1).
    Proof.
      destruct (redundant_spec NoDup_targets) as (R1 & R2 & _). fold ut rt in R1, R2. unfold steps1.
      revert R1 R2. induction rt as [|[k ts] r IH]; intros R1 R2; [constructor|]. cbn [flat_map fst snd]. rewrite map_app.
      inversion R1 as [|? ? N1 N2]; subst. apply NoDup_app_iff. destruct (R2 k ts (or_introl eq_refl)) as [Nt Hk].
      assert (E : forall x, In x (map snd (match dget ut k with Some u => map (fun t => (u, t)) ts | None => [] end)) -> In x ts).
      { destruct (dget ut k); [|intros x []]. rewrite map_map, map_id. auto. }
      split; [destruct (dget ut k); [rewrite map_map, map_id; exact Nt|constructor]|].
      split; [apply IH; [exact N2|intros; apply R2; right; assumption]|].
      intros x H1 H2. apply E, Hk in H1. apply in_map_iff in H2. destruct H2 as ([u x'] & Ex & H2). cbn in Ex. subst x'.
      apply in_flat_map in H2. destruct H2 as ([k' ts'] & Hi & H2). cbn in H2. destruct (dget ut k') as [u'|]; [|destruct H2].
      apply in_map_iff in H2. destruct H2 as (x' & Ex & Hx). injection Ex as _ ->.
      destruct (R2 k' ts' (or_intror Hi)) as [_ Hk']. rewrite (Hk' _ Hx) in H1. subst k'. apply N1. apply (in_map fst) in Hi. exact Hi.
    Qed.
    Lemma NoDup_steps2 : NoDup (map snd steps2).
    Proof.
      pose proof NoDup_sources as N. unfold steps2. induction sources as [|[k s] r IH]; [constructor|]. cbn [flat_map fst snd]. rewrite map_app.
      inversion N as [|? ? N1 N2]; subst. apply NoDup_app_iff.
      split; [destruct (dget ut k); [constructor; [intros []|constructor]|constructor]|]. split; [apply IH, N2|].
      intros x H1 H2. destruct (dget ut k) as [u|] eqn:E; [|destruct H1]. destruct H1 as [<-|[]].
      apply in_map_iff in H2. destruct H2 as ([s' x'] & Ex & H2). cbn in Ex. subst x'.
      apply in_flat_map in H2. destruct H2 as ([k' s2] & Hi & H2). cbn in H2. destruct (dget ut k') as [u'|] eqn:E'; [|destruct H2].
      destruct H2 as [H2|[]]. injection H2 as -> ->. destruct (ut_tgt _ E) as [_ K1]. destruct (ut_tgt _ E') as [_ K2].
      apply N1. rewrite <- K1, K2. apply (in_map fst) in Hi. exact Hi.
    Qed.

    Lemma steps_auto_ok : steps_ok (steps1 ++ steps2).
    Proof.
      apply steps_ok_app.
      - apply steps_ok_disjoint; [exact NoDup_steps1|]. intros u v u' v' H H' ->. apply In_steps1 in H. apply In_steps1 in H'.
        destruct H as (_ & H & Hne). destruct H' as (_ & H' & _). destruct (ut_tgt _ H') as [_ K]. rewrite K in H. congruence.
      - apply steps_ok_disjoint; [exact NoDup_steps2|]. intros u v u' v' H H' ->. apply In_steps2 in H. apply In_steps2 in H'.
        destruct H as (k & _ & H). destruct H' as (k' & H' & _). pose proof (sources_spec k') as S. rewrite H' in S.
        destruct (ut_tgt _ H) as [T _]. apply In_targets in T. eapply src_not_tgt; [apply S|apply T].
      - intros u v u' v' H H'. apply In_steps1 in H. apply In_steps2 in H'. destruct H as (Ht & H & Hne). destruct H' as (k & H1 & H2).
        pose proof (sources_spec k) as S. rewrite H1 in S. split.
        + intros ->. apply In_targets in Ht. eapply src_not_tgt; [apply S|apply Ht].
        + intros ->. destruct (ut_tgt _ H2) as [_ K]. rewrite K in H. congruence.
    Qed.

    (** The node that represents [x] after the pass. *)
    Definition auto_rep : A -> A := repl eqb (steps1 ++ steps2).

    Lemma removed_iff x : In x (map snd (steps1 ++ steps2)) <->
      In x targets /\ (dget ut (pname x) <> Some x \/ exists s, dget sources (pname x) = Some s).
    Proof.
      rewrite map_app, in_app_iff. split.
      - intros [H|H]; apply in_map_iff in H; destruct H as ([u x'] & E & H); cbn in E; subst x'.
        + apply In_steps1 in H. destruct H as (H1 & H2 & H3). split; [exact H1|]. left. congruence.
        + apply In_steps2 in H. destruct H as (k & H1 & H2). destruct (ut_tgt _ H2) as [H3 H4]. split; [exact H3|]. right. rewrite H4. eauto.
      - intros [Ht H]. destruct (ut_total _ _ Ht) as (r & Hr). fold ut in Hr.
        destruct (eqA_dec eqb eqb_spec r x) as [->|Hne].
        + destruct H as [H|[s Hs]]; [congruence|]. right. apply (in_map snd steps2 (s, x)). apply In_steps2. eauto.
        + left. apply (in_map snd steps1 (r, x)). apply In_steps1. auto.
    Qed.

    Lemma repl2_ut u : In u targets -> dget ut (pname u) = Some u ->
      repl eqb steps2 u = match dget sources (pname u) with Some s => s | None => u end.
    Proof.
      intros Ht Hu. destruct (dget sources (pname u)) as [s|] eqn:Es.
      - assert (Hi : In (s, u) steps2) by (apply In_steps2; eauto). apply in_split in Hi. destruct Hi as (l1 & l2 & E).
        pose proof NoDup_steps2 as N. rewrite E in N |- *. erewrite (@repl_in _ eqb eqb_spec) by exact N.
        apply (@repl_not_in _ eqb eqb_spec). intros H.
        assert (H' : In s (map snd steps2)) by (rewrite E, map_app; apply in_app_iff; right; right; exact H).
        apply in_map_iff in H'. destruct H' as ([s' u'] & E' & H'). cbn in E'. subst u'. apply In_steps2 in H'.
        destruct H' as (k & _ & H'). destruct (ut_tgt _ H') as [T _]. apply In_targets in T.
        pose proof (sources_spec (pname u)) as S. rewrite Es in S. eapply src_not_tgt; [apply S|apply T].
      - apply (@repl_not_in _ eqb eqb_spec). intros H. apply in_map_iff in H. destruct H as ([s' u'] & E' & H'). cbn in E'. subst u'. apply In_steps2 in H'.
        destruct H' as (k & H1 & H2). destruct (ut_tgt _ H2) as [_ K]. congruence.
    Qed.

    Lemma auto_rep_target t u : In t targets -> dget ut (pname t) = Some u ->
      auto_rep t = match dget sources (pname t) with Some s => s | None => u end.
    Proof.
      intros Ht Hu. unfold auto_rep. rewrite repl_app.
      assert (R1 : repl eqb steps1 t = u).
      { destruct (eqA_dec eqb eqb_spec u t) as [->|Hne].
        - apply (@repl_not_in _ eqb eqb_spec). intros H. apply in_map_iff in H. destruct H as ([u' t'] & E' & H'). cbn in E'. subst t'.
          apply In_steps1 in H'. destruct H' as (_ & H1 & H2). congruence.
        - assert (Hi : In (u, t) steps1) by (apply In_steps1; auto). apply in_split in Hi. destruct Hi as (l1 & l2 & E).
          pose proof NoDup_steps1 as N. rewrite E in N |- *. erewrite (@repl_in _ eqb eqb_spec) by exact N.
          apply (@repl_not_in _ eqb eqb_spec). intros H.
          assert (H' : In u (map snd steps1)) by (rewrite E, map_app; apply in_app_iff; right; right; exact H).
          apply in_map_iff in H'. destruct H' as ([s' u'] & E' & H'). cbn in E'. subst u'. apply In_steps1 in H'.
          destruct H' as (_ & H1 & H2). destruct (ut_tgt _ Hu) as [_ K]. rewrite K in H1. congruence. }
      rewrite R1. destruct (ut_tgt _ Hu) as [Tu K]. rewrite <- K. apply repl2_ut; [exact Tu|rewrite K; exact Hu].
    Qed.
    Lemma auto_rep_other x : is_tgt attr x = false -> auto_rep x = x.
    Proof.
      intros H. apply (@repl_not_in _ eqb eqb_spec). intros Hi. apply removed_iff in Hi. destruct Hi as [Hi _].
      apply In_targets in Hi. destruct Hi. congruence.
    Qed.

    Lemma merge_auto_ok : no_var_var_edge attr g ->
      exists g', merge_auto eqb attr g = Ok g' /\ wf g' /\
        (forall x, node g' x <-> node g x /\ auto_rep x = x) /\
        (forall a b, edge g' a b <-> exists a' b', edge g a' b' /\ auto_rep a' = a /\ auto_rep b' = b).
    Proof.
      intros HB. unfold merge_auto. fold vars. fold srcs. fold sources. fold targets. fold ut. fold rt.
      unfold auto_steps. fold steps1 steps2.
      destruct (@contract_all_ok A eqb eqb_spec (is_var attr) (steps1 ++ steps2) g W steps_auto_ok) as (g' & E & W' & HN & HE).
      - intros u v H. apply in_app_iff in H. destruct H as [H|H].
        + apply In_steps1 in H. destruct H as (H1 & H2 & _). destruct (ut_tgt _ H2) as [H3 _]. apply In_targets in H1, H3.
          repeat split; try tauto; apply tgt_is_var; tauto.
        + apply In_steps2 in H. destruct H as (k & H1 & H2). pose proof (sources_spec k) as S. rewrite H1 in S.
          destruct (ut_tgt _ H2) as [H3 _]. apply In_targets in H3.
          repeat split; try tauto; [apply src_is_var|apply tgt_is_var]; tauto.
      - intros a b He Ha Hb. apply is_var_spec in Ha, Hb. destruct Ha as [va Ha]. destruct Hb as [vb Hb]. eapply HB; eassumption.
      - exists g'. split; [exact E|]. split; [exact W'|]. split; [|exact HE]. intros x. rewrite HN. split.
        + intros [H1 H2]. split; [exact H1|]. apply (@repl_not_in _ eqb eqb_spec). exact H2.
        + intros [H1 H2]. split; [exact H1|]. intros Hi. apply removed_iff in Hi. destruct Hi as [Ht Hr].
          destruct (ut_total _ _ Ht) as (u & Hu). fold ut in Hu. rewrite (auto_rep_target _ Ht Hu) in H2.
          destruct Hr as [Hr|[s Hs]].
          * destruct (dget sources (pname x)) as [s|] eqn:Es; [|congruence]. subst s.
            pose proof (sources_spec (pname x)) as S. rewrite Es in S. apply In_targets in Ht. eapply src_not_tgt; [apply S|apply Ht].
          * rewrite Hs in H2. subst s. pose proof (sources_spec (pname x)) as S. rewrite Hs in S. apply In_targets in Ht.
            eapply src_not_tgt; [apply S|apply Ht].
    Qed.

    (** The order of the contractions of redundant targets does not matter. *)
    Lemma steps1_apart u v u' v' : In (u, v) steps1 -> In (u', v') steps1 -> u' <> v.
    Proof.
      intros H H' ->. apply In_steps1 in H. apply In_steps1 in H'.
      destruct H as (_ & H & Hne). destruct H' as (_ & H' & _). destruct (ut_tgt _ H') as [_ K]. rewrite K in H. congruence.
    Qed.
    Lemma repl_perm l l' : NoDup (map snd l) -> (forall u v u' v', In (u, v) l -> In (u', v') l -> u' <> v) -> Permutation l l' ->
      forall x, repl eqb l x = repl eqb l' x.
    Proof.
      intros N D P x.
      assert (K : forall k, NoDup (map snd k) -> (forall u v u' v', In (u, v) k -> In (u', v') k -> u' <> v) -> forall u, In (u, x) k -> repl eqb k x = u).
      { intros k Nk Dk u Hu. pose proof Hu as Hs. apply in_split in Hs. destruct Hs as (l1 & l2 & E). pose proof Nk as N'. rewrite E in N' |- *.
        erewrite (@repl_in _ eqb eqb_spec) by exact N'. apply (@repl_not_in _ eqb eqb_spec). intros H. apply in_map_iff in H. destruct H as ([a b] & Eb & H). cbn in Eb. subst b.
        assert (H' : In (a, u) k) by (rewrite E; apply in_app_iff; right; right; exact H). exact (Dk _ _ _ _ H' Hu eq_refl). }
      destruct (in_dec (eqA_dec eqb eqb_spec) x (map snd l)) as [Hx|Hx].
      - apply in_map_iff in Hx. destruct Hx as ([u x'] & E & Hu). cbn in E. subst x'. rewrite (K l N D u Hu). symmetry. apply K.
        + eapply Permutation_NoDup; [apply Permutation_map, P|exact N].
        + intros a b a' b' Ha Hb. eapply D; eapply Permutation_in; try (apply Permutation_sym, P); eassumption.
        + eapply Permutation_in; eassumption.
      - rewrite !(@repl_not_in _ eqb eqb_spec); [reflexivity| |exact Hx]. intros H. apply Hx. eapply Permutation_in; [apply Permutation_sym, Permutation_map, P|exact H].
    Qed.
    Lemma steps1_perm rt' : same_sets rt rt' ->
      Permutation steps1 (flat_map (fun kt => match dget ut (fst kt) with Some u => map (fun t => (u, t)) (snd kt) | None => [] end) rt').
    Proof.
      unfold steps1. intros S. induction S as [|a b l l' [E P] S IH]; [constructor|]. cbn. rewrite <- E. apply Permutation_app; [|exact IH].
      destruct (dget ut (fst a)); [apply Permutation_map, P|constructor].
    Qed.
    Lemma merge_auto_any_ok : no_var_var_edge attr g ->
      forall rt', same_sets rt rt' ->
      exists g', contract_all eqb g (auto_steps sources ut rt') = Ok g' /\ wf g' /\
        (forall x, node g' x <-> node g x /\ auto_rep x = x) /\
        (forall a b, edge g' a b <-> exists a' b', edge g a' b' /\ auto_rep a' = a /\ auto_rep b' = b).
    Proof.
      intros HB rt' S. unfold auto_steps. fold steps2. pose proof (steps1_perm S) as P. revert P.
      generalize (flat_map (fun kt => match dget ut (fst kt) with Some u => map (fun t => (u, t)) (snd kt) | None => [] end) rt'). intros s1 P.
      assert (RE : forall x, repl eqb (s1 ++ steps2) x = auto_rep x).
      { intros x. unfold auto_rep. rewrite !repl_app. f_equal. symmetry. apply repl_perm; [exact NoDup_steps1|exact steps1_apart|exact P]. }
      assert (IE : forall x, In x (map snd (s1 ++ steps2)) <-> In x (map snd (steps1 ++ steps2))).
      { intros x. rewrite !map_app, !in_app_iff. split; (intros [H|H]; [left|right; exact H]); (eapply Permutation_in; [|exact H]); apply Permutation_map; [apply Permutation_sym|]; exact P. }
      assert (SO : steps_ok (s1 ++ steps2)).
      { apply steps_ok_app.
        - apply steps_ok_disjoint; [eapply Permutation_NoDup; [apply Permutation_map, P|exact NoDup_steps1]|].
          intros a b a' b' Ha Hb. eapply steps1_apart; eapply Permutation_in; try (apply Permutation_sym, P); eassumption.
        - apply steps_ok_disjoint; [exact NoDup_steps2|]. intros u v u' v' H H' ->. apply In_steps2 in H. apply In_steps2 in H'.
          destruct H as (k & _ & H). destruct H' as (k' & H' & _). pose proof (sources_spec k') as S'. rewrite H' in S'.
          destruct (ut_tgt _ H) as [T _]. apply In_targets in T. eapply src_not_tgt; [apply S'|apply T].
        - intros u v u' v' H H'. apply (Permutation_in _ (Permutation_sym P)) in H. apply In_steps1 in H. apply In_steps2 in H'. destruct H as (Ht & H & Hne). destruct H' as (k & H1 & H2).
          pose proof (sources_spec k) as S'. rewrite H1 in S'. split.
          + intros ->. apply In_targets in Ht. eapply src_not_tgt; [apply S'|apply Ht].
          + intros ->. destruct (ut_tgt _ H2) as [_ K]. rewrite K in H. congruence. }
      destruct (@contract_all_ok A eqb eqb_spec (is_var attr) (s1 ++ steps2) g W SO) as (g' & E & W' & HN & HE).
      - intros u v H. apply in_app_iff in H. destruct H as [H|H].
        + apply (Permutation_in _ (Permutation_sym P)) in H. apply In_steps1 in H. destruct H as (H1 & H2 & _). destruct (ut_tgt _ H2) as [H3 _]. apply In_targets in H1, H3.
          repeat split; try tauto; apply tgt_is_var; tauto.
        + apply In_steps2 in H. destruct H as (k & H1 & H2). pose proof (sources_spec k) as S'. rewrite H1 in S'.
          destruct (ut_tgt _ H2) as [H3 _]. apply In_targets in H3.
          repeat split; try tauto; [apply src_is_var|apply tgt_is_var]; tauto.
      - intros a b He Ha Hb. apply is_var_spec in Ha, Hb. destruct Ha as [va Ha]. destruct Hb as [vb Hb]. eapply HB; eassumption.
      - exists g'. split; [exact E|]. split; [exact W'|]. destruct (merge_auto_ok HB) as (g0 & E0 & _ & HN0 & _). split.
        + intros x. rewrite HN, IE. rewrite <- HN0. revert E0. unfold merge_auto. fold vars. fold srcs. fold sources. fold targets. fold ut. fold rt.
          unfold auto_steps. fold steps1 steps2. intros E0.
          destruct (@contract_all_ok A eqb eqb_spec (is_var attr) (steps1 ++ steps2) g W steps_auto_ok) as (g2 & E2 & _ & HN2 & _).
          * intros u v H. apply in_app_iff in H. destruct H as [H|H].
            -- apply In_steps1 in H. destruct H as (H1 & H2 & _). destruct (ut_tgt _ H2) as [H3 _]. apply In_targets in H1, H3.
               repeat split; try tauto; apply tgt_is_var; tauto.
            -- apply In_steps2 in H. destruct H as (k & H1 & H2). pose proof (sources_spec k) as S'. rewrite H1 in S'.
               destruct (ut_tgt _ H2) as [H3 _]. apply In_targets in H3.
               repeat split; try tauto; [apply src_is_var|apply tgt_is_var]; tauto.
          * intros a b He Ha Hb. apply is_var_spec in Ha, Hb. destruct Ha as [va Ha]. destruct Hb as [vb Hb]. eapply HB; eassumption.
          * rewrite E0 in E2. injection E2 as <-. symmetry. apply HN2.
        + intros a b. rewrite HE. split; intros (a' & b' & H & H1 & H2); exists a', b'; rewrite ?RE in *; rewrite <- ?RE in *; auto.
    Qed.

    Lemma pname_var x v : var_node attr x v -> pname x = va_pname v.
    Proof. unfold var_node, FlatModel.pname, vat. intros ->. reflexivity. Qed.

    (** Candidates for a promoted name: declared variables of the graph, in graph order. *)
    Definition candidates (n : string) : list A :=
      filter (fun x => match attr x with
                       | NVar v => match va_class v with CDeclared => String.eqb (va_pname v) n | _ => false end
                       | NOp _ => false end) (g_nodes g).
    Lemma candidates_named n : named n targets = candidates n.
    Proof.
      unfold named, targets, vars, candidates. induction (g_nodes g) as [|x l IH]; [reflexivity|]. cbn.
      unfold is_var at 1. unfold FlatModel.pname, vat, is_tgt in *. destruct (attr x) as [v|c] eqn:E; cbn; [|exact IH].
      rewrite E. destruct (va_class v) eqn:Ec; cbn; rewrite ?E; try exact IH. destruct (String.eqb (va_pname v) n); rewrite IH; reflexivity.
    Qed.

    (** C25 and C26 *)
    Lemma merge_auto_quotient : no_var_var_edge attr g -> sources_distinct attr g ->
      exists g' rep, merge_auto eqb attr g = Ok g' /\ wf g' /\ quotient g g' rep /\
        (forall x, (forall v, ~ target_node attr x v) -> rep x = x) /\
        (forall t v, node g t -> target_node attr t v ->
           (forall s sv, node g s -> source_node attr s sv -> va_pname sv = va_pname v -> rep t = s) /\
           ((forall s sv, node g s -> source_node attr s sv -> va_pname sv <> va_pname v) -> preferred attr (candidates (va_pname v)) (rep t))).
    Proof.
      intros HB HD. destruct (merge_auto_ok HB) as (g' & E & W' & HN & HE). exists g', auto_rep.
      split; [exact E|]. split; [exact W'|]. split; [split; assumption|]. split.
      - intros x Hx. apply auto_rep_other. destruct (is_tgt attr x) eqn:Et; [|reflexivity]. apply is_tgt_spec in Et. destruct Et as [v Hv]. exfalso. eapply Hx, Hv.
      - intros t v Ht Hv. assert (Tt : In t targets) by (apply In_targets; split; [exact Ht|apply is_tgt_spec; eauto]).
        destruct (ut_total _ _ Tt) as (u & Hu). fold ut in Hu. rewrite (auto_rep_target _ Tt Hu).
        pose proof (sources_spec (pname t)) as S. rewrite <- (pname_var (proj1 Hv)). split.
        + intros s sv Hs Hsv Hn. rewrite <- (pname_var (proj1 Hsv)) in Hn. destruct (dget sources (pname t)) as [s'|].
          * destruct S as (S1 & S2 & S3). apply is_src_spec in S2. destruct S2 as [v' S2]. eapply HD; [exact Ht|exact S3|exact Hs|exact Hv|exact S2|exact Hsv| |];
              rewrite <- ?(pname_var (proj1 S2)), <- ?(pname_var (proj1 Hsv)), <- (pname_var (proj1 Hv)); congruence.
          * exfalso. apply (S s); [apply In_srcs; split; [exact Hs|apply is_src_spec; eauto]|congruence].
        + intros Hno. destruct (dget sources (pname t)) as [s'|].
          * exfalso. destruct S as (S1 & S2 & S3). apply is_src_spec in S2. destruct S2 as [v' S2]. eapply Hno; [exact S3|exact S2|].
            rewrite <- (pname_var (proj1 S2)). exact S1.
          * rewrite <- candidates_named. destruct (unique_targets_spec targets) as [_ P]. specialize (P (pname t)). fold ut in P. rewrite Hu in P. exact P.
    Qed.
  End Graph.
End Auto.

(** *** The variable-to-node mapping *)
Section Mapping.
  Context {A : Type} (eqb : A -> A -> bool) (eqb_spec : forall x y, eqb x y = true <-> x = y) (attr : A -> nattr).

  Lemma rep_node_none log (x : A) : ~ In x (map fst log) -> rep_node eqb log x = x.
  Proof.
    unfold rep_node. rewrite <- (rev_involutive log). induction (rev log) as [|[a b] l IH]; [reflexivity|]. cbn [rev]. rewrite fold_left_app, map_app, in_app_iff.
    cbn. intros H. destruct (eqb x a) eqn:E; [apply eqb_spec in E; subst; tauto|]. apply IH. tauto.
  Qed.
  Lemma rep_node_one log x y : NoDup (map fst log) -> In (x, y) log -> rep_node eqb log x = y.
  Proof.
    unfold rep_node. rewrite <- (rev_involutive log). induction (rev log) as [|[a b] l IH]; [intros _ []|]. cbn [rev]. rewrite fold_left_app, map_app, in_app_iff.
    cbn. intros N Hi. apply NoDup_app_iff in N. destruct N as (N1 & _ & N2). destruct (eqb x a) eqn:E.
    - apply eqb_spec in E. subst a. destruct Hi as [Hi|[Hi|[]]]; [|congruence]. exfalso. apply (N2 x); [|left; reflexivity].
      apply (in_map fst) in Hi. exact Hi.
    - apply IH; [exact N1|]. destruct Hi as [Hi|[Hi|[]]]; [exact Hi|]. injection Hi as -> ->. rewrite (eqb_refl eqb eqb_spec) in E. discriminate.
  Qed.

  Context (g : digraph A) (W : wf g) (HB : no_var_var_edge attr g).

  (** A declared variable is mapped to a node of the resulting graph when no other declared
      variable has its promoted name, or when no source has it. *)
  Lemma mapping_ok g' t v : merge_auto eqb attr g = Ok g' -> node g t -> target_node attr t v ->
    (candidates attr g (va_pname v) = [t] \/ forall s sv, node g s -> source_node attr s sv -> va_pname sv <> va_pname v) ->
    node g' (rep_node eqb (auto_mapping eqb attr g) t).
  Proof.
    intros E Ht Hv Hc. destruct (@merge_auto_ok A eqb eqb_spec attr g W HB) as (g1 & E1 & _ & HN & _).
    assert (g1 = g') by congruence. subst g1. apply HN.
    set (targets := filter (is_tgt attr) (filter (is_var attr) (g_nodes g))).
    assert (Tt : In t targets) by (apply In_targets; split; [exact Ht|apply is_tgt_spec; eauto]).
    destruct (ut_total attr _ _ Tt) as (u & Hu).
    pose proof (@auto_rep_target A eqb eqb_spec attr g W t u Tt Hu) as Rt.
    destruct (@ut_tgt A attr g _ _ Hu) as [Tu Ku].
    assert (Hu' : dget (unique_targets attr targets) (pname attr u) = Some u) by (rewrite Ku; exact Hu).
    pose proof (@auto_rep_target A eqb eqb_spec attr g W u u Tu Hu') as Ru.
    pose proof (@sources_spec A attr g (pname attr t)) as S.
    assert (Hpn : pname attr t = va_pname v) by (apply pname_var, Hv).
    unfold auto_mapping, auto_steps.
    match goal with |- context [map (fun uv => (snd uv, fst uv)) (?a ++ ?b)] => set (st1 := a); set (st2 := b) end.
    assert (NDl : NoDup (map fst (map (fun uv : A * A => (snd uv, fst uv)) (st1 ++ st2)))).
    { rewrite map_map. cbn. pose proof (@steps_auto_ok A eqb eqb_spec attr g W) as SO. fold st1 st2 in SO. clear - SO.
      induction (st1 ++ st2) as [|[a b] l IH]; [constructor|]. cbn in *. destruct SO as (_ & H & SO). constructor; [|auto].
      intros Hi. apply in_map_iff in Hi. destruct Hi as ([a' b'] & Eb & Hi). cbn in Eb. destruct (H _ _ Hi) as [_ H']. congruence. }
    assert (HI : forall a b, In (a, b) (st1 ++ st2) -> In (b, a) (map (fun uv : A * A => (snd uv, fst uv)) (st1 ++ st2))).
    { intros a b H. apply in_map_iff. exists (a, b). auto. }
    assert (Hsr : forall s, is_src attr s = true -> auto_rep eqb attr g s = s).
    { intros s Hs. apply auto_rep_other; auto. destruct (is_tgt attr s) eqn:Et; [|reflexivity]. exfalso. eapply src_not_tgt; eassumption. }
    match type of Rt with _ = match ?d with _ => _ end => destruct d as [s|] eqn:Es end.
    - destruct S as (S1 & S2 & S3). assert (Eu : u = t).
      { destruct Hc as [Hc|Hc].
        - rewrite <- candidates_named in Hc. assert (Hi : In u (named attr (va_pname v) targets)) by (apply In_named; split; [exact Tu|congruence]).
          fold targets in Hc. rewrite Hc in Hi. destruct Hi as [<-|[]]. reflexivity.
      exact eqb.
        - exfalso. apply is_src_spec in S2. destruct S2 as [sv S2]. eapply (Hc s sv S3 S2). rewrite <- (pname_var (proj1 S2)). congruence. }
      subst u. assert (Hl : rep_node eqb (map (fun uv : A * A => (snd uv, fst uv)) (st1 ++ st2)) t = s).
      { apply rep_node_one; [exact NDl|]. apply HI, in_app_iff. right. apply In_steps2. eauto. }
      rewrite Hl. split; [exact S3|]. apply Hsr, S2.
    - rewrite Ku, Es in Ru. apply In_targets in Tu. destruct (eqA_dec eqb eqb_spec u t) as [->|Hne].
      + rewrite rep_node_none; [split; [exact Ht|exact Ru]|]. rewrite map_map. cbn. intros Hi.
        apply (@removed_iff A eqb eqb_spec attr g W) in Hi. destruct Hi as [_ [Hi|[s Hi]]]; [exact (Hi Hu)|]. pose proof (eq_trans (eq_sym Es) Hi). discriminate.
      + assert (Hl : rep_node eqb (map (fun uv : A * A => (snd uv, fst uv)) (st1 ++ st2)) t = u).
        { apply rep_node_one; [exact NDl|]. apply HI, in_app_iff. left. apply In_steps1; auto. }
        rewrite Hl. split; [apply Tu|exact Ru].
  Qed.
End Mapping.

Lemma auto_one_node_pref : forall A (eqb : A -> A -> bool) attr g, (forall x y, eqb x y = true <-> x = y) -> wf g ->
  no_var_var_edge attr g -> sources_distinct attr g ->
  exists g' rep, merge_auto eqb attr g = Ok g' /\ wf g' /\ quotient g g' rep /\
    (forall x, (forall v, ~ target_node attr x v) -> rep x = x) /\
    (forall t v, node g t -> target_node attr t v ->
       (forall s sv, node g s -> source_node attr s sv -> va_pname sv = va_pname v -> rep t = s) /\
       ((forall s sv, node g s -> source_node attr s sv -> va_pname sv <> va_pname v) ->
          In (rep t) (candidates attr g (va_pname v)) /\ forall t', In t' (candidates attr g (va_pname v)) -> rep t' = rep t) /\
       ((forall s sv, node g s -> source_node attr s sv -> va_pname sv <> va_pname v) -> preferred attr (candidates attr g (va_pname v)) (rep t))).
Proof.
  intros A eqb attr g D W HB HD. destruct (@merge_auto_ok A eqb D attr g W HB) as (g' & E & W' & HN & HE).
  exists g', (auto_rep eqb attr g). split; [exact E|]. split; [exact W'|]. split; [split; assumption|].
  destruct (@merge_auto_quotient A eqb D attr g W HB HD) as (g1 & rep & _ & _ & _ & _ & _). clear g1 rep.
  split.
  - intros x Hx. apply auto_rep_other; auto. destruct (is_tgt attr x) eqn:Et; [|reflexivity]. apply is_tgt_spec in Et. destruct Et as [v Hv]. exfalso. eapply Hx, Hv.
  - intros t v Ht Hv. set (targets := filter (is_tgt attr) (filter (is_var attr) (g_nodes g))).
    assert (Tt : In t targets) by (apply In_targets; split; [exact Ht|apply is_tgt_spec; eauto]).
    destruct (ut_total attr _ _ Tt) as (u & Hu). pose proof (@auto_rep_target A eqb D attr g W t u Tt Hu) as Rt. rewrite Rt.
    pose proof (@sources_spec A attr g (pname attr t)) as S. assert (Hpn : pname attr t = va_pname v) by (apply pname_var, Hv).
    destruct (@ut_tgt A attr g _ _ Hu) as [Tu Ku]. split; [|split].
    + intros s sv Hs Hsv Hn. match goal with |- match ?d with _ => _ end = _ => destruct d as [s'|] end.
      * destruct S as (S1 & S2 & S3). apply is_src_spec in S2. destruct S2 as [v' S2]. eapply HD; [exact Ht|exact S3|exact Hs|exact Hv|exact S2|exact Hsv| |congruence].
        rewrite <- (pname_var (proj1 S2)). congruence.
      * exfalso. apply (S s); [apply In_srcs; split; [exact Hs|apply is_src_spec; eauto]|]. rewrite (pname_var (proj1 Hsv)). congruence.
    + intros Hno. assert (HnoS : forall k, k = pname attr t -> match dget (dict_of (map (fun x => (pname attr x, x))
          (filter (is_src attr) (filter (is_var attr) (g_nodes g))))) k with Some _ => False | None => True end).
      { intros k ->. match goal with |- match ?d with _ => _ end => destruct d as [s'|] end; [|exact I]. destruct S as (S1 & S2 & S3).
        apply is_src_spec in S2. destruct S2 as [v' S2]. eapply Hno; [exact S3|exact S2|]. rewrite <- (pname_var (proj1 S2)). congruence. }
      assert (Val : match dget (dict_of (map (fun x => (pname attr x, x)) (filter (is_src attr) (filter (is_var attr) (g_nodes g))))) (pname attr t)
                    with Some s => s | None => u end = u).
      { specialize (HnoS _ eq_refl). match goal with |- match ?d with _ => _ end = _ => destruct d as [s'|] end; [destruct HnoS|reflexivity]. }
      rewrite Val. split.
      * rewrite <- candidates_named; auto. apply In_named. split; [exact Tu|congruence].
      * intros t' Ht'. rewrite <- candidates_named in Ht' by auto. apply In_named in Ht'. destruct Ht' as [Ht' Hn'].
        assert (Et : pname attr t' = pname attr t) by congruence.
        rewrite (@auto_rep_target A eqb D attr g W t' u Ht'); [rewrite Et; exact Val|]. rewrite Et. exact Hu.
    + intros Hno.
      assert (Val : match dget (dict_of (map (fun x => (pname attr x, x)) (filter (is_src attr) (filter (is_var attr) (g_nodes g))))) (pname attr t)
                    with Some s => s | None => u end = u).
      { match goal with |- match ?d with _ => _ end = _ => destruct d as [s'|] end; [|reflexivity]. exfalso. destruct S as (S1 & S2 & S3).
        apply is_src_spec in S2. destruct S2 as [v' S2]. eapply Hno; [exact S3|exact S2|]. rewrite <- (pname_var (proj1 S2)). congruence. }
      rewrite Val, <- candidates_named by auto. destruct (unique_targets_spec attr targets) as [_ P]. specialize (P (pname attr t)). fold targets in Hu. rewrite Hu in P.
      rewrite <- Hpn. exact P.
Qed.

Lemma auto_one_node : forall A (eqb : A -> A -> bool) attr g, (forall x y, eqb x y = true <-> x = y) -> wf g ->
  no_var_var_edge attr g -> sources_distinct attr g ->
  exists g' rep, merge_auto eqb attr g = Ok g' /\ wf g' /\ quotient g g' rep /\
    (forall x, (forall v, ~ target_node attr x v) -> rep x = x) /\
    (forall t v, node g t -> target_node attr t v ->
       (forall s sv, node g s -> source_node attr s sv -> va_pname sv = va_pname v -> rep t = s) /\
       ((forall s sv, node g s -> source_node attr s sv -> va_pname sv <> va_pname v) ->
          In (rep t) (candidates attr g (va_pname v)) /\ forall t', In t' (candidates attr g (va_pname v)) -> rep t' = rep t)).
Proof.
  intros A eqb attr g D W HB HD. destruct (@auto_one_node_pref A eqb attr g D W HB HD) as (g' & rep & E & W' & Q & N & T).
  exists g', rep. split; [exact E|]. split; [exact W'|]. split; [exact Q|]. split; [exact N|]. intros t v Ht Hv. destruct (T t v Ht Hv) as (T1 & T2 & _). auto.
Qed.

(** The same for any order of the contractions. *)
Lemma auto_one_node_any : forall A (eqb : A -> A -> bool) attr g, (forall x y, eqb x y = true <-> x = y) -> wf g ->
  no_var_var_edge attr g -> sources_distinct attr g ->
  exists rep, (forall g', merge_auto_any eqb attr g g' -> wf g' /\ quotient g g' rep) /\
    (forall x, (forall v, ~ target_node attr x v) -> rep x = x) /\
    (forall t v, node g t -> target_node attr t v ->
       (forall s sv, node g s -> source_node attr s sv -> va_pname sv = va_pname v -> rep t = s) /\
       ((forall s sv, node g s -> source_node attr s sv -> va_pname sv <> va_pname v) ->
          In (rep t) (candidates attr g (va_pname v)) /\ forall t', In t' (candidates attr g (va_pname v)) -> rep t' = rep t) /\
       ((forall s sv, node g s -> source_node attr s sv -> va_pname sv <> va_pname v) -> preferred attr (candidates attr g (va_pname v)) (rep t))).
Proof.
  intros A eqb attr g D W HB HD. destruct (@auto_one_node_pref A eqb attr g D W HB HD) as (g0 & rep & E & W0 & Q0 & K).
  destruct (@merge_auto_ok A eqb D attr g W HB) as (g1 & E1 & _ & HN1 & HE1). rewrite E in E1. injection E1 as <-.
  exists rep. split; [|exact K]. intros g' (rt & S & C). destruct (@merge_auto_any_ok A eqb D attr g W HB rt S) as (g2 & E2 & W2 & HN2 & HE2).
  cbv zeta in C. rewrite C in E2. injection E2 as <-. split; [exact W2|]. split.
  - intros x. rewrite HN2, <- HN1. apply (proj1 Q0).
  - intros a b. rewrite HE2, <- HE1. apply (proj2 Q0).
Qed.
Lemma merge_auto_any_self A (eqb : A -> A -> bool) attr g g' : merge_auto eqb attr g = Ok g' -> merge_auto_any eqb attr g g'.
Proof.
  intros H. eexists. split; [|exact H]. match goal with |- same_sets ?d _ => generalize d end. intros d. induction d as [|a d IH]; constructor; [split; [reflexivity|apply Permutation_refl]|exact IH].
Qed.


Lemma auto_survivor : forall A (eqb : A -> A -> bool) attr g, (forall x y, eqb x y = true <-> x = y) -> wf g ->
  no_var_var_edge attr g -> sources_distinct attr g ->
  exists g' rep, merge_auto eqb attr g = Ok g' /\ quotient g g' rep /\
    (forall t v, node g t -> target_node attr t v ->
       (forall s sv, node g s -> source_node attr s sv -> va_pname sv <> va_pname v) ->
       preferred attr (candidates attr g (va_pname v)) (rep t)).
Proof.
  intros A eqb attr g D W HB HD. destruct (@merge_auto_quotient A eqb D attr g W HB HD) as (g1 & rep & E & _ & Q & _ & H).
  exists g1, rep. split; [exact E|]. split; [exact Q|]. intros t v Ht Hv. apply (H t v Ht Hv).
Qed.
