From Verif Require Import PyBase Digraph TopoModel TopoSpec.
From Coq Require Import Relations Permutation.

Set Implicit Arguments.

Section Proofs.
  Context {A : Type} (eqb : A -> A -> bool) (eqb_spec : forall x y, eqb x y = true <-> x = y).
  Notation eqb_refl := (eqb_refl eqb eqb_spec).
  Notation eqb_false := (eqb_false eqb eqb_spec).

  Lemma iget_Some_In m k n : iget eqb m k = Some n -> In (k, n) m.
  Proof.
    induction m as [|[x n'] r IH]; cbn; [discriminate|]. destruct (eqb k x) eqn:E; [|auto].
    apply eqb_spec in E. intros H. injection H as <-. subst. auto.
  Qed.
  Lemma iget_In m k n : NoDup (map fst m) -> In (k, n) m -> iget eqb m k = Some n.
  Proof.
    induction m as [|[x n'] r IH]; cbn; [tauto|]. intros N [E|H].
    - injection E as -> ->. rewrite eqb_refl. reflexivity.
    - inversion N as [|? ? N1 N2]; subst. destruct (eqb k x) eqn:E; [|auto].
      apply eqb_spec in E. subst. exfalso. apply N1. apply (in_map fst) in H. exact H.
  Qed.
  Lemma iset_fst m k n n0 : iget eqb m k = Some n0 -> map fst (iset eqb m k n) = map fst m.
  Proof.
    induction m as [|[x n'] r IH]; cbn; [discriminate|]. destruct (eqb k x) eqn:E; cbn; [auto|].
    intros H. rewrite IH; auto.
  Qed.
  Lemma iset_In m k n n0 x y : NoDup (map fst m) -> iget eqb m k = Some n0 ->
    (In (x, y) (iset eqb m k n) <-> (x = k /\ y = n) \/ (x <> k /\ In (x, y) m)).
  Proof.
    induction m as [|[z n'] r IH]; cbn; [discriminate|]. intros N. inversion N as [|? ? N1 N2]; subst.
    destruct (eqb k z) eqn:E; cbn.
    - apply eqb_spec in E. subst z. intros _. split.
      + intros [H|H]; [injection H as <- <-; auto|]. right. split; [|auto]. intros ->.
        apply N1. apply (in_map fst) in H. exact H.
      + intros [[-> ->]|[H1 [H2|H2]]]; [auto|congruence|auto].
    - apply eqb_false in E. intros H. rewrite (IH N2 H). split.
      + intros [H1|[H1|[H1 H2]]]; [injection H1 as <- <-; right; split; [congruence|auto]|auto|auto].
      + intros [H1|[H1 [H2|H2]]]; auto.
  Qed.
  Lemma idel_In m k x y : In (x, y) (idel eqb m k) <-> x <> k /\ In (x, y) m.
  Proof. unfold idel. rewrite filter_In. cbn. rewrite negb_true_iff, eqb_false. intuition congruence. Qed.
  Lemma idel_NoDup m k : NoDup (map fst m) -> NoDup (map fst (idel eqb m k)).
  Proof.
    unfold idel. induction m as [|[z n] r IH]; cbn; [auto|]. intros N. inversion N as [|? ? N1 N2]; subst.
    destruct (eqb k z); cbn; [auto|]. constructor; [|auto]. intros H. apply N1. apply in_map_iff in H.
    destruct H as (e & <- & H). apply filter_In in H. apply in_map. tauto.
  Qed.

  Lemma nil_or_snoc (l : list A) : l = [] \/ exists l' x, l = l' ++ [x].
  Proof. induction l as [|a l _] using rev_ind; [auto|right; eauto]. Qed.

  Context (g : digraph A) (W : wf g).

  (** Predecessors of [v] outside [P]. *)
  Definition open_preds (P : list A) (v : A) : list A := filter (fun p => negb (memA eqb p P)) (preds eqb g v).

  (** Invariant between two nodes: [P] are the nodes whose out-edges have been discounted,
      [rest] what remains of the current generation, [zero] the next one. *)
  Record inv (P : list A) (rest : list A) (im : list (A * nat)) (zero : list A) : Prop := {
    i_nd : NoDup (P ++ rest ++ zero);
    i_im : NoDup (map fst im);
    i_node : forall v, node g v <-> In v (P ++ rest ++ zero) \/ In v (map fst im);
    i_disj : forall v, In v (P ++ rest ++ zero) -> ~ In v (map fst im);
    i_cnt : forall v n, In (v, n) im -> n <> 0 /\ n = length (open_preds P v);
    i_ready : forall v p, In v (P ++ rest ++ zero) -> edge g p v -> In p P;
    i_order : forall l1 v l2, P ++ rest ++ zero = l1 ++ v :: l2 -> forall p, edge g p v -> In p l1
  }.

  (** While the out-edges of [c] are visited: those to [D] have been, those to [cs] not yet. *)
  Record inv' (P : list A) (c : A) (D cs : list A) (rest : list A) (im : list (A * nat)) (zero : list A) : Prop := {
    j_succ : succs eqb g c = D ++ cs;
    j_nd : NoDup (P ++ c :: rest ++ zero);
    j_im : NoDup (map fst im);
    j_node : forall v, node g v <-> In v (P ++ c :: rest ++ zero) \/ In v (map fst im);
    j_disj : forall v, In v (P ++ c :: rest ++ zero) -> ~ In v (map fst im);
    j_cnt : forall v n, In (v, n) im -> n <> 0 /\
        n = length (open_preds (if memA eqb v D then P ++ [c] else P) v);
    j_ready1 : forall v p, In v (P ++ c :: rest) -> edge g p v -> In p P;
    j_ready2 : forall v p, In v zero -> edge g p v -> In p P \/ (p = c /\ In v D);
    j_order : forall l1 v l2, P ++ c :: rest ++ zero = l1 ++ v :: l2 -> forall p, edge g p v -> In p l1
  }.

  Lemma NoDup_succs x : NoDup (succs eqb g x).
  Proof.
    destruct W as [_ _ H]. unfold succs. induction (g_edges g) as [|[a b] l IH]; cbn; [constructor|].
    inversion H as [|? ? N H']; subst. destruct (eqb x a) eqn:E; cbn; [|auto]. apply eqb_spec in E. subst a.
    constructor; [|auto]. intros Hi. apply in_map_iff in Hi. destruct Hi as ([u d] & E1 & Hi). apply filter_In in Hi.
    destruct Hi as [Hi E2]. cbn in *. apply eqb_spec in E2. subst. contradiction.
  Qed.

  (** Adding one predecessor to [P] closes exactly one edge. *)
  Lemma open_preds_add P c v : edge g c v -> ~ In c P ->
    length (open_preds P v) = S (length (open_preds (P ++ [c]) v)).
  Proof.
    intros He Hc. unfold open_preds. assert (Hi : In c (preds eqb g v)) by (apply (In_preds eqb eqb_spec); exact He).
    assert (N : NoDup (preds eqb g v)) by (apply (NoDup_preds eqb eqb_spec); exact W).
    revert Hi N. induction (preds eqb g v) as [|p l IH]; [intros []|]. intros Hi N. inversion N as [|? ? N1 N2]; subst. cbn.
    assert (Same : forall q, q <> c -> memA eqb q (P ++ [c]) = memA eqb q P).
    { intros q Hq. unfold memA. rewrite existsb_app. cbn. apply eqb_false in Hq. rewrite Hq, !orb_false_r. reflexivity. }
    destruct (eqA_dec eqb eqb_spec p c) as [->|Hne].
    - apply (memA_false eqb eqb_spec) in Hc. rewrite Hc. cbn.
      assert (Hm : memA eqb c (P ++ [c]) = true) by (apply (memA_spec eqb eqb_spec); rewrite in_app_iff; cbn; auto).
      rewrite Hm. cbn. f_equal. f_equal. apply filter_ext_in. intros q Hq. f_equal. symmetry. apply Same.
      intros ->. contradiction.
    - destruct Hi as [->|Hi]; [congruence|]. rewrite (Same p Hne). destruct (memA eqb p P); cbn; auto.
  Qed.
  Lemma open_preds_same P c v : ~ edge g c v -> open_preds (P ++ [c]) v = open_preds P v.
  Proof.
    intros He. unfold open_preds. apply filter_ext_in. intros q Hq. apply (In_preds eqb eqb_spec) in Hq. f_equal.
    unfold memA. rewrite existsb_app. cbn. assert (Hne : q <> c) by (intros ->; contradiction). apply eqb_false in Hne.
    rewrite Hne, !orb_false_r. reflexivity.
  Qed.

  Lemma split_snoc (l l1 l2 : list A) x v : l ++ [x] = l1 ++ v :: l2 ->
    (l2 = [] /\ v = x /\ l1 = l) \/ exists l3, l = l1 ++ v :: l3.
  Proof.
    destruct (@nil_or_snoc l2) as [->|(l3 & y & ->)].
    - intros E. apply app_inj_tail in E. left. intuition congruence.
    - intros E. replace (l1 ++ v :: l3 ++ [y]) with ((l1 ++ v :: l3) ++ [y]) in E by (rewrite <- app_assoc; reflexivity).
      apply app_inj_tail in E. right. exists l3. tauto.
  Qed.

  Lemma visit_children_ok cs P c D rest im zero : inv' P c D cs rest im zero ->
    exists im' zero', visit_children eqb cs (im, zero) = Ok (im', zero') /\ inv' P c (D ++ cs) [] rest im' zero'.
  Proof.
    revert D im zero. induction cs as [|x cs IH]; intros D im zero I; cbn [visit_children].
    - exists im, zero. split; [reflexivity|]. rewrite app_nil_r. exact I.
    - destruct I as [Js Jnd Jim Jn Jd Jc Jr1 Jr2 Jo].
      assert (He : edge g c x) by (apply (In_succs eqb eqb_spec); rewrite Js, in_app_iff; cbn; auto).
      assert (Hc : ~ In c P).
      { intros H. apply NoDup_app_iff in Jnd. destruct Jnd as (_ & _ & Hd). apply (Hd c H). left. reflexivity. }
      assert (HxD : ~ In x D).
      { pose proof (NoDup_succs c) as N. rewrite Js in N. apply NoDup_app_iff in N. destruct N as (_ & _ & Hd).
        intros H. apply (Hd x H). left. reflexivity. }
      assert (Hx : In x (map fst im)).
      { destruct (wf_ends _ W _ _ He) as [_ Hn]. apply Jn in Hn. destruct Hn as [Hn|Hn]; [|exact Hn]. exfalso.
        change (c :: rest ++ zero) with ((c :: rest) ++ zero) in Hn. rewrite app_assoc in Hn. apply in_app_iff in Hn.
        destruct Hn as [Hn|Hn]; [apply (Jr1 _ _ Hn) in He; contradiction|].
        destruct (Jr2 _ _ Hn He) as [H|[_ H]]; contradiction. }
      apply in_map_iff in Hx. destruct Hx as ([x' n] & E & Hin). cbn in E. subst x'.
      destruct (Jc _ _ Hin) as [Hn0 Hn]. pose proof HxD as HxD'. apply (memA_false eqb eqb_spec) in HxD'. rewrite HxD' in Hn.
      rewrite (open_preds_add P _ _ He Hc) in Hn. assert (Hg : iget eqb im x = Some n) by (apply iget_In; assumption).
      assert (HmD : forall v, v <> x -> memA eqb v (D ++ [x]) = memA eqb v D).
      { intros v Hv. unfold memA. rewrite existsb_app. cbn. apply eqb_false in Hv. rewrite Hv, !orb_false_r. reflexivity. }
      assert (HmDx : memA eqb x (D ++ [x]) = true) by (apply (memA_spec eqb eqb_spec), in_app_iff; cbn; auto).
      replace (D ++ x :: cs) with ((D ++ [x]) ++ cs) by (rewrite <- app_assoc; reflexivity).
      unfold visit_child. cbn [fst snd]. rewrite Hg. destruct n as [|[|n]]; [congruence| |]; cbn [bind].
      + (* ready *)
        apply IH. assert (Hemp : forall p, edge g p x -> In p P \/ p = c).
        { intros p Hp. injection Hn as Hn. symmetry in Hn. apply length_zero_iff_nil in Hn.
          destruct (memA eqb p (P ++ [c])) eqn:Em.
          - apply (memA_spec eqb eqb_spec), in_app_iff in Em. cbn in Em. intuition congruence.
          - exfalso. assert (H : In p (open_preds (P ++ [c]) x)).
            { unfold open_preds. apply filter_In. split; [apply (In_preds eqb eqb_spec); exact Hp|rewrite Em; reflexivity]. }
            rewrite Hn in H. exact H. }
        assert (Hnew : ~ In x (P ++ c :: rest ++ zero)).
        { intros H. apply (Jd _ H). apply (in_map fst) in Hin. exact Hin. }
        assert (Eseq : P ++ c :: rest ++ zero ++ [x] = (P ++ c :: rest ++ zero) ++ [x]).
        { rewrite <- app_assoc. cbn. rewrite <- app_assoc. reflexivity. }
        split.
        * rewrite Js, <- app_assoc. reflexivity.
        * rewrite Eseq. apply NoDup_app_single; assumption.
        * apply idel_NoDup, Jim.
        * intros v. rewrite Eseq, Jn, (in_app_iff _ [x]). cbn [In]. split.
          -- intros [H|H]; [auto|]. destruct (eqA_dec eqb eqb_spec v x) as [->|Hv]; [auto|]. right.
             apply in_map_iff in H. destruct H as ([v' n] & E & H). cbn in E. subst v'.
             apply (in_map fst (idel eqb im x) (v, n)). apply idel_In. auto.
          -- intros [[H|[->|[]]]|H]; [auto|right; apply (in_map fst) in Hin; exact Hin|right].
             apply in_map_iff in H. destruct H as ([v' n] & E & H). cbn in E. subst v'. apply idel_In in H.
             apply (in_map fst im (v, n)). tauto.
        * intros v. rewrite Eseq, in_app_iff. cbn [In]. intros [H|[->|[]]] H2; apply in_map_iff in H2;
            destruct H2 as ([v' n] & E & H2); cbn in E; subst v'; apply idel_In in H2; [|tauto].
          apply (Jd _ H). apply (in_map fst im (v, n)). tauto.
        * intros v n H. apply idel_In in H. destruct H as [Hv H]. rewrite (HmD _ Hv). apply Jc. exact H.
        * exact Jr1.
        * intros v p H Hp. apply in_app_iff in H. cbn in H. destruct H as [H|[<-|[]]].
          -- destruct (Jr2 _ _ H Hp) as [H'|[-> H']]; [auto|right; split; [reflexivity|apply in_app_iff; auto]].
          -- destruct (Hemp _ Hp) as [H| ->]; [auto|right; split; [reflexivity|apply in_app_iff; cbn; auto]].
        * intros l1 v l2 E p Hp. rewrite Eseq in E. apply split_snoc in E. destruct E as [(-> & -> & ->)|(l3 & E)].
          -- destruct (Hemp _ Hp) as [H| ->]; apply in_app_iff; cbn; auto.
          -- eapply Jo; eassumption.
      + (* not yet *)
        apply IH. split; auto.
        * rewrite Js, <- app_assoc. reflexivity.
        * erewrite iset_fst by exact Hg. exact Jim.
        * intros v. erewrite iset_fst by exact Hg. apply Jn.
        * intros v. erewrite iset_fst by exact Hg. apply Jd.
        * intros v k H. eapply iset_In in H; [|exact Jim|exact Hg]. destruct H as [[-> ->]|[Hv H]].
          -- rewrite HmDx. split; [congruence|]. congruence.
          -- rewrite (HmD _ Hv). apply Jc, H.
        * intros v p H Hp. destruct (Jr2 _ _ H Hp) as [H'|[-> H']]; [auto|right; split; [reflexivity|apply in_app_iff; auto]].
  Qed.

  Lemma visit_generation_ok gen P im zero : inv P gen im zero ->
    exists im' zero', visit_generation eqb g gen (im, zero) = Ok (im', zero') /\ inv (P ++ gen) [] im' zero'.
  Proof.
    revert P im zero. induction gen as [|c gen IH]; intros P im zero I; cbn [visit_generation].
    - exists im, zero. rewrite app_nil_r. split; [reflexivity|exact I].
    - destruct I as [Ind Iim In_ Id Ic Ir Io].
      assert (J : inv' P c [] (succs eqb g c) gen im zero).
      { split; auto.
        - intros v p H. apply Ir. apply in_app_iff in H. rewrite app_assoc. apply in_app_iff. left. apply in_app_iff. tauto.
        - intros v p H Hp. left. apply (Ir v); [|exact Hp]. rewrite app_assoc. apply in_app_iff. auto. }
      destruct (visit_children_ok J) as (im1 & zero1 & E & [Js Jnd Jim Jn Jd Jc Jr1 Jr2 Jo]).
      rewrite E. cbn [bind]. replace (P ++ c :: gen) with ((P ++ [c]) ++ gen) by (rewrite <- app_assoc; reflexivity).
      assert (Eq : (P ++ [c]) ++ gen ++ zero1 = P ++ c :: gen ++ zero1) by (rewrite <- app_assoc; reflexivity).
      cbn [app] in *. apply IH. split.
      + rewrite Eq. exact Jnd.
      + exact Jim.
      + intros v. rewrite Eq. apply Jn.
      + intros v. rewrite Eq. apply Jd.
      + intros v n H. destruct (Jc _ _ H) as [H0 H1]. split; [exact H0|]. destruct (memA eqb v (succs eqb g c)) eqn:Em; [exact H1|].
        rewrite H1. rewrite (@open_preds_same P c v); [reflexivity|]. intros He. apply (In_succs eqb eqb_spec) in He.
        apply (memA_false eqb eqb_spec) in Em. contradiction.
      + intros v p H Hp. rewrite Eq in H. change (c :: gen ++ zero1) with ((c :: gen) ++ zero1) in H.
        rewrite app_assoc, in_app_iff in H. rewrite in_app_iff. cbn. destruct H as [H|H].
        * left. eapply Jr1; eassumption.
        * destruct (Jr2 _ _ H Hp) as [H'|[-> _]]; auto.
      + intros l1 v l2. rewrite Eq. apply Jo.
  Qed.

  (** *** Cycles *)
  Lemma no_pred_free_set (K : list A) x : In x K -> (forall v, In v K -> exists p, In p K /\ edge g p v) -> has_cycle g.
  Proof.
    intros Hx HK.
    (* backward walks of any length inside K *)
    assert (Walk : forall n, exists w, length w = S n /\ incl w K /\
              (forall l1 a b l2, w = l1 ++ a :: b :: l2 -> edge g a b)).
    { induction n as [|n (w & HL & HI & HE)].
      - exists [x]. split; [reflexivity|]. split; [intros y [<-|[]]; exact Hx|].
        intros l1 a b l2 E; destruct l1 as [|y1 [|y2 l1]]; discriminate.
      - destruct w as [|a w]; [discriminate|]. destruct (HK a (HI a (or_introl eq_refl))) as (p & Hp & He).
        exists (p :: a :: w). split; [cbn in *; congruence|]. split; [intros y [<-|H]; auto|].
        intros l1 b d l2 E; destruct l1 as [|z l1].
        + inversion E; subst. exact He.
        + inversion E as [[E1 E2]]. eapply HE. exact E2. }
    destruct (Walk (length K)) as (w & HL & HI & HE).
    assert (HD : exists l1 v l2 l3, w = l1 ++ v :: l2 ++ v :: l3).
    { assert (ND : ~ NoDup w). { intros N. pose proof (NoDup_incl_length N HI). lia. }
      clear - ND eqb_spec. induction w as [|a w IH]; [exfalso; apply ND; constructor|].
      destruct (memA eqb a w) eqn:E.
      - apply (memA_spec eqb eqb_spec) in E. apply in_split in E. destruct E as (l2 & l3 & ->). exists [], a, l2, l3. reflexivity.
      - apply (memA_false eqb eqb_spec) in E. destruct IH as (l1 & v & l2 & l3 & ->).
        + intros N. apply ND. constructor; assumption.
        + exists (a :: l1), v, l2, l3. reflexivity. }
    destruct HD as (l1 & v & l2 & l3 & ->). exists v. clear Walk HL HI.
    assert (Chain : forall l2 v l1 u, (forall l1' a b l2', l1 ++ v :: l2 ++ u :: l3 = l1' ++ a :: b :: l2' -> edge g a b) -> clos_trans A (edge g) v u).
    { clear. induction l2 as [|y l2 IH]; intros v l1 u H.
      - apply t_step. eapply (H l1). reflexivity.
      - apply t_trans with y; [apply t_step; eapply (H l1); reflexivity|]. apply (IH y (l1 ++ [v])).
        intros l1' a b l2' E. eapply H. rewrite <- E. rewrite <- app_assoc. reflexivity. }
    eapply Chain. exact HE.
  Qed.

  Lemma generations_spec fuel P im zero : inv P zero im [] -> length (g_nodes g) <= fuel + length P ->
    match generations eqb fuel g im zero P with
    | Ok l => Permutation l (g_nodes g) /\ (forall l1 v l2, l = l1 ++ v :: l2 -> forall p, edge g p v -> In p l1)
    | Err e => has_cycle g
    end.
  Proof.
    revert P im zero. induction fuel as [|fuel IH]; intros P im zero I HF.
    all: cbn [generations]; destruct zero as [|z zero].
    1, 3: destruct I as [Ind Iim In_ Id Ic Ir Io]; rewrite ?app_nil_r in *; destruct im as [|[x n] im];
      [ split; [|exact Io]; apply NoDup_Permutation; [exact Ind|apply (wf_nodes _ W)|];
        intros v; fold (node g v); rewrite In_; cbn; tauto
      | apply no_pred_free_set with (K := map fst ((x, n) :: im)) (x := x); [left; reflexivity|];
        intros v Hv; apply in_map_iff in Hv; destruct Hv as ([v' k] & E & Hv); cbn in E; subst v';
        destruct (Ic _ _ Hv) as [H0 H1]; destruct (open_preds P v) as [|p l] eqn:Eo; [cbn in H1; congruence|];
        assert (Hp : In p (open_preds P v)) by (rewrite Eo; left; reflexivity);
        unfold open_preds in Hp; apply filter_In in Hp; destruct Hp as [Hp Hm]; apply (In_preds eqb eqb_spec) in Hp;
        apply negb_true_iff, (memA_false eqb eqb_spec) in Hm;
        exists p; split; [|exact Hp]; destruct (wf_ends _ W _ _ Hp) as [Hn _]; apply In_ in Hn; tauto ].
    - exfalso. destruct I as [Ind Iim In_ Id Ic Ir Io].
      assert (HI : incl (P ++ z :: zero) (g_nodes g)). { intros v H. apply In_. rewrite app_nil_r. auto. }
      rewrite app_nil_r in Ind. pose proof (NoDup_incl_length Ind HI). rewrite app_length in H. cbn in *. lia.
    - destruct (visit_generation_ok I) as (im1 & zero1 & E & I1). rewrite E. cbn [bind fst snd].
      apply IH; [|rewrite app_length; cbn; lia]. destruct I1. rewrite app_nil_l in *. split; rewrite ?app_nil_r in *; auto.
  Qed.

  Lemma topological_sort_spec :
    match topological_sort eqb g with
    | Ok l => Permutation l (g_nodes g) /\ (forall l1 v l2, l = l1 ++ v :: l2 -> forall p, edge g p v -> In p l1)
    | Err e => has_cycle g
    end.
  Proof.
    unfold topological_sort. set (im := filter _ (map _ _)). set (zero := filter _ (g_nodes g)).
    assert (Him : forall v n, In (v, n) im <-> node g v /\ n = in_degree eqb g v /\ n <> 0).
    { intros v n. unfold im. rewrite filter_In. cbn. rewrite negb_true_iff, Nat.eqb_neq, in_map_iff. split.
      - intros [(x & E & H) H0]. injection E as -> <-. auto.
      - intros (H & -> & H0). split; [exists v; auto|exact H0]. }
    assert (Hz : forall v, In v zero <-> node g v /\ in_degree eqb g v = 0).
    { intros v. unfold zero. rewrite filter_In, Nat.eqb_eq. reflexivity. }
    assert (Hk : forall v, In v (map fst im) <-> node g v /\ in_degree eqb g v <> 0).
    { intros v. rewrite in_map_iff. split.
      - intros ([x n] & E & H). cbn in E. subst. apply Him in H. destruct H as (H & -> & H0). auto.
      - intros [H H0]. exists (v, in_degree eqb g v). split; [reflexivity|]. apply Him. auto. }
    assert (Hp0 : forall v p, in_degree eqb g v = 0 -> ~ edge g p v).
    { intros v p H He. apply (In_preds eqb eqb_spec) in He. unfold in_degree in H. apply length_zero_iff_nil in H.
      rewrite H in He. exact He. }
    apply generations_spec; [|cbn; lia]. cbn [app]. split; cbn [app]; rewrite ?app_nil_r.
    - apply NoDup_filter, (wf_nodes _ W).
    - unfold im. pose proof (wf_nodes _ W) as N. clear - N. induction (g_nodes g) as [|x l IH]; cbn; [constructor|].
      inversion N; subst. destruct (negb _); cbn; [|auto]. constructor; [|auto].
      intros H. apply in_map_iff in H. destruct H as ([y n] & E & H). cbn in E. subst y. apply filter_In in H.
      destruct H as [H _]. apply in_map_iff in H. destruct H as (y & E & H). injection E as -> _. contradiction.
    - intros v. rewrite Hz, Hk. destruct (Nat.eq_dec (in_degree eqb g v) 0); tauto.
    - intros v. rewrite Hz, Hk. tauto.
    - intros v n H. apply Him in H. destruct H as (_ & -> & H0). split; [exact H0|]. unfold in_degree, open_preds.
      f_equal. induction (preds eqb g v) as [|p l IH]; [reflexivity|]. exact (f_equal (cons p) IH).
    - intros v p H He. apply Hz in H. exfalso. eapply Hp0; [apply H|exact He].
    - intros l1 v l2 E p He. assert (H : In v zero) by (rewrite E; apply in_app_iff; cbn; auto). apply Hz in H.
      exfalso. eapply Hp0; [apply H|exact He].
  Qed.

  Lemma clos_trans_precedes l : NoDup l -> (forall l1 v l2, l = l1 ++ v :: l2 -> forall p, edge g p v -> In p l1) ->
    (forall v, node g v -> In v l) -> ~ has_cycle g.
  Proof.
    intros N HO HA (v & Hc).
    (* every ancestor of v occurs strictly before v *)
    assert (H : forall a b, clos_trans A (edge g) a b -> forall l1 l2, l = l1 ++ b :: l2 -> In a l1).
    { intros a b Hab. apply clos_trans_t1n in Hab. induction Hab as [a b He|a c b He Hcb IH]; intros l1 l2 E.
      - eapply HO; eassumption.
      - pose proof (IH _ _ E) as Hc2. apply in_split in Hc2. destruct Hc2 as (m1 & m2 & ->).
        apply in_app_iff. left. eapply HO; [|exact He]. rewrite E, <- app_assoc. reflexivity. }
    assert (Hn : node g v). { clear H. apply clos_trans_t1n in Hc. inversion Hc; subst; match goal with He : edge g v _ |- _ => apply (wf_ends _ W _ _ He) end. }
    apply HA, in_split in Hn. destruct Hn as (l1 & l2 & E). pose proof (H _ _ Hc _ _ E) as Hi. rewrite E in N.
    apply NoDup_app_iff in N. destruct N as (_ & _ & Hd). apply (Hd v Hi). left. reflexivity.
  Qed.

  Lemma sorted_ok l : flat_sorted_nodes eqb g = Ok l ->
    Permutation l (g_nodes g) /\ (forall a b, edge g a b -> precedes l a b).
  Proof.
    unfold flat_sorted_nodes, sort_nodes. pose proof topological_sort_spec as HS. destruct (topological_sort eqb g) as [l'|e]; [|discriminate].
    cbn [bind]. unfold raise_if. destruct (negb _); [discriminate|]. intros E. injection E as ->. destruct HS as [HP HO].
    split; [exact HP|]. intros a b He. destruct (wf_ends _ W _ _ He) as [_ Hb]. apply (Permutation_in _ (Permutation_sym HP)) in Hb.
    apply in_split in Hb. destruct Hb as (l1 & l2 & ->). pose proof (HO _ _ _ eq_refl _ He) as Ha. apply in_split in Ha.
    destruct Ha as (m1 & m2 & ->). exists m1, m2, l2. rewrite <- app_assoc. reflexivity.
  Qed.

  Lemma sort_iff : (~ has_cycle g -> exists l, flat_sorted_nodes eqb g = Ok l) /\
    (has_cycle g -> flat_sorted_nodes eqb g = Err KeyError).
  Proof.
    unfold flat_sorted_nodes, sort_nodes. pose proof topological_sort_spec as HS. destruct (topological_sort eqb g) as [l|e].
    - destruct HS as [HP HO]. split.
      + intros _. exists l. cbn [bind]. unfold raise_if. rewrite (Permutation_length HP), Nat.eqb_refl. reflexivity.
      + intros HC. exfalso. eapply clos_trans_precedes; [|exact HO| |exact HC].
        * eapply Permutation_NoDup; [apply Permutation_sym, HP|apply (wf_nodes _ W)].
        * intros v Hv. eapply Permutation_in; [apply Permutation_sym, HP|exact Hv].
    - split; [intros H; contradiction|reflexivity].
  Qed.
End Proofs.
