From Verif Require Import PyBase NamesModel Digraph TopoModel TopoSpec TopoProofs QueryModel QuerySpec QueryProofs.
From Coq Require Import Lia Permutation Relation_Operators Operators_Properties.
Local Open Scope list_scope.

(** ** Ancestors *)
Lemma memn_spec x l : memn x l = true <-> In x l.
Proof. apply (memA_spec Nat.eqb nat_eqb_spec). Qed.
Lemma add_all_spec xs : forall acc, let f := fun (l : list nat) x => if memn x l then l else l ++ [x] in
  (forall y, In y (fold_left f xs acc) <-> In y acc \/ In y xs) /\ (NoDup acc -> NoDup (fold_left f xs acc)) /\
  length acc <= length (fold_left f xs acc) /\ (length (fold_left f xs acc) = length acc -> incl xs acc).
Proof.
  induction xs as [|x xs IH]; intros acc f; cbn [fold_left].
  - repeat split; auto; try tauto. intros [H|[]]; auto. intros _ ? [].
  - assert (E : f acc x = if memn x acc then acc else acc ++ [x]) by reflexivity.
    destruct (IH (f acc x)) as (A & B & C & D). fold f in A, B, C, D. destruct (memn x acc) eqn:M.
    + apply memn_spec in M. rewrite E in *. repeat split; auto.
      * intros H. apply A in H. destruct H; auto. right; right; auto.
      * intros [H|[<- |H]]; apply A; auto.
      * intros H y [<- |Hy]; auto. apply D; auto.
    + assert (M' : ~ In x acc) by (rewrite <- memn_spec; congruence). rewrite E in *. rewrite app_length in *. cbn in *. repeat split.
      * intros H. apply A in H. rewrite in_app_iff in H. cbn in H. tauto.
      * intros H. apply A. rewrite in_app_iff. cbn. tauto.
      * intros H. apply B, NoDup_app_single; auto.
      * lia.
      * intros H. exfalso. lia.
Qed.
Section Anc.
  Variable r : rep.
  Hypothesis W : well_formed r.
  Definition reaches (y o : nat) : Prop := y = o \/ path r y o.
  Definition closed (acc : list nat) : Prop := forall x y, In x acc -> edge (graph r) y x -> In y acc.
  Lemma widen_spec acc : (forall y, In y (widen r acc) <-> In y acc \/ exists x, In x acc /\ edge (graph r) y x) /\
    (NoDup acc -> NoDup (widen r acc)) /\ length acc <= length (widen r acc) /\ (length (widen r acc) = length acc -> closed acc).
  Proof.
    unfold widen. destruct (add_all_spec (flat_map (preds Nat.eqb (graph r)) acc) acc) as (A & B & C & D).
    assert (E : forall y, In y (flat_map (preds Nat.eqb (graph r)) acc) <-> exists x, In x acc /\ edge (graph r) y x).
    { intros y. rewrite in_flat_map. split; intros (x & H1 & H2); exists x; (split; [exact H1|apply preds_edge, H2]). }
    repeat split; auto.
    - intros H. apply A in H. rewrite E in H. exact H.
    - intros H. apply A. rewrite E. exact H.
    - intros H x y Hx Hy. apply D; auto. apply E. exists x; auto.
  Qed.
  Lemma iter_widen o n : forall acc, NoDup acc -> (forall y, In y acc -> node (graph r) y /\ reaches y o) -> In o acc ->
    let out := iter n (widen r) acc in
    NoDup out /\ (forall y, In y out -> node (graph r) y /\ reaches y o) /\ In o out /\ (closed out \/ length acc + n <= length out).
  Proof.
    induction n as [|n IH]; intros acc N H Ho; cbn [iter].
    - split; [exact N|]. split; [exact H|]. split; [exact Ho|]. right. lia.
    - destruct (widen_spec acc) as (A & B & C & D).
      destruct (IH (widen r acc)) as (N' & H' & Ho' & Hc).
      + auto.
      + intros y Hy. apply A in Hy. destruct Hy as [Hy|(x & Hx & He)]; auto. split; [apply (wf_ends _ W _ _ He)|].
        destruct (H x Hx) as [_ [-> |Hp]]; right; [apply t_step, He|]. eapply t_trans; [apply t_step, He|exact Hp].
      + apply A; auto.
      + split; [exact N'|]. split; [exact H'|]. split; [exact Ho'|].
        destruct Hc as [Hc|Hc]; [auto|]. destruct (Nat.eq_dec (length (widen r acc)) (length acc)) as [E|E]; [|right; lia].
        left. specialize (D E). clear -D A W. assert (Hfix : forall m a, closed a -> (forall y, In y (iter m (widen r) a) <-> In y a)).
        { induction m as [|m IHm]; intros a Ha y; cbn; [tauto|]. destruct (widen_spec a) as (A' & _).
          assert (K : forall z, In z (widen r a) <-> In z a). { intros z. rewrite A'. split; auto. intros [?|(x & Hx & He)]; auto. apply (Ha x); auto. }
          rewrite IHm; [apply K|]. intros x z Hx He. apply K. apply K in Hx. apply (Ha x); auto. }
        assert (K : forall z, In z (widen r acc) <-> In z acc). { intros z. rewrite A. split; auto. intros [?|(x & Hx & He)]; auto. apply (D x); auto. }
        assert (Dw : closed (widen r acc)). { intros x z Hx He. apply K. apply K in Hx. apply (D x); auto. }
        intros x y Hx He. apply Hfix; auto. apply Hfix in Hx; auto. apply (Dw x); auto.
  Qed.
  Lemma ancestors_spec o y : node (graph r) o -> (In y (ancestors r o) <-> path r y o /\ y <> o).
  Proof.
    intros Ho. unfold ancestors. rewrite filter_In, negb_true_iff, Nat.eqb_neq.
    destruct (iter_widen o (length (rep_nodes r)) [o]) as (N & H & Hi & Hc).
    - repeat constructor. intros [].
    - intros z [<- |[]]. split; [exact Ho|left; reflexivity].
    - left; reflexivity.
    - destruct Hc as [Hc|Hc].
      + split.
        * intros [H1 H2]. split; auto. destruct (H y H1) as [_ [?|?]]; [contradiction|auto].
        * intros [Hp Hn]. split; auto. clear Hn. unfold path in Hp. apply clos_trans_t1n in Hp. revert Hi.
          induction Hp as [a b He|a b c He Hbc IH]; intros Hi; [apply (Hc b); auto|].
          apply (Hc b); auto.
      + exfalso. cbn in Hc. assert (L : length (iter (length (rep_nodes r)) (widen r) [o]) <= length (map fst (rep_nodes r))).
        { apply NoDup_incl_length; auto. intros z Hz. apply H in Hz. apply Hz. }
        rewrite map_length in L. lia.
  Qed.
  Lemma leaf_spec y : node (graph r) y -> (leaf r y <-> indeg r y = 0).
  Proof. intros H. unfold leaf. rewrite indeg_zero. tauto. Qed.
  Lemma path_last a b : path r a b -> exists c, edge (graph r) c b.
  Proof. intros H. induction H; eauto. Qed.
  Lemma path_first a b : path r a b -> exists c, edge (graph r) a c.
  Proof. intros H. induction H; eauto. Qed.
  Lemma leaves_of_spec o y : node (graph r) o -> (In y (leaves_of r o) <-> leaf r y /\ path r y o).
  Proof.
    intros Ho. unfold leaves_of. rewrite filter_In, ancestors_spec by exact Ho. rewrite Nat.eqb_eq. split.
    - intros [[Hp Hn] Hd]. split; auto. apply leaf_spec; auto. apply path_first in Hp. destruct Hp as (c & He). apply (wf_ends _ W _ _ He).
    - intros [Hl Hp]. repeat split; auto.
      + intros ->. apply path_last in Hp. destruct Hp as (c & He). destruct Hl as [_ Hl]. apply (Hl c He).
      + apply indeg_zero. apply Hl.
  Qed.
  Lemma kind_of_spec x k : kind_of (rep_nodes r) x = Some k <-> has_node r x k.
  Proof.
    unfold has_node. pose proof (wf_nodes _ W) as Nd. cbn in Nd. induction (rep_nodes r) as [|[y q] l IH]; cbn in *.
    - split; [discriminate|intros []].
    - inversion Nd; subst. destruct (Nat.eqb x y) eqn:E.
      + apply Nat.eqb_eq in E. subst. split; [intros Hq; injection Hq as ->; auto|]. intros [Hq|Hq]; [congruence|].
        exfalso. apply H1. apply (in_map fst) in Hq. exact Hq.
      + apply Nat.eqb_neq in E. rewrite IH by auto. split; auto. intros [Hq|Hq]; auto. congruence.
  Qed.
  Lemma node_kind x : node (graph r) x <-> exists k, has_node r x k.
  Proof.
    unfold node, has_node. cbn. rewrite in_map_iff. split.
    - intros ([y k] & <- & H). exists k. exact H.
    - intros (k & H). exists (x, k). auto.
  Qed.
  Lemma full_name_spec x n : node (graph r) x -> (named r x n <-> full_name r x = n).
  Proof.
    intros Hx. apply node_kind in Hx. destruct Hx as (k & Hk). unfold named, full_name.
    pose proof Hk as Hk'. apply kind_of_spec in Hk'. rewrite Hk'. split.
    - intros (k' & H & ->). apply kind_of_spec in H. rewrite H in Hk'. injection Hk' as ->. destruct k; reflexivity.
    - intros <-. exists k. split; [exact Hk|]. destruct k; reflexivity.
  Qed.
  Lemma registered_spec o : In o (registered_outputs r) <-> final_output r o.
  Proof.
    unfold registered_outputs, final_output, has_node. rewrite in_flat_map. split.
    - intros ([x k] & H & Hi). cbn [snd fst] in Hi. destruct k as [v| |]; try contradiction.
      destruct (Nat.eqb (outdeg r x) 0 && (qv_output v && negb (qv_auto v))) eqn:E; [|contradiction]. destruct Hi as [<- |[]].
      rewrite !andb_true_iff, negb_true_iff, Nat.eqb_eq in E. destruct E as (E1 & E2 & E3). exists v. repeat split; auto. apply outdeg_zero, E1.
    - intros (v & H & H1 & H2 & H3). exists (o, QVar v). split; auto. cbn [snd fst]. apply outdeg_zero in H3. rewrite H3, H1, H2. left; reflexivity.
  Qed.
  Lemma final_node o : final_output r o -> node (graph r) o.
  Proof. intros (v & H & _). apply node_kind. eauto. Qed.
End Anc.

(** ** The two dictionaries *)
Lemma smem_In n l : smem n l = true <-> In n l.
Proof. apply smem_spec. Qed.
Lemma sadd_In n l x : In x (sadd n l) <-> x = n \/ In x l.
Proof.
  unfold sadd. destruct (smem n l) eqn:E.
  - apply smem_In in E. split; auto. intros [-> |?]; auto.
  - rewrite in_app_iff. cbn. intuition.
Qed.
Lemma sadd_NoDup n l : NoDup l -> NoDup (sadd n l).
Proof. intros H. unfold sadd. destruct (smem n l) eqn:E; auto. apply NoDup_app_single; auto. apply smem_false. exact E. Qed.
Section Second.
  Variables (f : nat * nat -> string * string).
  Let step := fun (d : dict (list string)) ol => dset d (snd (f ol)) (sadd (fst (f ol)) (match dget d (snd (f ol)) with Some l => l | None => [] end)).
  Lemma second_spec ps : forall d, let out := fold_left step ps d in
    (forall a b, (exists l, dget out a = Some l /\ In b l) <-> (exists l, dget d a = Some l /\ In b l) \/ exists p, In p ps /\ f p = (b, a)) /\
    ((forall a l, dget d a = Some l -> l <> [] /\ NoDup l) -> forall a l, dget out a = Some l -> l <> [] /\ NoDup l) /\
    (NoDup (dkeys d) -> NoDup (dkeys out)).
  Proof.
    induction ps as [|p ps IH]; intros d; cbn [fold_left].
    - split; [|auto]. intros a b. split; auto. intros [H|(p & [] & _)]; auto.
    - destruct (IH (step d p)) as (A & B & C). destruct (f p) as [n2 n1] eqn:Ef.
      assert (Es : step d p = dset d n1 (sadd n2 (match dget d n1 with Some l => l | None => [] end))) by (unfold step; rewrite Ef; reflexivity).
      split; [|split].
      + intros a b. rewrite A. rewrite Es. destruct (string_dec a n1) as [-> |Hn].
        * rewrite dget_dset_same. split.
          -- intros [(l & E & Hb)|(q & Hq & E)]; [|right; exists q; split; [right|]; auto]. injection E as <-. apply sadd_In in Hb. destruct Hb as [-> |Hb].
             ++ right. exists p. split; [left|]; auto.
             ++ left. destruct (dget d n1) as [l|]; [eauto|destruct Hb].
          -- intros [(l & E & Hb)|(q & [<- |Hq] & E)].
             ++ left. rewrite E. eexists. split; [reflexivity|]. apply sadd_In; auto.
             ++ left. eexists. split; [reflexivity|]. apply sadd_In. rewrite Ef in E. injection E as ->. auto.
             ++ right. eauto.
        * rewrite dget_dset_other by exact Hn. split.
          -- intros [H|(q & Hq & E)]; auto. right. exists q. split; [right|]; auto.
          -- intros [H|(q & [<- |Hq] & E)]; auto. rewrite Ef in E. injection E as ? ?. congruence. right; eauto.
      + intros H. apply B. intros a l. rewrite Es. destruct (string_dec a n1) as [-> |Hn].
        * rewrite dget_dset_same. intros E. injection E as <-. split.
          -- intros E. assert (K : In n2 (sadd n2 match dget d n1 with Some l => l | None => [] end)) by (apply sadd_In; auto). rewrite E in K. exact K.
          -- apply sadd_NoDup. destruct (dget d n1) eqn:E; [|constructor]. apply (H _ _ E).
        * rewrite dget_dset_other by exact Hn. apply H.
      + intros H. apply C. rewrite Es. apply NoDup_dset, H.
  Qed.
End Second.
Section First.
  Variables (kf : nat -> string) (vf : nat -> list nat).
  Lemma first_spec ps : forall d, let out := fold_left (fun d o => dset d (kf o) (vf o)) ps d in
    (forall a, In a (dkeys out) <-> In a (dkeys d) \/ exists o, In o ps /\ kf o = a) /\
    (NoDup (dkeys d) -> NoDup (dkeys out)) /\
    (forall a l, dget out a = Some l -> dget d a = Some l \/ exists o, In o ps /\ kf o = a /\ l = vf o).
  Proof.
    induction ps as [|p ps IH]; intros d; cbn [fold_left].
    - split; [|split; auto]. intros a. split; auto. intros [H|(o & [] & _)]; auto.
    - destruct (IH (dset d (kf p) (vf p))) as (A & B & C). split; [|split].
      + intros a. rewrite A, In_dkeys_dset. split.
        * intros [[H|H]|(o & H & E)]; auto; right; [exists p|exists o]; split; auto; [left|right]; auto.
        * intros [H|(o & [<- |H] & E)]; auto. right. eauto.
      + intros H. apply B, NoDup_dset, H.
      + intros a l H. apply C in H. destruct H as [H|(o & Ho & H)].
        * destruct (string_dec a (kf p)) as [-> |Hn].
          -- rewrite dget_dset_same in H. injection H as <-. right. exists p. split; [left|]; auto.
          -- rewrite dget_dset_other in H by exact Hn. auto.
        * right. exists o. split; [right|]; auto.
  Qed.
End First.

(** ** Longest walk *)
Section Longest.
  Variable r : rep.
  Hypothesis W : well_formed r.
  Lemma walk_last n x z : walk r (S n) x z -> exists y, walk r n x y /\ edge (graph r) y z.
  Proof.
    revert x. induction n as [|n IH]; intros x H; inversion H as [|? ? y ? He Hw]; subst.
    - inversion Hw; subst. exists x. split; auto. constructor. apply (wf_ends _ W _ _ He).
    - apply IH in Hw. destruct Hw as (u & H1 & H2). exists u. split; auto. econstructor; eauto.
  Qed.
  Lemma walk_snoc n x y z : walk r n x y -> edge (graph r) y z -> walk r (S n) x z.
  Proof.
    intros H He. induction H as [x Hx|n x u y Hu Hw IH].
    - econstructor; [exact He|]. constructor. apply (wf_ends _ W _ _ He).
    - econstructor; eauto.
  Qed.
  Lemma walk_node n x y : walk r n x y -> node (graph r) y.
  Proof. induction 1; auto. Qed.
  Definition table (d : list (nat * nat)) : Prop :=
    forall x n, In (x, n) d -> (exists y, walk r n y x) /\ forall m y, walk r m y x -> m <= n.
  Lemma distances_snoc l x : distances r (l ++ [x]) = distances r l ++ [(x, longest_to r (distances r l) x)].
  Proof. unfold distances. rewrite fold_left_app. reflexivity. Qed.
  Lemma distances_fst l : map fst (distances r l) = l.
  Proof. induction l as [|x l IH] using rev_ind; [reflexivity|]. rewrite distances_snoc, map_app, IH. reflexivity. Qed.
  Lemma dist_of_In d x n : NoDup (map fst d) -> In (x, n) d -> dist_of d x = n.
  Proof. intros N H. unfold dist_of. rewrite (@iget_In _ Nat.eqb nat_eqb_spec d x n N H). reflexivity. Qed.
  Lemma distances_ok l : NoDup l -> (forall v, In v l -> node (graph r) v) ->
    (forall l1 v l2, l = l1 ++ v :: l2 -> forall p, edge (graph r) p v -> In p l1) -> table (distances r l).
  Proof.
    induction l as [|x l IH] using rev_ind; intros N Hn Ho; [intros ? ? []|].
    assert (N' : NoDup l) by (apply NoDup_app_iff in N; apply N).
    assert (T : table (distances r l)).
    { apply IH; auto. intros v Hv; apply Hn, in_app_iff; auto. intros l1 v l2 -> p He. apply (Ho l1 v (l2 ++ [x])); auto. rewrite <- app_assoc. reflexivity. }
    rewrite distances_snoc. intros y n H. apply in_app_iff in H. destruct H as [H|[E|[]]]; [apply T, H|]. injection E as <- <-.
    assert (P : forall p, edge (graph r) p x -> exists k, In (p, k) (distances r l) /\ dist_of (distances r l) p = k).
    { intros p He. assert (Hp : In p l) by (apply (Ho l x []); auto). rewrite <- (distances_fst l) in Hp. apply in_map_iff in Hp.
      destruct Hp as ([p' k] & <- & Hk). exists k. split; auto. apply dist_of_In; auto. rewrite distances_fst. exact N'. }
    unfold longest_to. set (ds := map (fun u => dist_of (distances r l) u + 1) (preds Nat.eqb (graph r) x)).
    destruct (fold_max_ge ds 0) as [_ G]. split.
    - destruct (fold_max_In ds 0) as [E|Hi].
      + rewrite E. exists x. constructor. apply Hn, in_app_iff. right; left; reflexivity.
      + unfold ds in Hi at 2. apply in_map_iff in Hi. destruct Hi as (p & E & Hp). apply preds_edge in Hp. destruct (P p Hp) as (k & Hk & Ek). rewrite Ek in E.
        destruct (T p k Hk) as [(y & Hy) _]. exists y. rewrite <- E, Nat.add_1_r. eapply walk_snoc; eauto.
    - intros m y Hw. destruct m as [|m]; [lia|]. apply walk_last in Hw. destruct Hw as (p & Hw & He). destruct (P p He) as (k & Hk & Ek).
      destruct (T p k Hk) as [_ B]. specialize (B m y Hw).
      assert (Hi : In (dist_of (distances r l) p + 1) ds). { unfold ds. apply in_map_iff. exists p. split; auto. apply preds_edge, He. }
      specialize (G _ Hi). lia.
  Qed.
  Lemma longest_spec : match predict_computation_time_parallel r with
    | Ok n => ~ has_cycle (graph r) /\ ((rep_nodes r <> [] -> exists x y, walk r n x y) /\ (rep_nodes r = [] -> n = 0) /\ forall m x y, walk r m x y -> m <= n)
    | Err e => has_cycle (graph r) /\ rep_nodes r <> [] end.
  Proof.
    unfold predict_computation_time_parallel. pose proof (@topological_sort_spec _ Nat.eqb nat_eqb_spec (graph r) W) as HS.
    destruct (rep_nodes r) as [|nk nodes] eqn:Er.
    - assert (Hn : forall x, ~ node (graph r) x) by (intros x Hx; unfold node in Hx; cbn in Hx; rewrite Er in Hx; exact Hx). split; [|split; [|split]]; auto.
      + intros (v & Hv). apply path_first in Hv. destruct Hv as (c & Hc). apply (Hn v), (wf_ends _ W _ _ Hc).
      + congruence.
      + intros m x y Hw. apply walk_node in Hw. destruct (Hn _ Hw).
    - destruct (topological_sort Nat.eqb (graph r)) as [l|e]; cbn [bind]; [|split; [exact HS|discriminate]].
      destruct HS as [HP HO].
      assert (Nl : NoDup l) by (eapply Permutation_NoDup; [symmetry; exact HP|apply (wf_nodes _ W)]).
      assert (Hl : forall v, In v l <-> node (graph r) v) by (intros v; split; intros H; [eapply Permutation_in; [exact HP|exact H]|eapply Permutation_in; [symmetry; exact HP|exact H]]).
      assert (T : table (distances r l)) by (apply distances_ok; auto; intros v Hv; apply Hl, Hv).
      destruct (map snd (distances r l)) as [|d0 ds] eqn:Ed.
      { exfalso. apply map_eq_nil in Ed. pose proof (distances_fst l) as F. rewrite Ed in F. cbn in F. subst l.
        assert (K : In (fst nk) []) by (apply Hl; unfold node; cbn; rewrite Er; left; reflexivity). exact K. }
      cbn [np_max]. split; [|split; [|split]].
      + eapply (@clos_trans_precedes _ (graph r) W l); auto. intros v Hv. apply Hl, Hv.
      + intros _. assert (Hi : In (fold_left Nat.max ds d0) (map snd (distances r l))).
        { rewrite Ed. destruct (fold_max_In ds d0) as [-> |?]; [left|right]; auto. }
        apply in_map_iff in Hi. destruct Hi as ([x k] & E & Hi). cbn in E. subst k. destruct (T x _ Hi) as [(y & Hy) _]. eauto.
      + discriminate.
      + intros m x y Hw. pose proof (walk_node _ _ _ Hw) as Hy. apply Hl in Hy. rewrite <- (distances_fst l) in Hy. apply in_map_iff in Hy. destruct Hy as ([y' k] & E & Hi). cbn in E. subst y'.
        destruct (T y k Hi) as [_ B]. specialize (B m x Hw). apply (in_map snd) in Hi. rewrite Ed in Hi. cbn in Hi. destruct (fold_max_ge ds d0) as [G1 G2]. destruct Hi as [<- |Hi]; [lia|]. specialize (G2 _ Hi). lia.
  Qed.
End Longest.
