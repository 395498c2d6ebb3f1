From Verif Require Import PyBase NamesModel Digraph TopoModel TopoProofs QueryModel QuerySpec.
From Coq Require Import Lia Permutation Relation_Operators Operators_Properties.
Local Open Scope list_scope.

Lemma nat_eqb_spec : forall x y : nat, Nat.eqb x y = true <-> x = y.
Proof. exact Nat.eqb_eq. Qed.

(** ** Recursion into implicit operations *)
Fixpoint rep_size (r : rep) : nat :=
  match r with Rep nodes _ => S ((fix go (l : list (nat * knd rep)) : nat :=
     match l with [] => 0 | (_, QImp _ _ s) :: t => rep_size s + go t | _ :: t => go t end) nodes) end.
Lemma nested_smaller r s : In s (nested r) -> rep_size s < rep_size r.
Proof.
  destruct r as [nodes edges]. unfold nested. cbn [rep_nodes rep_size].
  induction nodes as [|[x k] t IH]; cbn [flat_map snd]; [intros []|].
  rewrite in_app_iff. destruct k; cbn; intros [H|H]; try contradiction; auto.
  - destruct H as [<- |[]]. lia.
  - specialize (IH H). lia.
Qed.
Lemma rep_induction (P : rep -> Prop) : (forall r, (forall s, In s (nested r) -> P s) -> P r) -> forall r, P r.
Proof.
  intros H r. remember (rep_size r) as n eqn:E. revert r E.
  induction n as [n IH] using (well_founded_induction Wf_nat.lt_wf). intros r ->.
  apply H. intros s Hs. eapply IH; [|reflexivity]. apply nested_smaller, Hs.
Qed.
Lemma rec_eq {B} (f : rep -> list B -> B) r : rec f r = f r (map (rec f) (nested r)).
Proof.
  destruct r as [nodes edges]. cbn [rec]. f_equal. unfold nested. cbn [rep_nodes].
  induction nodes as [|[x k] t IH]; [reflexivity|]. cbn [flat_map snd]. destruct k; cbn [map app]; try exact IH. f_equal. exact IH.
Qed.
Lemma all_reps_eq r : all_reps r = r :: flat_map all_reps (nested r).
Proof.
  destruct r as [nodes edges]. cbn [all_reps]. f_equal. unfold nested. cbn [rep_nodes].
  induction nodes as [|[x k] t IH]; [reflexivity|]. cbn [flat_map snd]. rewrite flat_map_app, IH. f_equal. destruct k; cbn; rewrite ?app_nil_r; reflexivity.
Qed.
Lemma In_all_reps r s : In s (all_reps r) <-> s = r \/ exists u, In u (nested r) /\ In s (all_reps u).
Proof. rewrite all_reps_eq. cbn. rewrite in_flat_map. split; (intros [H|H]; [left; congruence|right; exact H]). Qed.

Lemma flat_map_flat_map {A B C} (f : B -> list C) (g : A -> list B) l :
  flat_map f (flat_map g l) = flat_map (fun x => flat_map f (g x)) l.
Proof. induction l; cbn; [reflexivity|]. rewrite flat_map_app, IHl. reflexivity. Qed.
Lemma flat_map_ext_In {A B} (f g : A -> list B) l : (forall x, In x l -> f x = g x) -> flat_map f l = flat_map g l.
Proof. induction l as [|a l IH]; cbn; [reflexivity|]. intros H. rewrite H by (left; reflexivity). rewrite IH; auto. Qed.
Lemma list_sum_flat_map {A} (f : A -> list nat) l : list_sum (flat_map f l) = list_sum (map (fun x => list_sum (f x)) l).
Proof. induction l; [reflexivity|]. cbn [flat_map]. rewrite list_sum_app, IHl. reflexivity. Qed.
Lemma map_flat_map {A B C} (f : B -> C) (g : A -> list B) l : map f (flat_map g l) = flat_map (fun x => map f (g x)) l.
Proof. induction l; cbn; [reflexivity|]. rewrite map_app, IHl. reflexivity. Qed.

Lemma rec_concat {B} (own : rep -> list B) r :
  rec (fun r subs => own r ++ concat subs) r = flat_map own (all_reps r).
Proof.
  induction r as [r IH] using rep_induction. rewrite rec_eq, all_reps_eq. cbn [flat_map]. f_equal.
  rewrite flat_map_flat_map, <- flat_map_concat_map. apply flat_map_ext_In. exact IH.
Qed.
Lemma rec_sum (f : rep -> list nat -> nat) (own : rep -> nat) r :
  (forall r l, f r l = own r + list_sum l) -> rec f r = list_sum (map own (all_reps r)).
Proof.
  intros Hf. induction r as [r IH] using rep_induction. rewrite rec_eq, all_reps_eq, Hf. cbn [map list_sum fold_right].
  change (fold_right Nat.add 0) with list_sum. f_equal. rewrite map_flat_map, list_sum_flat_map. f_equal.
  apply map_ext_in. exact IH.
Qed.

(** ** Degrees *)
Lemma graph_edges r : g_edges (graph r) = rep_edges r.
Proof. reflexivity. Qed.
Lemma edge_graph r a b : edge (graph r) a b <-> In (a, b) (rep_edges r).
Proof. reflexivity. Qed.
Lemma preds_edge r x p : In p (preds Nat.eqb (graph r) x) <-> edge (graph r) p x.
Proof. apply In_preds, nat_eqb_spec. Qed.
Lemma succs_edge r x p : In p (succs Nat.eqb (graph r) x) <-> edge (graph r) x p.
Proof. apply In_succs, nat_eqb_spec. Qed.
Lemma length_zero {A} (l : list A) : length l = 0 <-> forall x, ~ In x l.
Proof. destruct l; cbn; split; auto; [intros; discriminate|]. intros H. exfalso. eapply H. left; reflexivity. Qed.
Lemma indeg_zero r x : indeg r x = 0 <-> forall y, ~ edge (graph r) y x.
Proof. unfold indeg. rewrite length_zero. split; intros H y Hy; apply (H y); apply preds_edge, Hy. Qed.
Lemma outdeg_zero r x : outdeg r x = 0 <-> forall y, ~ edge (graph r) x y.
Proof. unfold outdeg. rewrite length_zero. split; intros H y Hy; apply (H y); [apply succs_edge, Hy|apply succs_edge, Hy]. Qed.
Lemma indeg_count r x n : well_formed r -> (indeg r x = n <-> exists l, NoDup l /\ (forall y, In y l <-> edge (graph r) y x) /\ length l = n).
Proof.
  intros W. split.
  - intros <-. exists (preds Nat.eqb (graph r) x). split; [apply (NoDup_preds Nat.eqb nat_eqb_spec), W|]. split; [intros y; apply preds_edge|reflexivity].
  - intros (l & Hl & Hi & <-). unfold indeg. apply Permutation_length, NoDup_Permutation; auto.
    + apply (NoDup_preds Nat.eqb nat_eqb_spec), W.
    + intros y. rewrite preds_edge, Hi. reflexivity.
Qed.

(** Sum of the numbers of successors of a set of nodes *)
Lemma sum_outdeg (E : list (nat * nat)) (l : list nat) : NoDup l ->
  list_sum (map (fun x => length (filter (fun e => Nat.eqb x (fst e)) E)) l) = length (filter (fun e => existsb (Nat.eqb (fst e)) l) E).
Proof.
  induction E as [|[a b] E IH]; intros Hl.
  - cbn. induction l; cbn; auto. apply IHl. inversion Hl; auto.
  - cbn [filter fst]. specialize (IH Hl).
    assert (H : list_sum (map (fun x => length (if Nat.eqb x a then (a, b) :: filter (fun e => Nat.eqb x (fst e)) E else filter (fun e => Nat.eqb x (fst e)) E)) l)
              = (if existsb (Nat.eqb a) l then 1 else 0) + list_sum (map (fun x => length (filter (fun e => Nat.eqb x (fst e)) E)) l)).
    { clear IH. induction l as [|x l IHl]; [reflexivity|]. inversion Hl as [|? ? Hx Hl']; subst. specialize (IHl Hl').
      cbn [map existsb]. change (list_sum (?u :: ?v)) with (u + list_sum v). rewrite IHl.
      change (list_sum (map ?f (x :: l))) with (f x + list_sum (map f l)).
      destruct (Nat.eqb x a) eqn:E1.
      - apply Nat.eqb_eq in E1. subst. rewrite Nat.eqb_refl. cbn [orb].
        replace (existsb (Nat.eqb a) l) with false. { cbn. lia. }
        symmetry. apply not_true_is_false. intros H. apply existsb_exists in H. destruct H as (y & Hy & E2). apply Nat.eqb_eq in E2. subst. contradiction.
      - replace (Nat.eqb a x) with false by (rewrite Nat.eqb_sym; auto). cbn [orb]. destruct (existsb (Nat.eqb a) l); lia. }
    rewrite H, IH. destruct (existsb (Nat.eqb a) l); reflexivity.
Qed.
Lemma sum_indeg (E : list (nat * nat)) (l : list nat) : NoDup l ->
  list_sum (map (fun x => length (filter (fun e => Nat.eqb x (snd e)) E)) l) = length (filter (fun e => existsb (Nat.eqb (snd e)) l) E).
Proof.
  intros Hl. pose proof (sum_outdeg (map (fun e => (snd e, fst e)) E) l Hl) as H.
  assert (G : forall (p : nat * nat -> bool) q, (forall e, p (snd e, fst e) = q e) ->
     length (filter p (map (fun e => (snd e, fst e)) E)) = length (filter q E)).
  { clear H. intros p q Hpq. induction E as [|e E IH]; [reflexivity|]. cbn [map filter]. rewrite Hpq. destruct (q e); cbn; rewrite ?IH; reflexivity. }
  rewrite (G _ (fun e => existsb (Nat.eqb (snd e)) l)) in H by reflexivity. rewrite <- H. f_equal.
  apply map_ext. intros x. symmetry. apply G. reflexivity.
Qed.

Lemma NoDup_filter_fst {B} (p : nat * B -> bool) l : NoDup (map fst l) -> NoDup (map fst (filter p l)).
Proof.
  induction l as [|a l IH]; cbn; auto. intros H. inversion H; subst. destruct (p a); cbn; auto.
  constructor; auto. intros Hi. apply H2. apply in_map_iff in Hi. destruct Hi as (b & <- & Hb). apply in_map. apply filter_In in Hb. tauto.
Qed.
Lemma count_edges r : well_formed r -> list_sum (own_uses r) + list_sum (own_outs r) = length (rep_edges r).
Proof.
  intros W. pose proof (wf_nodes _ W) as Nd. cbn in Nd. unfold own_uses, own_outs, own_ops, outdeg, succs, is_operation.
  rewrite <- (map_map fst (fun x => length (map snd (filter (fun e => Nat.eqb x (fst e)) (g_edges (graph r)))))).
  rewrite <- (map_map fst (fun x => length (map snd (filter (fun e => Nat.eqb x (fst e)) (g_edges (graph r)))))).
  rewrite <- list_sum_app, <- map_app.
  rewrite (map_ext _ (fun x => length (filter (fun e => Nat.eqb x (fst e)) (g_edges (graph r))))) by (intros; apply map_length).
  set (P := fun nk : nat * knd rep => is_variable (snd nk)).
  assert (Pm : Permutation (map fst (filter P (rep_nodes r)) ++ map fst (filter (fun nk => negb (P nk)) (rep_nodes r))) (map fst (rep_nodes r))).
  { rewrite <- map_app. apply Permutation_map. clear. induction (rep_nodes r) as [|a l IH]; cbn; auto.
    destruct (P a); cbn; [constructor; exact IH|]. etransitivity; [symmetry; apply Permutation_middle|]. constructor; exact IH. }
  rewrite sum_outdeg. 2:{ eapply Permutation_NoDup; [symmetry; exact Pm|exact Nd]. }
  rewrite graph_edges. f_equal. rewrite filter_ext_in with (g := fun _ => true).
  - induction (rep_edges r); cbn; congruence.
  - intros [a b] He. apply existsb_exists. exists a. split; [|apply Nat.eqb_refl].
    eapply Permutation_in; [symmetry; exact Pm|]. destruct (wf_ends _ W a b He) as [Ha _]. exact Ha.
Qed.
Lemma count_args r : well_formed r ->
  list_sum (own_args r) = length (filter (fun e => existsb (fun nk => Nat.eqb (fst nk) (snd e) && negb (is_variable (snd nk))) (rep_nodes r)) (rep_edges r)).
Proof.
  intros W. pose proof (wf_nodes _ W) as Nd. cbn in Nd. unfold own_args, own_ops, indeg, preds, is_operation.
  rewrite <- (map_map fst (fun x => length (map fst (filter (fun e => Nat.eqb x (snd e)) (g_edges (graph r)))))).
  rewrite (map_ext _ (fun x => length (filter (fun e => Nat.eqb x (snd e)) (g_edges (graph r))))) by (intros; apply map_length).
  rewrite sum_indeg by (apply NoDup_filter_fst, Nd). rewrite graph_edges. f_equal. apply filter_ext. intros [a b]. cbn [snd].
  clear. induction (rep_nodes r) as [|[x k] l IH]; cbn; auto. rewrite <- IH. rewrite (Nat.eqb_sym x b). destruct (is_variable k); cbn.
  - rewrite andb_false_r. reflexivity.
  - rewrite andb_true_r. reflexivity.
Qed.

(** ** Sizes and their distribution *)
From Coq Require Import Sorted.
Definition counted (l : list (nat * nat)) (xs : list nat) : Prop :=
  StronglySorted lt (map fst l) /\ forall s n, In (s, n) l <-> n = count_occ Nat.eq_dec xs s /\ 0 < n.
Lemma count_into_keys x l y : In y (map fst (count_into x l)) <-> y = x \/ In y (map fst l).
Proof.
  induction l as [|[a n] t IH]; cbn [count_into]; [cbn; intuition|]. destruct (Nat.eqb x a) eqn:E.
  - apply Nat.eqb_eq in E. subst. cbn. intuition.
  - destruct (Nat.ltb x a); cbn; [intuition|]. rewrite IH. intuition.
Qed.
Lemma count_into_sorted x l : StronglySorted lt (map fst l) -> StronglySorted lt (map fst (count_into x l)).
Proof.
  induction l as [|[a n] t IH]; cbn [count_into]; intros H; [repeat constructor|].
  inversion H as [|? ? H1 H2]; subst. destruct (Nat.eqb x a) eqn:E; [cbn; constructor; auto|].
  apply Nat.eqb_neq in E. destruct (Nat.ltb x a) eqn:E2.
  - apply Nat.ltb_lt in E2. cbn. constructor; [exact H|]. constructor; [exact E2|]. rewrite Forall_forall in *. intros y Hy. specialize (H2 y Hy). lia.
  - apply Nat.ltb_ge in E2. cbn. constructor; [apply IH, H1|]. rewrite Forall_forall in *. intros y Hy.
    apply count_into_keys in Hy. destruct Hy as [-> |Hy]; [lia|apply H2, Hy].
Qed.
Lemma count_into_In x l s n : StronglySorted lt (map fst l) ->
  (In (s, n) (count_into x l) <-> (s <> x /\ In (s, n) l) \/ (s = x /\ ((exists m, n = S m /\ In (x, m) l) \/ (n = 1 /\ ~ In x (map fst l))))).
Proof.
  induction l as [|[a k] t IH]; cbn [count_into]; intros H.
  - cbn. split.
    + intros [E|[]]. injection E as <- <-. right. split; auto.
    + intros [[_ []]|[-> [(m & _ & [])|[-> _]]]]. auto.
  - inversion H as [|? ? H1 H2]; subst. cbn in H2. rewrite Forall_forall in H2. destruct (Nat.eqb x a) eqn:E.
    + apply Nat.eqb_eq in E. subst a.
      assert (Hx : ~ In x (map fst t)) by (intros Hx; specialize (H2 x Hx); lia).
      assert (Hy : forall m, ~ In (x, m) t) by (intros m Hm; apply Hx; apply (in_map fst) in Hm; exact Hm).
      cbn. split.
      * intros [E|Hi]; [injection E as <- <-; right; split; auto; left; exists k; auto|].
        left. split; [|auto]. intros ->. apply (Hy _ Hi).
      * intros [[Hn [E|Hi]]|[-> [(m & -> & [E|Hi])|[-> Hn]]]]; auto.
        -- injection E as <- <-. contradiction.
        -- injection E as <-. auto.
        -- destruct (Hy _ Hi).
        -- destruct Hn. auto.
    + apply Nat.eqb_neq in E. destruct (Nat.ltb x a) eqn:E2.
      * apply Nat.ltb_lt in E2.
        assert (Hx : ~ In x (map fst ((a, k) :: t))) by (cbn; intros [Hx|Hx]; [congruence|specialize (H2 x Hx); lia]).
        change (In (s, n) ((x, 1) :: (a, k) :: t)) with ((x, 1) = (s, n) \/ In (s, n) ((a, k) :: t)).
        split.
        -- intros [Eq|Hi]; [injection Eq as <- <-; right; split; auto|]. left. split; [|auto]. intros ->. apply Hx. apply (in_map fst) in Hi. exact Hi.
        -- intros [[_ Hi]|[-> [(m & -> & Hi)|[-> _]]]]; auto. destruct Hx. apply (in_map fst) in Hi. exact Hi.
      * cbn [In]. rewrite (IH H1). cbn [map fst In]. split.
        -- intros [Eq|[[Hn Hi]|[-> [(m & -> & Hi)|[-> Hi]]]]].
           ++ injection Eq as <- <-. left. split; auto.
           ++ left; auto.
           ++ right. split; auto. left. exists m. auto.
           ++ right. split; auto. right. split; auto. intros [?|?]; congruence.
        -- intros [[Hn [Eq|Hi]]|[-> [(m & -> & [Eq|Hi])|[-> Hi]]]]; auto.
           ++ congruence.
           ++ right. right. split; auto. left. exists m; auto.
           ++ right. right. split; [reflexivity|]. right. split; [reflexivity|]. tauto.
Qed.
Lemma counted_snoc l xs x : counted l xs -> counted (count_into x l) (xs ++ [x]).
Proof.
  intros [H1 H2]. split; [apply count_into_sorted, H1|]. intros s n. rewrite (count_into_In x l s n H1). rewrite count_occ_app. cbn.
  destruct (Nat.eq_dec x s) as [-> |Hn].
  - split.
    + intros [[? _]|[_ [(m & -> & Hi)|[-> Hi]]]]; [congruence| |].
      * apply H2 in Hi. lia.
      * assert (count_occ Nat.eq_dec xs s = 0); [|lia].
        destruct (count_occ Nat.eq_dec xs s) eqn:E; auto. exfalso. apply Hi. assert (Hj : In (s, S n) l) by (apply H2; lia). apply (in_map fst) in Hj. exact Hj.
    + intros [-> Hp]. right. split; auto. destruct (count_occ Nat.eq_dec xs s) as [|m] eqn:E.
      * right. split; [reflexivity|]. intros Hi. apply in_map_iff in Hi. destruct Hi as ([s' m] & <- & Hi). apply H2 in Hi. cbn in E. lia.
      * left. exists (S m). split; [lia|]. apply H2. lia.
  - rewrite Nat.add_0_r. rewrite H2. split.
    + intros [[_ H]|[-> _]]; [exact H|congruence].
    + intros H. left. split; auto.
Qed.
Lemma distribution_counted xs : counted (fold_left (fun l x => count_into x l) xs []) xs.
Proof.
  assert (G : forall ys l zs, counted l zs -> counted (fold_left (fun l x => count_into x l) ys l) (zs ++ ys)).
  { induction ys as [|y ys IH]; intros l zs H; cbn; [rewrite app_nil_r; exact H|].
    replace (zs ++ y :: ys) with ((zs ++ [y]) ++ ys) by (rewrite <- app_assoc; reflexivity). apply IH, counted_snoc, H. }
  apply (G xs [] []). split; [constructor|]. cbn. intros; split; [intros []|lia].
Qed.

(** ** Inputs and outputs *)
Lemma count_vars_list sel vec r l : NoDup (map fst (rep_nodes r)) -> NoDup l ->
  (forall x v, In (x, v) l <-> QuerySpec.has_node r x (QVar v) /\ sel (indeg r x) = true) ->
  count_vars sel vec r = list_sum (map (fun xv => var_weight vec (snd xv)) l).
Proof.
  intros Nd Nl Hl. unfold count_vars.
  set (g := fun nk : nat * knd rep => match snd nk with QVar v => if sel (indeg r (fst nk)) then [(fst nk, v)] else [] | _ => [] end).
  transitivity (list_sum (map (fun xv : nat * qvar => var_weight vec (snd xv)) (flat_map g (rep_nodes r)))).
  - rewrite map_flat_map. f_equal. apply flat_map_ext. intros [x k]. unfold g. cbn [snd fst]. destruct k; auto. destruct (sel (indeg r x)); reflexivity.
  - assert (P : Permutation (flat_map g (rep_nodes r)) l).
    { apply NoDup_Permutation; auto.
      - assert (K : NoDup (map fst (flat_map g (rep_nodes r)))); [|apply NoDup_map_inv in K; exact K].
        clear Hl. induction (rep_nodes r) as [|[x k] t IH]; [constructor|]. cbn in Nd. inversion Nd; subst. cbn [flat_map]. rewrite map_app. unfold g at 1. cbn [snd fst].
        assert (Q : forall y, In y (map fst (flat_map g t)) -> In y (map fst t)).
        { intros y Hy. apply in_map_iff in Hy. destruct Hy as ([y' v] & <- & Hy). apply in_flat_map in Hy. destruct Hy as ([z k'] & Hz & Hy).
          unfold g in Hy. cbn [snd fst] in Hy. destruct k'; try contradiction. destruct (sel (indeg r z)); [|contradiction]. destruct Hy as [E|[]]. injection E as <- <-. apply (in_map fst) in Hz. exact Hz. }
        destruct k; cbn [map app]; auto. destruct (sel (indeg r x)); cbn [map app fst]; auto. constructor; auto.
      - intros [x v]. rewrite Hl. unfold QuerySpec.has_node. rewrite in_flat_map. split.
        + intros ([z k] & Hz & Hy). unfold g in Hy. cbn [snd fst] in Hy. destruct k; try contradiction. destruct (sel (indeg r z)) eqn:E; [|contradiction]. destruct Hy as [E1|[]]. injection E1 as <- <-. auto.
        + intros [Hz Hs]. exists (x, QVar v). split; auto. unfold g. cbn [snd fst]. rewrite Hs. left; reflexivity. }
    assert (Q : forall a b, Permutation a b -> list_sum a = list_sum b).
    { intros a b H. unfold list_sum. induction H; cbn; lia. }
    apply Q, Permutation_map, P.
Qed.
Lemma count_vars_total vec r : count_vars (Nat.eqb 0) vec r + count_vars (Nat.ltb 0) vec r = list_sum (map (var_weight vec) (variables r)).
Proof.
  unfold count_vars, variables. induction (rep_nodes r) as [|[x k] t IH]; [reflexivity|]. cbn [flat_map snd fst]. rewrite map_app, !list_sum_app, <- IH.
  destruct k; try (cbn; lia). destruct (indeg r x); cbn; lia.
Qed.

(** ** Maximum of the numbers of arguments *)
Lemma max_all_ok l : forall m k, max_all m l = Ok k <->
  (exists ns, l = map Ok ns /\ k = fold_left Nat.max ns m).
Proof.
  induction l as [|x t IH]; intros m k; cbn.
  - split; [intros E; injection E as <-; exists []; auto|]. intros ([|? ?] & E & ->); [reflexivity|discriminate].
  - destruct x as [y|e]; cbn.
    + rewrite IH. split.
      * intros (ns & -> & ->). exists (y :: ns). auto.
      * intros ([|n ns] & E & ->); [discriminate|]. cbn in E. injection E as <- E. exists ns. auto.
    + split; [discriminate|]. intros ([|n ns] & E & _); discriminate.
Qed.
Lemma fold_max_ge l : forall m, m <= fold_left Nat.max l m /\ forall n, In n l -> n <= fold_left Nat.max l m.
Proof.
  induction l as [|x t IH]; intros m; cbn; [split; [lia|intros ? []]|]. destruct (IH (Nat.max m x)) as [H1 H2]. split; [lia|].
  intros n [<- |H]; [lia|apply H2, H].
Qed.
Lemma fold_max_In l : forall m, fold_left Nat.max l m = m \/ In (fold_left Nat.max l m) l.
Proof.
  induction l as [|x t IH]; intros m; cbn; auto. destruct (IH (Nat.max m x)) as [H|H]; [|auto]. rewrite H.
  destruct (Nat.max_spec m x) as [[_ ->]|[_ ->]]; auto.
Qed.
Lemma max_args_err r e : max_arguments_per_operation r = Err e -> e = ValueError.
Proof.
  unfold max_arguments_per_operation. revert e. induction r as [r IH] using rep_induction. intros e. rewrite rec_eq.
  destruct (own_args r) as [|x t]; cbn [np_max bind]; [intros H; injection H; auto|].
  generalize (fold_left Nat.max t x). induction (nested r) as [|s l IHl]; intros m; cbn; [discriminate|].
  destruct (rec _ s) as [k|e'] eqn:E; cbn.
  - apply IHl. intros u Hu. apply IH. right; exact Hu.
  - intros H. injection H as <-. apply (IH s); auto. left; reflexivity.
Qed.
Lemma own_args_In r n : In n (own_args r) <-> exists x k, QuerySpec.has_node r x k /\ is_variable k = false /\ n = indeg r x.
Proof.
  unfold own_args, own_ops, QuerySpec.has_node. rewrite in_map_iff. split.
  - intros ([x k] & <- & H). apply filter_In in H. destruct H as [H1 H2]. exists x, k. cbn in *. unfold is_operation in H2. destruct (is_variable k); try discriminate. auto.
  - intros (x & k & H & Hk & ->). exists (x, k). split; auto. apply filter_In. split; auto. unfold is_operation. cbn. rewrite Hk. reflexivity.
Qed.
Lemma max_args_ok r m : max_arguments_per_operation r = Ok m ->
  (forall s n, In s (all_reps r) -> In n (own_args s) -> n <= m) /\ (exists s, In s (all_reps r) /\ In m (own_args s)) /\
  (forall s, In s (all_reps r) -> own_args s <> []).
Proof.
  unfold max_arguments_per_operation. revert m. induction r as [r IH] using rep_induction. intros m. rewrite rec_eq.
  destruct (own_args r) as [|x t] eqn:Ea; cbn [np_max bind]; [discriminate|]. intros H. apply max_all_ok in H. destruct H as (ns & Hs & ->).
  assert (Hsub : forall s, In s (nested r) -> exists n, In n ns /\ rec (fun r subs => do m <- np_max (own_args r); max_all m subs) s = Ok n).
  { intros s Hin. apply (in_map (rec (fun r subs => do m <- np_max (own_args r); max_all m subs))) in Hin. rewrite Hs in Hin. apply in_map_iff in Hin. destruct Hin as (n & E & Hn). exists n. auto. }
  destruct (fold_max_ge ns (fold_left Nat.max t x)) as [G1 G2]. destruct (fold_max_ge t x) as [G3 G4]. split; [|split].
  - intros s n Hi Hn. apply In_all_reps in Hi. destruct Hi as [-> |(u & Hu & Hi)].
    + rewrite Ea in Hn. cbn in Hn. destruct Hn as [<- |Hn]; [lia|]. specialize (G4 _ Hn). lia.
    + destruct (Hsub u Hu) as (k & Hk & E). destruct (IH u Hu k E) as [A _]. specialize (A s n Hi Hn). specialize (G2 _ Hk). lia.
  - destruct (fold_max_In ns (fold_left Nat.max t x)) as [E|Hi].
    + rewrite E. exists r. split; [apply In_all_reps; auto|]. rewrite Ea. cbn. destruct (fold_max_In t x) as [-> |?]; auto.
    + assert (Hj : In (Ok (fold_left Nat.max ns (fold_left Nat.max t x))) (map (@Ok nat) ns)) by (apply in_map, Hi).
      rewrite <- Hs in Hj. apply in_map_iff in Hj. destruct Hj as (u & E & Hu). destruct (IH u Hu _ E) as (_ & (s & A & B) & _).
      exists s. split; auto. apply In_all_reps. right. exists u; auto.
  - intros s Hi. apply In_all_reps in Hi. destruct Hi as [-> |(u & Hu & Hi)]; [congruence|].
    destruct (Hsub u Hu) as (k & Hk & E). destruct (IH u Hu k E) as (_ & _ & A). auto.
Qed.
Lemma max_args_answers r : (forall s, In s (all_reps r) -> own_args s <> []) -> exists m, max_arguments_per_operation r = Ok m.
Proof.
  unfold max_arguments_per_operation. induction r as [r IH] using rep_induction. intros H. rewrite rec_eq.
  assert (Hr : own_args r <> []) by (apply H, In_all_reps; auto).
  destruct (own_args r) as [|x t]; [contradiction|]. cbn [np_max bind]. generalize (fold_left Nat.max t x).
  assert (Hs : forall s, In s (nested r) -> exists m, rec (fun r subs => do m <- np_max (own_args r); max_all m subs) s = Ok m).
  { intros s Hs. apply IH; auto. intros u Hu. apply H, In_all_reps. right. exists s; auto. }
  clear -Hs. induction (nested r) as [|s l IHl]; intros m; cbn [map max_all]; [exists m; reflexivity|].
  destruct (Hs s (or_introl eq_refl)) as (k & ->). cbn. apply IHl. intros u Hu. apply Hs. right; exact Hu.
Qed.

(** ** Serial cost *)
Definition imps (r : rep) : list (res nat * rep) :=
  flat_map (fun nk => match snd nk with QImp _ it s => [(it, s)] | _ => [] end) (rep_nodes r).
Fixpoint sum_imps (cost : rep -> res nat) (l : list (res nat * rep)) : res nat :=
  match l with [] => Ok 0 | (it, s) :: t => do n <- it; do c <- cost s; do rest <- sum_imps cost t; Ok (c * n + rest) end.
Lemma serial_cost_eq r : serial_cost r = do b <- sum_imps serial_cost (imps r); Ok (explicit_operations r + b).
Proof.
  destruct r as [nodes edges]. cbn [serial_cost]. unfold explicit_operations, imps. cbn [rep_nodes].
  match goal with |- bind ?a ?f = bind ?b ?g => assert (E : a = b); [|rewrite E; reflexivity] end.
  induction nodes as [|[x k] t IH]; [reflexivity|]. destruct k; cbn [flat_map snd app sum_imps]; auto.
  destruct maxiter; cbn; auto. destruct (serial_cost sub); cbn; auto. rewrite IH. reflexivity.
Qed.
Lemma weighted_eq w r : weighted_reps w r = (w, r) :: flat_map (fun is => match fst is with
   | Ok n => weighted_reps (option_map (fun w => w * n) w) (snd is) | Err _ => weighted_reps None (snd is) end) (imps r).
Proof.
  destruct r as [nodes edges]. cbn [weighted_reps]. f_equal. unfold imps. cbn [rep_nodes].
  induction nodes as [|[x k] t IH]; [reflexivity|]. cbn [flat_map snd]. rewrite flat_map_app, <- IH. f_equal.
  destruct k; cbn; rewrite ?app_nil_r; reflexivity.
Qed.
Lemma imps_nested r it s : In (it, s) (imps r) -> In s (nested r).
Proof.
  unfold imps, nested. rewrite !in_flat_map. intros ([x k] & H & Hi). exists (x, k). split; auto. cbn in *. destruct k; try contradiction.
  destruct Hi as [E|[]]. injection E as <- <-. left; reflexivity.
Qed.
Definition weighted_sum (l : list (option nat * rep)) : nat :=
  list_sum (map (fun wr => (match fst wr with Some w => w | None => 0 end) * explicit_operations (snd wr)) l).
Lemma weighted_sum_app a b : weighted_sum (a ++ b) = weighted_sum a + weighted_sum b.
Proof. unfold weighted_sum. rewrite map_app, list_sum_app. reflexivity. Qed.
Lemma serial_cost_ok r c : serial_cost r = Ok c ->
  forall w, (forall wr, In wr (weighted_reps (Some w) r) -> fst wr <> None) /\ weighted_sum (weighted_reps (Some w) r) = w * c.
Proof.
  revert c. induction r as [r IH] using rep_induction. intros c. rewrite serial_cost_eq.
  destruct (sum_imps serial_cost (imps r)) as [b|] eqn:Eb; [|discriminate]. cbn. intros E. injection E as <-. intros w. rewrite weighted_eq.
  assert (Hn : forall it s, In (it, s) (imps r) -> In s (nested r)) by apply imps_nested.
  assert (G : (forall wr, In wr (flat_map (fun is => match fst is with
     | Ok n => weighted_reps (option_map (fun w => w * n) (Some w)) (snd is) | Err _ => weighted_reps None (snd is) end) (imps r)) -> fst wr <> None) /\
     weighted_sum (flat_map (fun is => match fst is with
     | Ok n => weighted_reps (option_map (fun w => w * n) (Some w)) (snd is) | Err _ => weighted_reps None (snd is) end) (imps r)) = w * b).
  { revert b Eb. induction (imps r) as [|[it s] l IHl]; intros b Eb.
    - cbn in *. injection Eb as <-. split; [intros ? []|]. unfold weighted_sum. cbn. lia.
    - cbn [sum_imps] in Eb. destruct it as [n|]; [|discriminate]. cbn [bind] in Eb. destruct (serial_cost s) as [c|] eqn:Ec; [|discriminate]. cbn [bind] in Eb.
      destruct (sum_imps serial_cost l) as [rest|] eqn:Er; [|discriminate]. cbn in Eb. injection Eb as <-.
      destruct (IHl (fun it s H => Hn it s (or_intror H)) rest eq_refl) as [A B].
      destruct (IH s (Hn _ _ (or_introl eq_refl)) c Ec (w * n)) as [C D]. cbn [flat_map fst snd option_map]. split.
      + intros wr H. apply in_app_iff in H. destruct H; auto.
      + rewrite weighted_sum_app. cbn [option_map] in B, D. rewrite B, D. lia. }
  destruct G as [A B]. split.
  - intros wr [<- |H]; [discriminate|auto].
  - change (weighted_sum ((Some w, r) :: ?l)) with (w * explicit_operations r + weighted_sum l). rewrite B. lia.
Qed.
Lemma serial_cost_answers r w : (forall wr, In wr (weighted_reps w r) -> fst wr <> None) -> exists c, serial_cost r = Ok c.
Proof.
  revert w. induction r as [r IH] using rep_induction. intros w H. rewrite serial_cost_eq.
  assert (G : exists b, sum_imps serial_cost (imps r) = Ok b).
  { rewrite weighted_eq in H. assert (H' := fun wr Hi => H wr (or_intror Hi)). clear H. revert H'.
    assert (Hn : forall it s, In (it, s) (imps r) -> In s (nested r)) by apply imps_nested.
    induction (imps r) as [|[it s] l IHl]; intros H; [exists 0; reflexivity|]. cbn [flat_map fst snd] in H.
    assert (Hit : exists n, it = Ok n).
    { destruct it as [n|e]; [eauto|]. exfalso. apply (H (None, s)); [|reflexivity]. apply in_app_iff. left. rewrite weighted_eq. left; reflexivity. }
    destruct Hit as (n & ->). cbn [sum_imps bind].
    destruct (IH s (Hn _ _ (or_introl eq_refl)) (option_map (fun w => w * n) w)) as (c & ->).
    { intros wr Hi. apply H. apply in_app_iff. left. exact Hi. }
    cbn [bind]. destruct IHl as (b & ->).
    - intros it' s' Hi. apply (Hn it'). right; exact Hi.
    - intros wr Hi. apply H. apply in_app_iff. right. exact Hi.
    - cbn. eauto. }
  destruct G as (b & ->). cbn. eauto.
Qed.
