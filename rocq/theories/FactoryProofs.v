From Coq Require Import Lia.
From Verif Require Import PyBase NamesModel PromotionsModel ExprModel ApiModel ApiProofs2 ApiSpec2 ImplicitModel ImplicitSpec ImplicitProofs ImplicitProofs2 FactoryModel FactorySpec.
Local Open Scope list_scope.

(** ** The factory *)
Definition conv (v : pyval) : pyval := match v with VList a => VArr a | v => v end.
Definition br (d : declaration) : list (string * list ImplicitModel.bound) :=
  match d_bracket d with Some b => [(d_state d, b)] | None => [] end.
Definition good (ds : list declaration) : Prop := (forall d, In d ds -> d_value d <> VOther) /\ NoDup (map d_state ds).
Definition run (cs : list call) : fac := fold_left do_call cs fac0.
Lemma run_snoc l c : run (l ++ [c]) = do_call (run l) c.
Proof. unfold run. rewrite fold_left_app. reflexivity. Qed.
Lemma declarations_app a b : declarations (a ++ b) = declarations a ++ declarations b.
Proof. induction a as [|[]]; cbn; auto. now rewrite IHa. Qed.
Lemma last_nonlinear_app a : forall b k, last_nonlinear (a ++ b) k = last_nonlinear b (last_nonlinear a k).
Proof. induction a as [|[]]; intros; cbn; auto. Qed.
Lemma last_linear_app a : forall b k, last_linear (a ++ b) k = last_linear b (last_linear a k).
Proof. induction a as [|[]]; intros; cbn; auto. Qed.
Lemma length_dset {V} (d : dict V) k v : length (dset d k v) = if dmem k d then length d else S (length d).
Proof.
  unfold dmem. induction d as [|[a b] r IH]; [reflexivity|]. cbn. destruct (String.eqb k a); [reflexivity|].
  cbn. rewrite IH. unfold dkeys. destruct (smem k (map fst r)); reflexivity.
Qed.

Record finv (cs : list call) (f : fac) : Prop := {
  fi_res : fc_residuals f = map d_residual (declarations cs);
  fi_keys : forall s, In s (dkeys (fc_states f)) -> In s (map d_state (declarations cs));
  fi_bkeys : forall s, In s (dkeys (fc_brackets f)) -> In s (map d_state (declarations cs));
  fi_len : length (fc_states f) <= length (declarations cs);
  fi_good : good (declarations cs) <-> length (fc_states f) = length (declarations cs);
  fi_states : good (declarations cs) -> fc_states f = map (fun d => (d_state d, conv (d_value d))) (declarations cs);
  fi_brackets : good (declarations cs) -> fc_brackets f = flat_map br (declarations cs);
  fi_nl : fc_nonlinear f = last_nonlinear cs NoSolver;
  fi_lin : fc_linear f = last_linear cs false
}.
Lemma good_app ds d : good (ds ++ [d]) <-> good ds /\ d_value d <> VOther /\ ~ In (d_state d) (map d_state ds).
Proof.
  unfold good. rewrite map_app. cbn [map]. split.
  - intros [H N]. apply NoDup_app_iff in N as (N1 & _ & N2). split; [split; [intros x Hx; apply H, in_or_app; auto|exact N1]|].
    split; [apply H, in_or_app; right; left; reflexivity|]. intros K. apply (N2 _ K). left; reflexivity.
  - intros [[H N] [Hv Hn]]. split; [intros x Hx; apply in_app_iff in Hx as [Hx|[<-|[]]]; auto|].
    apply NoDup_app_iff. split; [exact N|]. split; [repeat constructor; intros []|]. intros x Hx [<-|[]]. exact (Hn Hx).
Qed.
Lemma run_inv cs : finv cs (run cs).
Proof.
  induction cs as [|c cs IH] using rev_ind.
  - constructor; cbn; try reflexivity; try tauto; try lia. unfold good. split; [reflexivity|]. intros _. split; [intros ? []|constructor].
  - rewrite run_snoc. destruct IH as [R K BK L G S B N Li].
    destruct c as [s r b v|k|k].
    + cbn [do_call].
      assert (D : declarations (cs ++ [DeclareState s r b v]) = declarations cs ++ [Decl s r b v]) by (rewrite declarations_app; reflexivity).
      assert (BK' : forall x, In x (dkeys (match b with Some b0 => dset (fc_brackets (run cs)) s b0 | None => fc_brackets (run cs) end)) -> In x (map d_state (declarations cs ++ [Decl s r b v]))).
      { intros x. rewrite map_app, in_app_iff. cbn. destruct b; [rewrite In_dkeys_dset|]; intros H; [destruct H as [H|H]|]; subst; auto. }
      assert (B' : good (declarations cs ++ [Decl s r b v]) -> match b with Some b0 => dset (fc_brackets (run cs)) s b0 | None => fc_brackets (run cs) end = flat_map br (declarations cs ++ [Decl s r b v])).
      { intros H. apply good_app in H as (H & _ & Hn). rewrite flat_map_app. cbn. rewrite app_nil_r. unfold br at 2. cbn. rewrite <- (B H). destruct b; [|now rewrite app_nil_r].
        apply dset_new. intros Hk. apply Hn. cbn. auto. }
      unfold declare_state. destruct (check_default_val_type v) as [v'|e] eqn:C; cbn [fst fc_states fc_residuals fc_brackets fc_nonlinear fc_linear].
      * assert (Ev : v' = conv v /\ v <> VOther) by (destruct v; cbn in C; try discriminate; injection C as <-; split; try reflexivity; discriminate). destruct Ev as [-> Hv].
        constructor; cbn [fc_states fc_residuals fc_brackets fc_nonlinear fc_linear]; rewrite ?D; auto.
        -- rewrite map_app, R. reflexivity.
        -- intros x. rewrite In_dkeys_dset, map_app, in_app_iff. cbn. intros [->|H]; auto.
        -- rewrite length_dset, app_length. cbn. destruct (dmem s _); lia.
        -- rewrite good_app. cbn. rewrite length_dset, app_length. cbn. split.
           ++ intros (H1 & _ & H2). rewrite (proj2 (dmem_false s (fc_states (run cs)))) by auto. apply G in H1. lia.
           ++ destruct (dmem s (fc_states (run cs))) eqn:M; [lia|]. intros E. assert (Gd : good (declarations cs)) by (apply G; lia). split; [exact Gd|]. split; [exact Hv|].
              apply dmem_false in M. rewrite (S Gd) in M. unfold dkeys in M. rewrite map_map in M. exact M.
        -- intros H. apply good_app in H as (H & _ & Hn). cbn in Hn. rewrite map_app. cbn. rewrite <- (S H). apply dset_new. auto.
        -- rewrite last_nonlinear_app. cbn. exact N.
        -- rewrite last_linear_app. cbn. exact Li.
      * assert (Hv : v = VOther) by (destruct v; cbn in C; try discriminate; reflexivity). subst v.
        constructor; cbn [fc_states fc_residuals fc_brackets fc_nonlinear fc_linear]; rewrite ?D; auto.
        -- rewrite map_app, R. reflexivity.
        -- intros x H. rewrite map_app, in_app_iff. auto.
        -- rewrite app_length. cbn. lia.
        -- rewrite good_app, app_length. cbn. split; [tauto|]. intros E. lia.
        -- intros H. apply good_app in H as (_ & H & _). cbn in H. congruence.
        -- rewrite last_nonlinear_app. cbn. exact N.
        -- rewrite last_linear_app. cbn. exact Li.
    + cbn [do_call]. assert (D : declarations (cs ++ [SetNonlinear k]) = declarations cs) by (rewrite declarations_app; cbn; apply app_nil_r).
      constructor; cbn [fc_states fc_residuals fc_brackets fc_nonlinear fc_linear]; rewrite ?D; auto.
      * rewrite last_nonlinear_app. reflexivity.
      * rewrite last_linear_app. cbn. exact Li.
    + cbn [do_call]. assert (D : declarations (cs ++ [SetLinear k]) = declarations cs) by (rewrite declarations_app; cbn; apply app_nil_r).
      constructor; cbn [fc_states fc_residuals fc_brackets fc_nonlinear fc_linear]; rewrite ?D; auto.
      * rewrite last_nonlinear_app. cbn. exact N.
      * rewrite last_linear_app. reflexivity.
Qed.

(** ** Names and values *)
Lemma find_first m vs n v : find (fun d => String.eqb (name_of (im_heap m) d) n) vs = Some v <-> first_named m vs n v.
Proof.
  unfold first_named. induction vs as [|x r IH]; cbn.
  - split; [discriminate|]. intros (a & b & E & _). destruct a; discriminate.
  - destruct (String.eqb_spec (name_of (im_heap m) x) n) as [E|E].
    + split.
      * intros H. injection H as <-. exists [], r. split; [reflexivity|]. split; [exact E|]. intros ? [].
      * intros ([|y a] & b & Eq & Hn & Hf); cbn in Eq; injection Eq as <- Eq; [reflexivity|]. exfalso. apply (Hf x); [left; reflexivity|exact E].
    + rewrite IH. split.
      * intros (a & b & -> & Hn & Hf). exists (x :: a), b. split; [reflexivity|]. split; [exact Hn|]. intros w [<-|Hw]; auto.
      * intros ([|y a] & b & Eq & Hn & Hf); cbn in Eq; injection Eq as <- Eq; [contradiction|]. exists a, b. split; [exact Eq|]. split; [exact Hn|]. intros w Hw. apply Hf. right; exact Hw.
Qed.
Lemma find_none m vs n : find (fun d => String.eqb (name_of (im_heap m) d) n) vs = None -> forall v, ~ first_named m vs n v.
Proof. intros H v F. apply find_first in F. congruence. Qed.
Lemma first_unique m vs n v w : first_named m vs n v -> first_named m vs n w -> v = w.
Proof. intros A B. apply find_first in A, B. congruence. Qed.

Definition shape_of (sh : shape) (v : pyval) : shape :=
  match v with VArr a | VList a => if shape_eqb sh [1] then a_shape a else sh | _ => sh end.
Lemma get_shape_conv sh v : v <> VOther ->
  match get_shape_val sh (conv v) false with
  | Ok r => value_fits sh v /\ fst r = shape_of sh v
  | Err e => ~ value_fits sh v /\ e = ValueError
  end.
Proof.
  intros Hv. destruct v as [z|a|a|]; [| | |congruence]; cbn.
  - destruct (shape_eqb sh [1]) eqn:E1; cbn; [auto|]. rewrite (proj2 (shape_eqb_spec sh sh) eq_refl). cbn. auto.
  - destruct (shape_eqb sh [1]) eqn:E1; [apply shape_eqb_spec in E1; cbn; auto|]. destruct (shape_eqb (a_shape a) sh) eqn:E2.
    + apply shape_eqb_spec in E2. cbn. auto.
    + split; [|reflexivity]. intros [E|E]; apply shape_eqb_spec in E; congruence.
  - destruct (shape_eqb sh [1]) eqn:E1; [apply shape_eqb_spec in E1; cbn; auto|]. destruct (shape_eqb (a_shape a) sh) eqn:E2.
    + apply shape_eqb_spec in E2. cbn. auto.
    + split; [|reflexivity]. intros [E|E]; apply shape_eqb_spec in E; congruence.
Qed.

Definition appended (p p' : parent) (l : list (string * shape)) : Prop :=
  p_inputs p' = p_inputs p /\ p_decls p' = p_decls p /\ p_outs p' = p_outs p ++ l.
Lemma appended_nil p : appended p p [].
Proof. repeat split. now rewrite app_nil_r. Qed.
Lemma appended_trans a b c l r : appended a b l -> appended b c r -> appended a c (l ++ r).
Proof. intros (A1 & A2 & A3) (B1 & B2 & B3). repeat split; try congruence. rewrite B3, A3, app_assoc. reflexivity. Qed.
Lemma register_spec p n s :
  match register p n s with
  | Ok p1 => name_ok n /\ free p n /\ appended p p1 [(n, s)]
  | Err e => ~ (name_ok n /\ free p n) /\ e = ValueError
  end.
Proof.
  unfold register, check_banned_chars. pose proof (name_ok_spec n) as NK. unfold check_banned_chars in NK.
  destruct (all_chars char_ok n); cbn [bind].
  - unfold free. destruct (smem n (map fst (p_outs p))) eqn:E1; cbn [orb].
    { split; [|reflexivity]. apply smem_spec in E1. tauto. }
    destruct (smem n (p_inputs p)) eqn:E2; cbn [orb].
    { split; [|reflexivity]. apply smem_spec in E2. tauto. }
    destruct (smem n (p_decls p)) eqn:E3.
    { split; [|reflexivity]. apply smem_spec in E3. tauto. }
    apply smem_false in E1, E2, E3. split; [apply NK; reflexivity|]. split; [tauto|]. repeat split.
  - split; [|reflexivity]. intros [H _]. apply NK in H. discriminate.
Qed.
Lemma free_appended p p' l n : appended p p' l -> (free p' n <-> free p n /\ ~ In n (map fst l)).
Proof. intros (A & B & C). unfold free. rewrite A, B, C, map_app, in_app_iff. tauto. Qed.

Lemma name_ok_dec n : {name_ok n} + {~ name_ok n}.
Proof.
  destruct (check_banned_chars n) as [[]|e] eqn:E; [left; apply name_ok_spec, E|right]. intros H. apply name_ok_spec in H. congruence.
Defined.

(** ** The results *)
Lemma registrable_cons p p1 n s l : appended p p1 [(n, s)] -> name_ok n -> free p n -> registrable p1 l -> registrable p ((n, s) :: l).
Proof.
  intros A Hn Hf [N F]. split.
  - cbn. constructor; auto. intros K. destruct (F n K) as [_ K']. apply (free_appended _ _ _ _ A) in K' as [_ K']. apply K'. left; reflexivity.
  - intros x [<-|Hx]; [auto|]. destruct (F x Hx) as [F1 F2]. apply (free_appended _ _ _ _ A) in F2. tauto.
Qed.
(** Why the result for one declaration cannot be made. *)
Definition stuck (m : imodel) (p : parent) (done : list (string * shape)) (d : declaration) : Prop :=
  (forall r, ~ result_for m d r) \/ ~ name_ok (d_state d) \/ ~ free p (d_state d) \/ In (d_state d) (map fst done).
Lemma return_states_spec m ds : forall rs p, length rs = length ds -> (forall d, In d ds -> d_value d <> VOther) ->
  let pr := return_states m p (map (fun d => (d_state d, conv (d_value d))) ds) rs in
  exists l, appended p (fst pr) l /\
    match snd pr with
    | Ok a => l = a /\ Forall2 (result_for m) ds a /\ registrable p a
    | Err _ => exists d1 d d2, ds = d1 ++ d :: d2 /\ Forall2 (result_for m) d1 l /\ registrable p l /\ stuck m p l d
    end.
Proof.
  induction ds as [|d ds IH]; intros rs p L Hv; cbn [map return_states].
  - cbn. exists []. split; [apply appended_nil|]. split; [reflexivity|]. split; [constructor|]. split; [constructor|]. intros ? [].
  - destruct rs as [|r rs]; [discriminate|]. cbn in L. injection L as L.
    assert (Stop : forall e, stuck m p [] d -> exists l, appended p (fst (p, @Err (list (string * shape)) e)) l /\ match snd (p, @Err (list (string * shape)) e) with
      | Ok a => l = a /\ Forall2 (result_for m) (d :: ds) a /\ registrable p a
      | Err _ => exists d1 d0 d2, d :: ds = d1 ++ d0 :: d2 /\ Forall2 (result_for m) d1 l /\ registrable p l /\ stuck m p l d0 end).
    { intros e Hs. exists []. split; [apply appended_nil|]. cbn. exists [], d, ds. split; [reflexivity|]. split; [constructor|]. split; [split; [constructor|intros ? []]|exact Hs]. }
    destruct (find _ (im_decls m)) as [x|] eqn:F.
    2:{ apply Stop. left. intros r0 (_ & x & Hx & _). exact (find_none _ _ _ F x Hx). }
    apply find_first in F. pose proof (get_shape_conv (im_shape m x) (d_value d) (Hv d (or_introl eq_refl))) as GS.
    destruct (get_shape_val (im_shape m x) (conv (d_value d)) false) as [sv|e]; destruct GS as [GS1 GS2].
    2:{ apply Stop. left. intros r0 (_ & y & Hy & Hf & _). rewrite (first_unique _ _ _ _ _ Hy F) in Hf. contradiction. }
    pose proof (register_spec p (d_state d) (fst sv)) as RS. destruct (register p (d_state d) (fst sv)) as [p1|e].
    2:{ destruct RS as [RS _]. apply Stop. destruct (name_ok_dec (d_state d)) as [Hk|Hk]; [|right; left; exact Hk]. right; right; left. intros Hf. tauto. }
    destruct RS as (Hn & Hf & Ap). assert (RF : result_for m d (d_state d, fst sv)).
    { split; [reflexivity|]. exists x. split; [exact F|]. split; [exact GS1|]. cbn [snd]. rewrite GS2. reflexivity. }
    specialize (IH rs p1 L (fun d0 H => Hv d0 (or_intror H))). cbn zeta in IH.
    destruct (return_states m p1 _ rs) as [p2 t]. cbn [fst snd] in IH |- *. destruct IH as (l & Ap2 & IH). exists ((d_state d, fst sv) :: l).
    split; [exact (appended_trans _ _ _ _ _ Ap Ap2)|]. destruct t as [a|e]; cbn [bind].
    + destruct IH as (-> & H2 & H3). split; [reflexivity|]. split; [constructor; auto|]. exact (registrable_cons _ _ _ _ _ Ap Hn Hf H3).
    + destruct IH as (d1 & d0 & d2 & -> & H2 & H3 & H4). exists (d :: d1), d0, d2. split; [reflexivity|]. split; [constructor; auto|].
      split; [exact (registrable_cons _ _ _ _ _ Ap Hn Hf H3)|]. destruct H4 as [H4|[H4|[H4|H4]]]; unfold stuck; auto.
      * destruct (in_dec string_dec (d_state d0) (map fst ((d_state d, fst sv) :: l))) as [K|K]; [auto|]. right; right; left. intros Hf0. apply H4. apply (free_appended _ _ _ _ Ap). split; [exact Hf0|].
        cbn in *. intros [E|[]]. apply K. left; exact E.
      * right; right; right. right. exact H4.
Qed.

Definition stuck_name (p : parent) (done : list (string * shape)) (n : string) : Prop :=
  ~ name_ok n \/ ~ free p n \/ In n (map fst done).
Lemma return_exposed_spec l : forall p, let pr := return_exposed p l in
  match snd pr with
  | Ok a => appended p (fst pr) a /\ a = l /\ registrable p a
  | Err _ => exists l1 n s l2, l = l1 ++ (n, s) :: l2 /\ appended p (fst pr) l1 /\ registrable p l1 /\ stuck_name p l1 n
  end.
Proof.
  induction l as [|[n s] r IH]; intros p; cbn [return_exposed].
  - cbn. split; [apply appended_nil|]. split; [reflexivity|]. split; [constructor|intros ? []].
  - pose proof (register_spec p n s) as RS. destruct (register p n s) as [p1|e].
    + destruct RS as (Hn & Hf & Ap). specialize (IH p1). cbn zeta in IH. destruct (return_exposed p1 r) as [p2 t]. cbn [fst snd] in *.
      destruct t as [a|e]; cbn [bind].
      * destruct IH as (A & -> & Rg). split; [exact (appended_trans _ _ _ _ _ Ap A)|]. split; [reflexivity|]. exact (registrable_cons _ _ _ _ _ Ap Hn Hf Rg).
      * destruct IH as (l1 & n1 & s1 & l2 & -> & A & Rg & St). exists ((n, s) :: l1), n1, s1, l2. split; [reflexivity|]. split; [exact (appended_trans _ _ _ _ _ Ap A)|].
        split; [exact (registrable_cons _ _ _ _ _ Ap Hn Hf Rg)|]. destruct St as [H|[H|H]]; unfold stuck_name; auto.
        -- destruct (string_dec n n1) as [->|Ne]; [right; right; left; reflexivity|]. right; left. intros Hf1. apply H. apply (free_appended _ _ _ _ Ap). split; [exact Hf1|]. cbn. tauto.
        -- right; right; right; exact H.
    + destruct RS as [RS _]. cbn. exists [], n, s, r. split; [reflexivity|]. split; [apply appended_nil|]. split; [split; [constructor|intros ? []]|].
      destruct (name_ok_dec n); [right; left; tauto|left; assumption].
Qed.
Lemma registrable_app p p1 a b : appended p p1 a -> registrable p a -> registrable p1 b -> registrable p (a ++ b).
Proof.
  intros Ap [N1 F1] [N2 F2]. split.
  - rewrite map_app. apply NoDup_app_iff. split; [exact N1|]. split; [exact N2|]. intros x Hx Hy. destruct (F2 x Hy) as [_ K]. apply (free_appended _ _ _ _ Ap) in K. tauto.
  - intros n. rewrite map_app, in_app_iff. intros [H|H]; [auto|]. destruct (F2 n H) as [K1 K2]. apply (free_appended _ _ _ _ Ap) in K2. tauto.
Qed.
Lemma registrable_app_inv p a b : registrable p (a ++ b) -> registrable p a /\ registrable p b.
Proof.
  intros [N F]. rewrite map_app in N. apply NoDup_app_iff in N as (N1 & N2 & _).
  split; (split; [assumption|]); intros n H; apply F; rewrite map_app; apply in_or_app; auto.
Qed.

(** The state of a failed call: a proper part of the results, in order, is registered. *)
Definition stopped (m : imodel) (p p' : parent) (ds : list declaration) (expose : list string) : Prop :=
  exists l, appended p p' l /\ registrable p l /\
    ((exists d1 d d2, ds = d1 ++ d :: d2 /\ Forall2 (result_for m) d1 l /\ stuck m p l d) \/
     (exists a l1 n s l2, Forall2 (result_for m) ds a /\ exposed_results m expose = l1 ++ (n, s) :: l2 /\ l = a ++ l1 /\ stuck_name p l n) \/
     (ds = [] /\ exposed_results m expose = [] /\ l = [])).
Lemma return_outputs_spec m p cs expose : good (declarations cs) ->
  let pr := return_outputs m p (run cs) expose in
  match snd pr with
  | Ok outs => appended p (fst pr) outs /\ results m (declarations cs) expose outs /\ outs <> [] /\ registrable p outs
  | Err _ => stopped m p (fst pr) (declarations cs) expose
  end.
Proof.
  intros G. pose proof (run_inv cs) as I. unfold return_outputs. rewrite (fi_states _ _ I G), (fi_res _ _ I).
  pose proof (return_states_spec m (declarations cs) (map d_residual (declarations cs)) p) as RS. cbn zeta in RS.
  destruct RS as (l & Ap & RS); [apply map_length|exact (proj1 G)|].
  destruct (return_states m p _ _) as [p1 [a|e]]; cbn [fst snd] in *.
  - destruct RS as (-> & F2 & Rg). pose proof (return_exposed_spec (exposed_outputs m expose) p1) as RE. cbn zeta in RE.
    destruct (return_exposed p1 _) as [p2 [b|e]]; cbn [fst snd] in *.
    + destruct RE as (Ap2 & -> & Rg2). destruct (a ++ exposed_outputs m expose) as [|o os] eqn:E.
      * apply app_eq_nil in E as [-> E]. inversion F2; subst. cbn [fst snd]. exists []. rewrite E in Ap2. split; [exact (appended_trans _ _ _ _ _ Ap Ap2)|]. split; [exact Rg|]. right; right. auto.
      * rewrite <- E. split; [exact (appended_trans _ _ _ _ _ Ap Ap2)|]. split; [exists a; split; [exact F2|reflexivity]|].
        split; [rewrite E; discriminate|]. exact (registrable_app _ _ _ _ Ap Rg Rg2).
    + destruct RE as (l1 & n & s & l2 & E & Ap2 & Rg2 & St). exists (a ++ l1). split; [exact (appended_trans _ _ _ _ _ Ap Ap2)|].
      split; [exact (registrable_app _ _ _ _ Ap Rg Rg2)|]. right; left. exists a, l1, n, s, l2. split; [exact F2|]. split; [exact E|]. split; [reflexivity|].
      destruct St as [H|[H|H]]; unfold stuck_name; auto.
      * destruct (in_dec string_dec n (map fst a)) as [K|K]; [right; right; rewrite map_app; apply in_or_app; auto|]. right; left. intros Hf. apply H. apply (free_appended _ _ _ _ Ap). auto.
      * right; right. rewrite map_app. apply in_or_app. auto.
  - destruct RS as (d1 & d & d2 & E & F2 & Rg & St). exists l. split; [exact Ap|]. split; [exact Rg|]. left. exists d1, d, d2. auto.
Qed.

(** A stopped call could not have produced all its results. *)
Lemma results_unique m d r r' : result_for m d r -> result_for m d r' -> r = r'.
Proof.
  destruct r, r'. intros (A & x & X1 & X2 & X3) (B & y & Y1 & Y2 & Y3). cbn in *. rewrite (first_unique _ _ _ _ _ X1 Y1) in *. congruence.
Qed.
Lemma Forall2_unique m ds : forall l l', Forall2 (result_for m) ds l -> Forall2 (result_for m) ds l' -> l = l'.
Proof.
  induction ds as [|d ds IH]; intros l l' A B; inversion A; inversion B; subst; [reflexivity|]. f_equal; [eapply results_unique; eauto|eauto].
Qed.
Lemma Forall2_names m ds l : Forall2 (result_for m) ds l -> map fst l = map d_state ds.
Proof. induction 1 as [|d r ds l [H _] _ IH]; cbn; congruence. Qed.
Lemma stopped_not_results m p p' ds expose outs : stopped m p p' ds expose -> results m ds expose outs -> outs <> [] -> registrable p outs -> False.
Proof.
  intros (l & Ap & Rg & H) (a & F2 & ->) Ne Rgo. destruct H as [(d1 & d & d2 & -> & F1 & St)|[(a' & l1 & n & s & l2 & F1 & E & -> & St)|(-> & E & ->)]].
  - apply Forall2_app_inv_l in F2 as (a1 & a2 & F2a & F2b & ->). rewrite (Forall2_unique _ _ _ _ F2a F1) in *. inversion F2b as [|? r ? a3 Hr Hrest]; subst.
    rewrite <- app_assoc in Rgo. destruct Rgo as [N F].
    assert (K : In (d_state d) (map fst (l ++ (r :: a3) ++ exposed_results m expose))) by (rewrite map_app, in_app_iff; right; left; exact (proj1 Hr)).
    destruct St as [St|[St|[St|St]]].
    + exact (St r Hr).
    + apply St. apply F, K.
    + apply St. apply F, K.
    + rewrite map_app in N. apply NoDup_app_iff in N as (_ & _ & N). apply (N _ St). left. exact (proj1 Hr).
  - rewrite (Forall2_unique _ _ _ _ F2 F1) in *. rewrite E, app_assoc in Rgo. destruct Rgo as [N F].
    assert (K : In n (map fst ((a' ++ l1) ++ (n, s) :: l2))) by (rewrite map_app, in_app_iff; right; left; reflexivity).
    destruct St as [St|[St|St]].
    + apply St. apply F, K.
    + apply St. apply F, K.
    + rewrite map_app in N. apply NoDup_app_iff in N as (_ & _ & N). apply (N _ St). left. reflexivity.
  - inversion F2; subst. rewrite E in Ne. apply Ne. reflexivity.
Qed.

(** ** Defaults and brackets *)
Lemma store_defaults_spec m states ds : forall acc,
  match store_defaults m states ds acc with
  | Ok d => defaults_fit m states ds /\ forall n s, NoDup (map fst ds) -> (dget d n = Some s <-> In (n, DArray s) ds \/ (~ In n (map fst ds) /\ dget acc n = Some s) \/ (In (n, DScalar) ds /\ dget acc n = Some s))
  | Err _ => ~ defaults_fit m states ds
  end.
Proof.
  induction ds as [|[k d] r IH]; intros acc; cbn [store_defaults].
  - split; [intros ? ? []|]. intros n s _. cbn. tauto.
  - destruct (smem k states) eqn:M; cbn [negb].
    2:{ intros H. destruct (H k d (or_introl eq_refl)) as [K _]. apply smem_spec in K. congruence. }
    apply smem_spec in M. destruct d as [|sh|].
    + specialize (IH acc). destruct (store_defaults m states r acc) as [d|].
      * destruct IH as [H1 H2]. split; [intros k' d' [E|H]; [injection E as <- <-; auto|apply H1, H]|]. intros n s N. cbn in N. apply NoDup_cons_iff in N as [N1 N2].
        rewrite (H2 n s N2). cbn [In map fst]. destruct (string_dec k n) as [->|Ne].
        -- split.
           ++ intros [H|[[H0 H]|[H0 H]]]; auto.
           ++ intros [[H|H]|[[H0 H]|[H0 H]]]; [discriminate|auto|exfalso; apply H0; left; reflexivity|right; left; auto].
        -- split.
           ++ intros [H|[[H0 H]|[H0 H]]]; auto. right; left. split; [|exact H]. intros [E|E]; auto.
           ++ intros [[H|H]|[[H0 H]|[[H0|H0] H]]]; [discriminate|auto|right; left; split; [intros K; apply H0; right; exact K|exact H]|congruence|auto].
      * intros H. apply IH. intros k' d' Hk. apply H. right; exact Hk.
    + destruct (find _ (im_regs m)) as [v|] eqn:F.
      * apply find_first in F. destruct (shape_eqb (im_shape m v) sh) eqn:E.
        -- apply shape_eqb_spec in E. specialize (IH (dset acc k (im_shape m v))). destruct (store_defaults m states r _) as [d|].
           ++ destruct IH as [H1 H2]. split; [intros k' d' [Eq|H]; [injection Eq as <- <-; split; [exact M|exists v; auto]|apply H1, H]|].
              intros n s N. cbn in N. apply NoDup_cons_iff in N as [N1 N2]. rewrite (H2 n s N2). cbn [In map fst]. destruct (string_dec k n) as [->|Ne].
              ** rewrite dget_dset_same. split.
                 { intros [H|[[H0 H]|[H0 H]]]; [auto|left; left; congruence|exfalso; apply N1; apply (in_map fst) in H0; exact H0]. }
                 { intros [[H|H]|[[H0 H]|[[H0|H0] H]]]; auto; [injection H as <-; right; left; split; congruence|exfalso; apply H0; left; reflexivity|discriminate|exfalso; apply N1; apply (in_map fst) in H0; exact H0]. }
              ** rewrite dget_dset_other by congruence. split.
                 { intros [H|[[H0 H]|[H0 H]]]; auto. right; left. split; [|exact H]. intros [K|K]; auto. }
                 { intros [[H|H]|[[H0 H]|[[H0|H0] H]]]; [congruence|auto|right; left; split; [intros K; apply H0; right; exact K|exact H]|discriminate|auto]. }
           ++ intros H. apply IH. intros k' d' Hk. apply H. right; exact Hk.
        -- intros H. destruct (H k (DArray sh) (or_introl eq_refl)) as (_ & w & Hw & Es). rewrite (first_unique _ _ _ _ _ Hw F) in Es. apply shape_eqb_spec in Es. congruence.
      * intros H. destruct (H k (DArray sh) (or_introl eq_refl)) as (_ & w & Hw & Es). exact (find_none _ _ _ F w Hw).
    + intros H. destruct (H k DOther (or_introl eq_refl)) as (_ & []).
Qed.
Lemma check_brackets_total states bs : forall w,
  match check_brackets states bs w with
  | Ok _ => True
  | Err e => e = ValueError /\ ~ (forall k v, In (k, v) bs -> In k states /\ exists a b, v = [a; b] /\ bound_shape a = bound_shape b)
  end.
Proof.
  induction bs as [|[k v] r IH]; intros w; cbn [check_brackets]; [exact I|].
  destruct (smem k states) eqn:M; cbn [negb].
  2:{ split; [reflexivity|]. intros H. destruct (H k v (or_introl eq_refl)) as [K _]. apply smem_spec in K. congruence. }
  assert (Bad : ~ (exists a b, v = [a; b] /\ bound_shape a = bound_shape b) -> ValueError = ValueError /\ ~ (forall k0 v0, In (k0, v0) ((k, v) :: r) -> In k0 states /\ exists a b, v0 = [a; b] /\ bound_shape a = bound_shape b)).
  { intros B. split; [reflexivity|]. intros H. destruct (H k v (or_introl eq_refl)) as [_ K]. contradiction. }
  destruct v as [|a [|b [|]]]; try (apply Bad; intros (x & y & E & _); discriminate).
  destruct (shape_eqb _ _) eqn:E.
  - specialize (IH (filter (fun s => negb (String.eqb s k)) w)). destruct (check_brackets states r _); [exact I|]. destruct IH as [-> IH]. split; [reflexivity|].
    intros H. apply IH. intros k' v' Hk. apply H. right; exact Hk.
  - apply Bad. intros (x & y & Eq & Es). injection Eq as <- <-. apply shape_eqb_spec in Es. congruence.
Qed.
Definition brackets_fit (states : list string) (bs : list (string * list ImplicitModel.bound)) : Prop :=
  (forall s, In s states -> In s (map fst bs)) /\
  forall k v, In (k, v) bs -> In k states /\ exists a b, v = [a; b] /\ bound_shape a = bound_shape b.
Lemma brackets_iff states bs : match brackets_ok states bs with Ok _ => brackets_fit states bs | Err e => e = ValueError /\ ~ brackets_fit states bs end.
Proof.
  destruct (brackets_ok states bs) as [[]|e] eqn:E; [exact (brackets_complete _ _ E)|].
  unfold brackets_ok in E. pose proof (check_brackets_total states bs states) as T. destruct (check_brackets states bs states) as [w|e'] eqn:C; cbn [bind] in E.
  - destruct w as [|x w]; [discriminate|]. injection E as <-. split; [reflexivity|]. intros [H _]. apply check_brackets_spec in C as [_ C]. destruct (proj1 (C x) (or_introl eq_refl)) as [C1 C2]. exact (C2 (H x C1)).
  - injection E as <-. destruct T as [-> T]. split; [reflexivity|]. intros [_ H]. contradiction.
Qed.

(** ** Preparation *)
Lemma flat_br_none ds : flat_map br ds = [] <-> forall d, In d ds -> d_bracket d = None.
Proof.
  induction ds as [|d r IH]; cbn; [split; [intros _ ? []|reflexivity]|]. unfold br at 1. destruct (d_bracket d) eqn:E; cbn.
  - split; [discriminate|]. intros H. rewrite (H d (or_introl eq_refl)) in E. discriminate.
  - rewrite IH. split; [intros H x [<-|Hx]; auto|auto].
Qed.
Lemma br_In ds k v : In (k, v) (flat_map br ds) <-> exists d, In d ds /\ d_state d = k /\ d_bracket d = Some v.
Proof.
  rewrite in_flat_map. unfold br. split; intros (d & Hd & H).
  - exists d. destruct (d_bracket d); cbn in H; [|contradiction]. destruct H as [H|[]]. injection H as <- <-. auto.
  - exists d. destruct H as [<- ->]. split; [exact Hd|left; reflexivity].
Qed.
Lemma NoDup_states_inj ds d d' : NoDup (map d_state ds) -> In d ds -> In d' ds -> d_state d = d_state d' -> d = d'.
Proof.
  induction ds as [|x r IH]; cbn; [intros _ []|]. intros N. apply NoDup_cons_iff in N as [N1 N2]. intros [<-|H] [<-|H'] E; auto.
  - exfalso. apply N1. rewrite E. apply in_map, H'.
  - exfalso. apply N1. rewrite <- E. apply in_map, H.
Qed.
Lemma brackets_fit_iff ds : NoDup (map d_state ds) ->
  (brackets_fit (map d_state ds) (flat_map br ds) <-> forall d, In d ds -> exists a b, d_bracket d = Some [a; b] /\ bound_shape a = bound_shape b).
Proof.
  intros N. unfold brackets_fit. split.
  - intros [H1 H2] d Hd. assert (K := H1 (d_state d) (in_map _ _ _ Hd)). apply in_map_iff in K as ((k & v) & Ek & K). cbn in Ek. subst k.
    destruct (H2 _ _ K) as (_ & a & b & -> & Es). apply br_In in K as (d' & Hd' & E1 & E2). rewrite (NoDup_states_inj _ _ _ N Hd' Hd E1) in E2. eauto.
  - intros H. split.
    + intros s Hs. apply in_map_iff in Hs as (d & <- & Hd). destruct (H d Hd) as (a & b & E & _). apply in_map_iff. exists (d_state d, [a; b]). split; [reflexivity|]. apply br_In. eauto.
    + intros k v K. apply br_In in K as (d & Hd & <- & E). split; [apply in_map, Hd|]. destruct (H d Hd) as (a & b & E' & Es). rewrite E in E'. injection E' as ->. eauto.
Qed.
Lemma all_bracketed ds : (forall d, In d ds -> exists a b, d_bracket d = Some [a; b] /\ bound_shape a = bound_shape b) ->
  map (fun d => (d_state d, d_bracket d)) ds = map (fun kb => (fst kb, Some (snd kb))) (flat_map br ds).
Proof.
  induction ds as [|d r IH]; intros H; [reflexivity|]. cbn. destruct (H d (or_introl eq_refl)) as (a & b & E & _). unfold br at 1. rewrite E. cbn. f_equal. apply IH. intros x Hx. apply H. right; exact Hx.
Qed.
Lemma any_bracket ds : flat_map br ds <> [] -> exists d, In d ds /\ d_bracket d <> None.
Proof.
  induction ds as [|d r IH]; cbn; [congruence|]. unfold br at 1. destruct (d_bracket d) eqn:E; cbn.
  - intros _. exists d. split; [left; reflexivity|congruence].
  - intros H. destruct (IH H) as (x & Hx & Hb). eauto.
Qed.
Lemma prepare_spec m cs args expose defaults :
  match prepare m (run cs) args expose defaults with
  | Ok (mp, st) => prepared m cs args expose defaults /\ recorded m args (map d_state (declarations cs)) (map d_residual (declarations cs)) expose mp /\ stored cs m defaults st
  | Err _ => ~ prepared m cs args expose defaults
  end.
Proof.
  pose proof (run_inv cs) as I. set (ds := declarations cs) in *. unfold prepare. rewrite (fi_res _ _ I). fold ds.
  assert (KK : good ds -> dkeys (fc_states (run cs)) = map d_state ds).
  { intros G. rewrite (fi_states _ _ I G). unfold dkeys. rewrite map_map. reflexivity. }
  assert (PG : prepared m cs args expose defaults -> good ds).
  { intros [P1 P2 _ _]. split; [exact P1|]. exact (states_distinct _ _ _ _ _ P2). }
  destruct (generate_maps m args (dkeys (fc_states (run cs))) (map d_residual ds) expose) as [mp|e] eqn:E.
  - apply generate_maps_Ok in E as [Ac Rc]. cbn [bind].
    assert (G : good ds). { apply (fi_good _ _ I). pose proof (as_many _ _ _ _ _ Ac) as L. rewrite map_length in L. unfold dkeys in L. rewrite map_length in L. exact L. }
    rewrite (KK G) in *. rewrite (fi_brackets _ _ I G). fold ds.
    destruct (flat_map br ds) as [|b0 bs0] eqn:FB.
    + pose proof (proj1 (flat_br_none ds) FB) as NB. pose proof (store_defaults_spec m (map d_state ds) defaults []) as SD.
      destruct (store_defaults m (map d_state ds) defaults []) as [dd|e]; cbn [bind].
      * destruct SD as [SD1 SD2]. rewrite (fi_nl _ _ I), (fi_lin _ _ I).
        destruct (check_solvers (last_nonlinear cs NoSolver) (last_linear cs false)) as [[]|e] eqn:CS; cbn [bind].
        -- split; [|split; [exact Rc|]].
           ++ constructor; [exact (proj1 G)|exact Ac| |].
              ** intros (d & Hd & Hb). rewrite (NB d Hd) in Hb. congruence.
              ** intros _. split; [exact SD1|]. intros Ek. unfold check_solvers in CS. rewrite Ek in CS. destruct (last_linear cs false); [reflexivity|discriminate].
           ++ cbn. split; [exact NB|]. split; [reflexivity|]. split; [reflexivity|]. intros n s Nd. rewrite (SD2 n s Nd). cbn. intuition discriminate.
        -- intros [_ _ _ P]. destruct (P NB) as [_ S]. unfold solvers_fit in S. unfold check_solvers in CS. destruct (last_nonlinear cs NoSolver); try discriminate. rewrite (S eq_refl) in CS. discriminate.
      * intros [_ _ _ P]. destruct (P NB) as [S _]. contradiction.
    + rewrite <- FB. assert (AB : exists d, In d ds /\ d_bracket d <> None) by (apply any_bracket; rewrite FB; discriminate).
      pose proof (brackets_iff (map d_state ds) (flat_map br ds)) as BI. destruct (brackets_ok _ _) as [[]|e]; cbn [bind].
      * pose proof (proj1 (brackets_fit_iff ds (proj2 G)) BI) as BI'. clear BI. rename BI' into BI. split; [|split; [exact Rc|]].
        -- constructor; [exact (proj1 G)|exact Ac|intros _; exact BI|]. intros NB. destruct AB as (d & Hd & Hb). rewrite (NB d Hd) in Hb. congruence.
        -- split; [exact AB|]. apply all_bracketed, BI.
      * destruct BI as [_ BI]. intros [_ _ P _]. apply BI. apply (proj2 (brackets_fit_iff ds (proj2 G))). apply P, AB.
  - cbn [bind]. intros P. pose proof (PG P) as G. rewrite (KK G) in E. destruct (generate_maps_accept _ _ _ _ _ (pr_maps _ _ _ _ _ P)) as [mp E']. fold ds in E'. congruence.
Qed.
