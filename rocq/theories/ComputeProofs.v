(** Proofs about the generated expression strings. *)
From Coq Require Import Field.
From Verif Require Import PyBase PromotionsModel ArithModel ArithSpec ComputeModel ComputeSpec ArithProofs.

Section Proofs.
  Context (N : numbers) (env : nat -> N).
  Add Ring nring : (rF N).
  Notation lt := (flt N). Notation product := (product N env). Notation more_terms := (more_terms N env). Notation evaluate := (evaluate N env).

  Lemma lt_asym x y : lt x y = true -> lt y x = false.
  Proof. intros H. destruct (lt y x) eqn:E; [|reflexivity]. pose proof (flt_trans N _ _ _ H E) as K. now rewrite (flt_irrefl N) in K. Qed.
  Lemma opp0 : fopp N f0 = f0. Proof. ring. Qed.
  Lemma opp_opp x : fopp N (fopp N x) = x. Proof. ring. Qed.
  Lemma m1_neg : lt (fopp N f1) f0 = true.
  Proof. rewrite <- opp0, <- (flt_opp N). apply (zero_lt_one N). Qed.
  Lemma gt1_pos c : lt f1 c = true -> lt f0 c = true.
  Proof. intros H. exact (flt_trans N _ _ _ (zero_lt_one N) H). Qed.
  Lemma ltm1_neg c : lt c (fopp N f1) = true -> lt c f0 = true.
  Proof. intros H. exact (flt_trans N _ _ _ H m1_neg). Qed.
  Lemma one_ne_zero : @f1 N <> f0.
  Proof. intros E. pose proof (zero_lt_one N) as H. rewrite E, (flt_irrefl N) in H. discriminate. Qed.

  (** ** Parsing one term *)
  Definition cont (ts : list (token N)) : Prop := match ts with TTimes :: _ | TPow :: _ | TDivide :: _ => False | _ => True end.
  Lemma product_var n x ts : cont ts -> product (S (S n)) (TVar x :: ts) = Some (env x, ts).
  Proof. intros H. unfold ComputeSpec.product. destruct ts as [|[]]; cbn in *; reflexivity || contradiction. Qed.
  Lemma product_num n c ts : cont ts -> product (S (S n)) (TNum c :: ts) = Some (c, ts).
  Proof. intros H. unfold ComputeSpec.product. destruct ts as [|[]]; cbn in *; reflexivity || contradiction. Qed.
  Lemma product_times n c x ts : cont ts -> product (S (S (S n))) (TNum c :: TTimes :: TVar x :: ts) = Some (fmul N c (env x), ts).
  Proof. intros H. unfold ComputeSpec.product. destruct ts as [|[]]; cbn in *; reflexivity || contradiction. Qed.
  Lemma product_minus_num n c ts : cont ts -> product (S (S (S n))) (TMinus :: TNum c :: ts) = Some (fopp N c, ts).
  Proof. intros H. unfold ComputeSpec.product. destruct ts as [|[]]; cbn in *; reflexivity || contradiction. Qed.
  Lemma product_minus n x ts : cont ts -> product (S (S (S n))) (TMinus :: TVar x :: ts) = Some (fopp N (env x), ts).
  Proof. intros H. unfold ComputeSpec.product. destruct ts as [|[]]; cbn in *; reflexivity || contradiction. Qed.
  Lemma product_minus_times n c x ts : cont ts -> product (S (S (S n))) (TMinus :: TNum c :: TTimes :: TVar x :: ts) = Some (fmul N (fopp N c) (env x), ts).
  Proof. intros H. unfold ComputeSpec.product. destruct ts as [|[]]; cbn in *; reflexivity || contradiction. Qed.

  Lemma mt_plus n acc r : more_terms (S n) acc (TPlus :: r) = match product n r with Some (v, r2) => more_terms n (fadd N acc v) r2 | None => None end.
  Proof. reflexivity. Qed.
  Lemma mt_minus n acc r : more_terms (S n) acc (TMinus :: r) = match product n r with Some (v, r2) => more_terms n (fsub N acc v) r2 | None => None end.
  Proof. reflexivity. Qed.
  Lemma mf_times n acc r : more_factors N env (S n) acc (TTimes :: r) = match signed N env n r with Some (v, r2) => more_factors N env n (fmul N acc v) r2 | None => None end.
  Proof. reflexivity. Qed.

  (** ** Linear combinations *)
  Definition nums (cs : list N) (xs : list nat) : list (literal N * nat) := combine (map (@Num N) cs) xs.
  Lemma fmt_pos c : lt c f0 = false -> fmt (Num c) = [TNum c].
  Proof. intros H. cbn. now rewrite H. Qed.
  Lemma fmt_neg c : lt c f0 = true -> fmt (Num c) = [TMinus; TNum (fopp N c)].
  Proof. intros H. cbn. now rewrite H. Qed.

  (* the five cases for a coefficient *)
  Inductive kind (c : N) : Prop :=
  | KBig : lt f1 c = true -> lt c f0 = false -> lt f0 c = true -> written N c = c -> kind c
  | KOne : lt f1 c = false -> lt f0 c = true -> lt c f0 = false -> written N c = f1 -> kind c
  | KNegBig : lt f1 c = false -> lt f0 c = false -> lt c (fopp N f1) = true -> lt c f0 = true -> written N c = c -> kind c
  | KNegOne : lt f1 c = false -> lt f0 c = false -> lt c (fopp N f1) = false -> lt c f0 = true -> written N c = fopp N f1 -> kind c
  | KZero : lt f1 c = false -> lt f0 c = false -> lt c (fopp N f1) = false -> lt c f0 = false -> written N c = f0 -> kind c.
  Lemma kind_of c : kind c.
  Proof.
    destruct (lt f1 c) eqn:A.
    - apply KBig; auto using gt1_pos, lt_asym. unfold written. now rewrite A.
    - destruct (lt f0 c) eqn:B.
      + apply KOne; auto using lt_asym. unfold written. now rewrite A, B.
      + destruct (lt c (fopp N f1)) eqn:C.
        * apply KNegBig; auto using ltm1_neg. unfold written. now rewrite A, B, C.
        * destruct (lt c f0) eqn:D; [apply KNegOne|apply KZero]; auto; unfold written; now rewrite A, B, C, D.
  Qed.

  Lemma lin_terms_cont z first cs xs : cont (lin_terms z first (nums cs xs)).
  Proof.
    revert first xs. induction cs as [|c cs IH]; intros first [|x xs]; cbn; try exact I.
    destruct (kind_of c) as [A B C _|A B C _|A B C D _|A B C D _|A B C D _]; rewrite A, ?B, ?C, ?D; cbn.
    - destruct (first && z); cbn; exact I.
    - destruct (first && z); cbn; exact I.
    - exact I.
    - exact I.
    - apply IH.
  Qed.

  Definition value_of (cs : list N) (xs : list nat) (k : N) : N := linear N env (combine (map (written N) cs) xs) k.

  Lemma more_terms_ok cs : forall n z first xs acc, first && z = false \/ no_positive N (firstn (length xs) cs) = true ->
    3 + length (lin_terms z first (nums cs xs)) <= n ->
    more_terms n acc (lin_terms z first (nums cs xs)) = Some (value_of cs xs acc).
  Proof.
    induction cs as [|c cs IH]; intros n z first [|x xs] acc Hc Hn.
    1-3: destruct n; [cbn in Hn; lia|reflexivity].
    unfold nums, value_of in *. cbn [map combine lin_terms length firstn no_positive] in *.
    destruct (kind_of c) as [A B C W|A B C W|A B C D W|A B C D W|A B C D W]; rewrite A, ?B, ?C, ?D in *; rewrite W; cbn [negb andb] in Hc.
    - assert (Hf : first && z = false) by (destruct Hc as [Hc|Hc]; [exact Hc|]; cbn in Hc; discriminate).
      rewrite Hf in *. rewrite fmt_pos in * by exact B. cbn [app length] in *.
      destruct n as [|[|[|[|n]]]]; try lia. rewrite ?mt_plus, ?mt_minus. rewrite product_times by apply lin_terms_cont; cbv beta iota.
      rewrite IH; [reflexivity|now left|]. unfold nums. lia.
    - assert (Hf : first && z = false) by (destruct Hc as [Hc|Hc]; [exact Hc|]; cbn in Hc; discriminate).
      rewrite Hf in *. cbn [app length] in *.
      destruct n as [|[|[|[|n]]]]; try lia. rewrite ?mt_plus, ?mt_minus. rewrite product_var by apply lin_terms_cont; cbv beta iota.
      rewrite IH; [|now left|unfold nums; lia]. unfold value_of, linear. cbn. do 2 f_equal. ring.
    - rewrite fmt_neg in * by exact D. cbn [app length] in *.
      destruct n as [|[|[|[|n]]]]; try lia. rewrite ?mt_plus, ?mt_minus. rewrite product_times by apply lin_terms_cont; cbv beta iota.
      rewrite IH; [|exact Hc|unfold nums; lia]. unfold value_of, linear. cbn. do 2 f_equal. ring.
    - cbn [app length] in *.
      destruct n as [|[|[|[|n]]]]; try lia. rewrite ?mt_plus, ?mt_minus. rewrite product_var by apply lin_terms_cont; cbv beta iota.
      rewrite IH; [|exact Hc|unfold nums; lia]. unfold value_of, linear. cbn. do 2 f_equal. ring.
    - rewrite IH; [|exact Hc|unfold nums; lia]. unfold value_of, linear. cbn. do 2 f_equal. ring.
  Qed.

  Lemma more_terms_bad cs : forall n xs acc, no_positive N (firstn (length xs) cs) = false ->
    3 + length (lin_terms true true (nums cs xs)) <= n ->
    more_terms n acc (lin_terms true true (nums cs xs)) = None.
  Proof.
    induction cs as [|c cs IH]; intros n [|x xs] acc Hc Hn; try discriminate.
    unfold nums in *. cbn [map combine lin_terms length firstn no_positive] in *.
    destruct (kind_of c) as [A B C W|A B C W|A B C D W|A B C D W|A B C D W]; rewrite A, ?B, ?C, ?D in *; cbn [negb andb] in Hc; cbn [andb].
    - rewrite fmt_pos by exact B. destruct n; reflexivity.
    - destruct n; reflexivity.
    - rewrite fmt_neg in * by exact D. cbn [app length] in *. destruct n as [|[|[|[|n]]]]; try lia.
      rewrite ?mt_plus, ?mt_minus. rewrite product_times by apply lin_terms_cont; cbv beta iota. apply IH; [exact Hc|unfold nums; lia].
    - cbn [app length] in *. destruct n as [|[|[|n]]]; try lia.
      rewrite ?mt_plus, ?mt_minus. rewrite product_var by apply lin_terms_cont; cbv beta iota. apply IH; [exact Hc|unfold nums; lia].
    - now apply IH.
  Qed.

  Lemma evaluate_zero cs xs : forall n, 4 + length (lin_terms true true (nums cs xs)) <= n ->
    match product n (lin_terms true true (nums cs xs)) with Some (v, r) => more_terms n v r | None => None end
    = if starts_well N (firstn (length xs) cs) then Some (value_of cs xs f0) else None.
  Proof.
    revert xs. induction cs as [|c cs IH]; intros [|x xs] n Hn.
    1-3: destruct n; reflexivity.
    unfold nums, value_of in *. cbn [map combine lin_terms length firstn starts_well] in *.
    destruct (kind_of c) as [A B C W|A B C W|A B C D W|A B C D W|A B C D W]; rewrite A, ?B, ?C, ?D in *; rewrite W; cbn [andb] in *.
    - rewrite fmt_pos in * by exact B. cbn [app length] in *.
      destruct n as [|[|[|n]]]; try lia. rewrite product_times by apply lin_terms_cont; cbv beta iota.
      fold (nums cs xs); rewrite more_terms_ok; [|now left|unfold nums; lia]. unfold value_of, linear. cbn. do 2 f_equal. ring.
    - cbn [app length] in *.
      destruct n as [|[|n]]; try lia. rewrite product_var by apply lin_terms_cont; cbv beta iota.
      fold (nums cs xs); rewrite more_terms_ok; [|now left|unfold nums; lia]. unfold value_of, linear. cbn. do 2 f_equal. ring.
    - rewrite fmt_neg in * by exact D. cbn [app length] in *.
      destruct n as [|[|[|n]]]; try lia. rewrite product_minus_times by apply lin_terms_cont; cbv beta iota.
      destruct (no_positive N (firstn (length xs) cs)) eqn:P; [|fold (nums cs xs); apply more_terms_bad; [exact P|unfold nums; lia]].
      fold (nums cs xs); rewrite more_terms_ok; [|now right|unfold nums; lia]. unfold value_of, linear. cbn. do 2 f_equal. ring.
    - cbn [app length] in *.
      destruct n as [|[|[|n]]]; try lia. rewrite product_minus by apply lin_terms_cont; cbv beta iota.
      destruct (no_positive N (firstn (length xs) cs)) eqn:P; [|fold (nums cs xs); apply more_terms_bad; [exact P|unfold nums; lia]].
      fold (nums cs xs); rewrite more_terms_ok; [|now right|unfold nums; lia]. unfold value_of, linear. cbn. do 2 f_equal. ring.
    - rewrite IH by exact Hn. destruct (starts_well N _); [|reflexivity]. unfold value_of, linear. cbn. do 2 f_equal. ring.
  Qed.

  (** What the string of a linear combination with number coefficients says. *)
  Lemma lin_string_says xs cs k s : lin_string xs (Each (map (@Num N) cs)) (Num k) = Ok s ->
    assigned N env s = if feqb N k f0 && negb (starts_well N (firstn (length xs) cs)) then None else Some (value_of cs xs k).
  Proof.
    unfold lin_string. cbn [factor_rows bind all_zero]. intros E. injection E as <-. unfold assigned. cbn [assigns expression].
    unfold ComputeSpec.evaluate. fold (nums cs xs). cbn [all_zero]. destruct (feqb N k f0) eqn:K; cbn [andb].
    - apply (feqb_spec N) in K. subst k. cbn [app]. rewrite evaluate_zero by lia. destruct (starts_well N _); reflexivity.
    - destruct (lt k f0) eqn:S.
      + cbn [app length]. cbn [Nat.add]. rewrite product_minus_num by apply lin_terms_cont; cbv beta iota.
        rewrite more_terms_ok; [|left; now rewrite andb_comm|lia]. now rewrite opp_opp.
      + cbn [app length]. cbn [Nat.add]. rewrite product_num by apply lin_terms_cont; cbv beta iota.
        rewrite more_terms_ok; [|left; now rewrite andb_comm|lia]. reflexivity.
  Qed.
  Lemma written_exact c : not_fractional N c -> written N c = c.
  Proof.
    intros [->|[->|[->|[H|H]]]].
    - unfold written. rewrite (lt_asym _ _ (zero_lt_one N)), !(flt_irrefl N), (lt_asym _ _ m1_neg). reflexivity.
    - unfold written. rewrite (flt_irrefl N), (zero_lt_one N). reflexivity.
    - destruct (kind_of (fopp N f1)) as [A B C W|A B C W|A B C D W|A B C D W|A B C D W].
      + rewrite m1_neg in B. discriminate.
      + rewrite m1_neg in C. discriminate.
      + rewrite (flt_irrefl N) in C. discriminate.
      + exact W.
      + rewrite m1_neg in D. discriminate.
    - unfold written. now rewrite H.
    - destruct (kind_of c) as [A B C W|A B C W|A B C D W|A B C D W|A B C D W]; try exact W.
      + apply ltm1_neg in H. congruence.
      + congruence.
      + congruence.
  Qed.
  Lemma written_all cs : Forall (not_fractional N) cs -> map (written N) cs = cs.
  Proof. induction 1 as [|c cs H _ IH]; cbn; [reflexivity|]. now rewrite written_exact, IH. Qed.
  Lemma lin_string_right xs cs k s : lin_string xs (Each (map (@Num N) cs)) (Num k) = Ok s ->
    Forall (not_fractional N) cs -> k <> f0 \/ starts_well N (firstn (length xs) cs) = true ->
    assigned N env s = Some (linear N env (combine cs xs) k).
  Proof.
    intros H F C. rewrite (lin_string_says _ _ _ _ H). unfold value_of. rewrite (written_all _ F).
    destruct C as [C|C]; [|now rewrite C, andb_comm].
    destruct (feqb N k f0) eqn:E; [apply (feqb_spec N) in E; contradiction|reflexivity].
  Qed.
  Lemma map_repeat' {A B} (f : A -> B) a n : map f (repeat a n) = repeat (f a) n.
  Proof. induction n; cbn; [reflexivity|now rewrite IHn]. Qed.
  Lemma lin_string_all xs c k : lin_string xs (All (Num c)) (Num k) = lin_string xs (Each (map (@Num N) (repeat c (length xs)))) (Num k).
  Proof. unfold lin_string. cbn [factor_rows bind]. rewrite map_repeat'. reflexivity. Qed.

  (** ** Power combinations *)
  Definition pow_terms (xps : list (nat * N)) : list (token N) := flat_map (fun xp => [TTimes; TVar (fst xp); TPow] ++ fmt (Num (snd xp))) xps.
  Lemma signed_power n x p ts : cont ts -> signed N env (4 + n) ([TVar x; TPow] ++ fmt (Num p) ++ ts) = Some (fpow N (env x) p, ts).
  Proof.
    intros H. cbn [fmt]. destruct (lt p f0).
    - destruct ts as [|[]]; cbn in *; try rewrite opp_opp; reflexivity || contradiction.
    - destruct ts as [|[]]; cbn in *; reflexivity || contradiction.
  Qed.
  Lemma pow_terms_cont' xps : match pow_terms xps with TPow :: _ => False | _ => True end.
  Proof. destruct xps as [|[x p] r]; exact I. Qed.
  Lemma signed_power' n x p xps : signed N env (4 + n) ([TVar x; TPow] ++ fmt (Num p) ++ pow_terms xps) = Some (fpow N (env x) p, pow_terms xps).
  Proof.
    pose proof (pow_terms_cont' xps) as H. cbn [fmt]. destruct (lt p f0); destruct (pow_terms xps) as [|[]]; cbn in *; try rewrite opp_opp; reflexivity || contradiction.
  Qed.
  Lemma more_factors_pow xps : forall n acc, 4 + length (pow_terms xps) <= n ->
    more_factors N env n acc (pow_terms xps) = Some (power N env xps acc, []).
  Proof.
    induction xps as [|[x p] r IH]; intros n acc Hn.
    - destruct n; [cbn in Hn; lia|reflexivity].
    - change (pow_terms ((x, p) :: r)) with (TTimes :: [TVar x; TPow] ++ fmt (Num p) ++ pow_terms r) in *.
      cbn [length] in Hn. rewrite !app_length in Hn.
      destruct n as [|[|[|[|[|n]]]]]; try lia. rewrite mf_times.
      change (S (S (S (S n)))) with (4 + n).
      rewrite signed_power'. cbv beta iota. rewrite IH; [reflexivity|]. change (length [TVar x; TPow]) with 2 in Hn. lia.
  Qed.
  Lemma pow_string_right xs ps k s : pow_string xs (Each (map (@Num N) ps)) (Num k) = Ok s -> k <> f0 ->
    assigned N env s = Some (power N env (combine xs ps) k).
  Proof.
    intros E Hk. unfold pow_string in E. cbn [factor_rows bind all_zero] in E.
    destruct (feqb N k f0) eqn:K; [apply (feqb_spec N) in K; contradiction|]. injection E as <-.
    unfold assigned. cbn [assigns expression].
    match goal with |- context [flat_map ?f (combine xs (map ?g ps))] =>
      replace (flat_map f (combine xs (map g ps))) with (pow_terms (combine xs ps))
        by (clear; revert ps; induction xs as [|x xs IH]; intros [|p ps]; try reflexivity; cbn; rewrite IH; reflexivity) end.
    unfold ComputeSpec.evaluate. set (T := pow_terms (combine xs ps)).
    assert (P : product (4 + length (fmt (Num k) ++ T)) (fmt (Num k) ++ T) = Some (power N env (combine xs ps) k, [])).
    { pose proof (pow_terms_cont' (combine xs ps)) as HT. fold T in HT.
      assert (S1 : forall n c, signed N env (S n) (TNum c :: T) = Some (c, T)).
      { intros n c. clear -HT. cbn. destruct T as [|[]]; reflexivity || contradiction. }
      assert (S2 : forall n c, signed N env (S (S n)) (TMinus :: TNum c :: T) = Some (fopp N c, T)).
      { intros n c. change (signed N env (S (S n)) (TMinus :: TNum c :: T)) with (match signed N env (S n) (TNum c :: T) with Some (v, r2) => Some (fopp N v, r2) | None => None end). now rewrite S1. }
      unfold ComputeSpec.product. cbn [fmt]. destruct (lt k f0); cbn [app length Nat.add].
      - rewrite S2, opp_opp. subst T. apply more_factors_pow. lia.
      - rewrite S1. subst T. apply more_factors_pow. lia. }
    assert (Q : forall o n, o = Some (power N env (combine xs ps) k, []) -> match o with Some (v, r) => more_terms (S n) v r | None => None end = Some (power N env (combine xs ps) k)) by (intros o n ->; reflexivity).
    exact (Q _ _ P).
  Qed.
  Lemma pow_string_all xs c k : pow_string xs (All (Num c)) (Num k) = pow_string xs (Each (map (@Num N) (repeat c (length xs)))) (Num k).
  Proof. unfold pow_string. cbn [factor_rows bind]. rewrite map_repeat'. reflexivity. Qed.
End Proofs.
