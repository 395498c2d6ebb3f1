(** Proofs about body_313. *)
From Coq Require Import Lia.
From Verif Require Import PyBase PromotionsModel IndexModel ArithModel ArithSpec ArithProofs FunModel FunProofs RotModel.
Local Open Scope list_scope.

Lemma Forall2_weaken {A B} (P Q : A -> B -> Prop) l1 l2 : (forall a b, P a b -> Q a b) -> Forall2 P l1 l2 -> Forall2 Q l1 l2.
Proof. intros I H. induction H; constructor; auto. Qed.

Section Rot.
  Context (N : numbers).
  Definition creates (s : stmt N) : Prop := match s with SNeg _ _ | SBin _ _ _ _ | SFun _ _ _ => True | _ => False end.
  Lemma dedup_grows (st : store N) seen args : length st <= length (fst (dedup st seen args)).
  Proof.
    revert st seen. induction args as [|a r IH]; intros st seen; cbn; [lia|]. destruct (existsb _ _).
    - specialize (IH (st ++ [PowComb [a] (All (Num f1)) (Num f1) (match shape_of st a with Some s => s | None => [] end)]) (length st :: seen)).
      destruct (dedup _ _ r) as [s l]. cbn in *. rewrite app_length in IH. cbn in IH. lia.
    - specialize (IH st (a :: seen)). destruct (dedup _ _ r) as [s l]. exact IH.
  Qed.
  Lemma lin_new (st : store N) args cs k st2 v : linear_combination st args cs k = Ok (st2, v) -> length st <= v.
  Proof. unfold linear_combination. intros H. pose proof (dedup_grows st [] args) as L. destruct (dedup st [] args) as [s l]. destruct (check_args s l); [|discriminate]. injection H as <- <-. exact L. Qed.
  Lemma pow_new (st : store N) args cs k st2 v : power_combination st args cs k = Ok (st2, v) -> length st <= v.
  Proof. unfold power_combination. intros H. pose proof (dedup_grows st [] args) as L. destruct (dedup st [] args) as [s l]. destruct (check_args s l); [|discriminate]. injection H as <- <-. exact L. Qed.
  Lemma exec_new (st : store N) env s st2 v : creates s -> exec st env s = Ok (st2, v) -> length st <= v.
  Proof.
    intros C H. destruct s as [p|p|o p q|o p l|o l p|f p]; cbn [creates] in C; try contradiction; cbn [exec] in H.
    - destruct (lookup env p) as [x|]; [|discriminate]. eapply lin_new, H.
    - destruct (lookup env p) as [x|]; [|discriminate]. destruct (lookup env q) as [y|]; [|discriminate]. cbn [bind] in H.
      destruct o; cbn in H; try discriminate; (eapply lin_new, H) || (eapply pow_new, H).
    - destruct (lookup env p) as [x|]; [|discriminate]. cbn [bind] in H. unfold elem in H. destruct (shape_of st x); [|discriminate]. injection H as <- <-. lia.
  Qed.
  Lemma run_app prog1 : forall prog2 (st : store N) env, run st env (prog1 ++ prog2) = bind (run st env prog1) (fun r => run (fst r) (snd r) prog2).
  Proof. induction prog1 as [|s r IH]; intros prog2 st env; [reflexivity|]. cbn [run app]. destruct (exec st env s) as [[st1 v]|e]; [cbn [bind]; apply IH|reflexivity]. Qed.

  (** One expression. *)
  Lemma expression (st : store N) p q r prog sh : shape_of st p = Some sh -> shape_of st q = Some sh -> shape_of st r = Some sh ->
    all_fit N 3 prog -> (exists l s, prog = l ++ [s] /\ creates s) ->
    exists st1 env, run st [p; q; r] prog = Ok (st1, env) /\ shape_of st1 (last env p) = Some sh /\ (exists more, st1 = st ++ more) /\
      length st <= last env p /\
      forall lv i, value N lv st1 (last env p) i = nth (length prog + 2) (meaning N [value N lv st p; value N lv st q; value N lv st r] prog) (fun _ => f0) i.
  Proof.
    intros Sp Sq Sr F (l & s & Hl & Hs).
    assert (U : forall v, In v [p; q; r] -> shape_of st v = Some sh) by (intros v [<-|[<-|[<-|[]]]]; assumption).
    assert (G : good N st [p; q; r]) by (intros v Hv; eapply shape_valid, U, Hv).
    destruct (run_fits N prog st _ _ U F) as (st1 & env & E & S1).
    pose proof (run_sound N _ _ _ _ _ G E) as (M & (rs & Re) & _ & _ & L & _ & V). cbn [length] in L.
    assert (Ne : env <> []) by (intros ->; cbn in L; lia). exists st1, env. split; [exact E|].
    rewrite (last_nth env p p Ne). split; [apply S1, nth_In; destruct env; [congruence|cbn; lia]|]. split; [exact M|]. split.
    - rewrite <- (last_nth env p p Ne). rewrite Hl, run_app in E. destruct (run st [p; q; r] l) as [[st0 env0]|] eqn:E0; [|discriminate]. cbn [bind fst snd run] in E.
      destruct (exec st0 env0 s) as [[st2 v]|] eqn:Ex; [|discriminate]. cbn [bind fst snd] in E. injection E as <- <-. rewrite last_app_cons.
      pose proof (run_sound N _ _ _ _ _ G E0) as ((m0 & ->) & _). apply exec_new in Ex; [|exact Hs]. rewrite app_length in Ex. lia.
    - intros lv i. specialize (V lv). cbn [map] in V. rewrite <- (same_nth N _ _ _ i V), L. replace (3 + length prog - 1) with (length prog + 2) by lia.
      rewrite (nth_indep env p 0) by lia. symmetry. erewrite nth_indep; [rewrite map_nth; reflexivity|]. rewrite map_length. lia.
  Qed.

  (** Assignment to one element of a 3 by 3 concatenation. *)
  Definition small (z : Z) : Prop := z = 0%Z \/ z = 1%Z \/ z = 2%Z.
  Lemma set_element c i j n s : small i -> small j ->
    (s <> [1; 1] -> setitem [3; 3] c (KeyTuple [KI i; KI j]) n s = (c, Err ValueError)) /\
    (s = [1; 1] -> ~ In n (dkeys (c_tgt c)) -> ~ In (3 * i + j)%Z (c_checked c) ->
     exists d, setitem [3; 3] c (KeyTuple [KI i; KI j]) n s =
       (Concat (dset (c_tgt c) n ([1; 1], [(3 * i + j)%Z])) (c_checked c ++ [(3 * i + j)%Z]) true d, Ok tt)).
  Proof.
    intros Hi Hj.
    assert (T : tgt_indices_of [3; 3] (KeyTuple [KI i; KI j]) = Ok ([1; 1], [(3 * i + j)%Z]))
      by (destruct Hi as [->|[->| ->]], Hj as [->|[->| ->]]; reflexivity).
    unfold setitem. rewrite T. split.
    - intros Hs. destruct (shape_eqb [1; 1] s) eqn:E; [apply shape_eqb_spec in E; congruence|reflexivity].
    - intros -> Hn Hc. rewrite (proj2 (shape_eqb_spec [1; 1] [1; 1]) eq_refl). cbn [negb].
      assert (A : amax_ge [(3 * i + j)%Z] (size_of [3; 3]) = false) by (destruct Hi as [->|[->| ->]], Hj as [->|[->| ->]]; reflexivity).
      rewrite A, (proj2 (dmem_false _ _) Hn). cbn [existsb]. rewrite Bool.orb_false_r.
      assert (Z : zmem (3 * i + j) (c_checked c) = false).
      { unfold zmem. apply Bool.not_true_is_false. intros K. apply existsb_exists in K as (z & Hz & Ez). apply Z.eqb_eq in Ez. subst z. contradiction. }
      rewrite Z. eexists. reflexivity.
  Qed.

  Definition flat_of (c : Z * Z * list (stmt N)) : Z := (3 * fst (fst c) + snd (fst c))%Z.
  Definition code_ok (c : Z * Z * list (stmt N)) : Prop :=
    small (fst (fst c)) /\ small (snd (fst c)) /\ all_fit N 3 (snd c) /\ exists l s, snd c = l ++ [s] /\ creates s.
  Lemma assign_ok name : (forall u v, name u = name v -> u = v) -> forall p q r code (st : store N) c,
    shape_of st p = Some [1; 1] -> shape_of st q = Some [1; 1] -> shape_of st r = Some [1; 1] ->
    Forall code_ok code -> NoDup (map flat_of code) -> (forall z, In z (map flat_of code) -> ~ In z (c_checked c)) ->
    (forall n, In n (dkeys (c_tgt c)) -> exists v, n = name v /\ v < length st) ->
    exists st2 c2 xs, assign_elements name [3; 3] p q r code st c = (st2, c2, Ok tt) /\ (exists more, st2 = st ++ more) /\
      (forall n, In n (dkeys (c_tgt c)) -> dget (c_tgt c2) n = dget (c_tgt c) n) /\
      dkeys (c_tgt c2) = dkeys (c_tgt c) ++ map name xs /\ (forall x, In x xs -> length st <= x < length st2) /\
      Forall2 (fun k x => dget (c_tgt c2) (name x) = Some ([1; 1], [flat_of k]) /\ shape_of st2 x = Some [1; 1] /\
        forall lv i, value N lv st2 x i = nth (length (snd k) + 2) (meaning N [value N lv st p; value N lv st q; value N lv st r] (snd k)) (fun _ => f0) i) code xs.
  Proof.
    intros Inj p q r. induction code as [|[[i j] prog] rest IH]; intros st c Sp Sq Sr Hc Nd Ck Tg.
    { exists st, c, []. cbn. rewrite app_nil_r. split; [reflexivity|]. split; [exists []; now rewrite app_nil_r|]. split; [auto|]. split; [reflexivity|]. split; [intros x []|constructor]. }
    inversion Hc as [|? ? (Hi & Hj & Fp & Hp) Hr]; subst. cbn [fst snd] in *. inversion Nd as [|? ? Nf Nr]; subst.
    destruct (expression st p q r prog _ Sp Sq Sr Fp Hp) as (st1 & env & E & S1 & [more ->] & Lx & V).
    cbn [assign_elements]. rewrite E, S1. set (x := last env p) in *. pose proof (shape_valid N _ _ _ S1) as Lx2.
    assert (Fn : ~ In (name x) (dkeys (c_tgt c))). { intros K. apply Tg in K as (v & K & Lv). apply Inj in K. lia. }
    destruct (set_element c i j (name x) [1; 1] Hi Hj) as [_ Hset]. destruct Hset as [d Hset]; [reflexivity|exact Fn|apply Ck; now left|]. rewrite Hset.
    specialize (IH (st ++ more) (Concat (dset (c_tgt c) (name x) ([1; 1], [(3 * i + j)%Z])) (c_checked c ++ [(3 * i + j)%Z]) true d)).
    cbn [c_tgt c_checked] in IH. destruct IH as (st2 & c2 & xs & E2 & [m2 ->] & Keep & Keys & Rng & All); auto.
    { rewrite shape_ext; [exact Sp|eapply shape_valid, Sp]. } { rewrite shape_ext; [exact Sq|eapply shape_valid, Sq]. } { rewrite shape_ext; [exact Sr|eapply shape_valid, Sr]. }
    { intros z Hz K. apply in_app_iff in K as [K|[<-|[]]]; [eapply Ck; [right; exact Hz|exact K]|contradiction]. }
    { intros n Hn. apply In_dkeys_dset in Hn. destruct Hn as [->|Hn]; [exists x; auto|]. destruct (Tg n Hn) as (v & -> & Lv). exists v. rewrite app_length. split; [reflexivity|lia]. }
    exists ((st ++ more) ++ m2), c2, (x :: xs). split; [exact E2|]. split; [rewrite <- app_assoc; eexists; reflexivity|].
    assert (Kx : In (name x) (dkeys (dset (c_tgt c) (name x) ([1; 1], [(3 * i + j)%Z])))) by (apply In_dkeys_dset; now left).
    split; [|split; [|split]].
    - intros n Hn. rewrite Keep by (apply In_dkeys_dset; now right). apply dget_dset_other. intros ->. contradiction.
    - rewrite Keys, dkeys_dset, (proj2 (dmem_false _ _) Fn), <- app_assoc. reflexivity.
    - intros y [<-|Hy]; [rewrite app_length; lia|]. apply Rng in Hy. rewrite !app_length in *. lia.
    - constructor.
      + split; [rewrite Keep by exact Kx; apply dget_dset_same|]. split; [rewrite shape_ext by exact Lx2; exact S1|]. intros lv k. rewrite value_ext by exact Lx2. apply V.
      + eapply Forall2_weaken; [|exact All]. cbn beta. intros k y (A & B & C). split; [exact A|]. split; [exact B|]. intros lv k0. rewrite C.
        rewrite !(value_ext N lv st more) by (eapply shape_valid; eassumption). reflexivity.
  Qed.
  Lemma element_code_ok : Forall code_ok (element_code N).
  Proof.
    unfold element_code. repeat (apply Forall_cons; [unfold code_ok; cbn [fst snd]; split; [unfold small; auto|]; split; [unfold small; auto|]; split;
      [cbn [all_fit fits]; repeat split; try lia; discriminate|
       match goal with |- exists l s, ?p = _ /\ _ => exists (removelast p), (last p (SFun N Cos 0)); split; [reflexivity|exact I] end]|]). constructor.
  Qed.
  Lemma element_code_distinct : NoDup (map flat_of (element_code N)).
  Proof. cbn. repeat constructor; cbn; lia. Qed.
End Rot.
