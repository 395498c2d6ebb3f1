(** C84: rotation matrices. *)
From Coq Require Import Reals Lra Lia.
From Verif Require Import PyBase PromotionsModel IndexModel ArithModel ArithSpec ArithProofs FunProofs RealNumbers RotModel RotProofs.
Local Open Scope R_scope.

(** 3 by 3 matrices, as functions of row and column. *)
Definition matrix := nat -> nat -> R.
Definition mul3 (A B : matrix) : matrix := fun i j => A i 0%nat * B 0%nat j + A i 1%nat * B 1%nat j + A i 2%nat * B 2%nat j.
Definition transposed (A : matrix) : matrix := fun i j => A j i.
Definition identity : matrix := fun i j => if Nat.eqb i j then 1 else 0.
Definition det3 (A : matrix) : R :=
  A 0%nat 0%nat * (A 1%nat 1%nat * A 2%nat 2%nat - A 1%nat 2%nat * A 2%nat 1%nat)
  - A 0%nat 1%nat * (A 1%nat 0%nat * A 2%nat 2%nat - A 1%nat 2%nat * A 2%nat 0%nat)
  + A 0%nat 2%nat * (A 1%nat 0%nat * A 2%nat 1%nat - A 1%nat 1%nat * A 2%nat 0%nat).
Definition rows (l : list (list R)) : matrix := fun i j => nth j (nth i l []) 0.
(** Coordinates in a frame rotated by the angle a about the third axis, about the first axis. *)
Definition about_3 (a : R) : matrix := rows [[cos a; sin a; 0]; [- sin a; cos a; 0]; [0; 0; 1]].
Definition about_1 (a : R) : matrix := rows [[1; 0; 0]; [0; cos a; sin a]; [0; - sin a; cos a]].
Definition below3 (i : nat) : Prop := (i < 3)%nat.
Lemma below3_cases i : below3 i -> i = 0%nat \/ i = 1%nat \/ i = 2%nat.
Proof. unfold below3. lia. Qed.

Lemma F2_length {A B} (P : A -> B -> Prop) l1 l2 : Forall2 P l1 l2 -> length l1 = length l2.
Proof. induction 1; cbn; congruence. Qed.

(** C84 for angles of shape (1, 1): body_313 defines every element of R exactly once; the elements
    are those of the product of rotations about the axes 3, 1, 3, a matrix with orthonormal rows
    and columns and determinant 1. *)
Theorem c84_body_313_partial : forall (name : nat -> string) (st : store reals) p q r,
  (forall u v, name u = name v -> u = v) ->
  shape_of st p = Some [1; 1]%nat -> shape_of st q = Some [1; 1]%nat -> shape_of st r = Some [1; 1]%nat ->
  exists st2 c2 (el : nat -> nat -> nat), body_313 name [3; 3]%nat st concat0 p q r = (st2, c2, Ok tt) /\
    (exists more, st2 = st ++ more) /\ length (c_tgt c2) = 9%nat /\
    (forall i j, below3 i -> below3 j -> dget (c_tgt c2) (name (el i j)) = Some ([1; 1]%nat, [Z.of_nat (3 * i + j)])) /\
    forall input, let V : matrix := fun i j => value reals input st2 (el i j) 0%nat in
      let angle v := value reals input st v 0%nat in
      (forall i j, below3 i -> below3 j ->
        V i j = mul3 (about_3 (angle p)) (mul3 (about_1 (angle q)) (about_3 (angle r))) i j /\
        mul3 V (transposed V) i j = identity i j /\ mul3 (transposed V) V i j = identity i j) /\
      det3 V = 1.
Proof.
  intros name st p q r Inj Sp Sq Sr.
  destruct (assign_ok reals name Inj p q r (element_code reals) st concat0 Sp Sq Sr) as (st2 & c2 & xs & E & M & _ & K & _ & A).
  { apply element_code_ok. } { apply element_code_distinct. } { intros z _ []. } { intros n []. }
  exists st2, c2, (fun i j => nth (3 * i + j) xs 0%nat). split; [exact E|]. split; [exact M|].
  assert (L : length xs = 9%nat) by (apply F2_length in A; symmetry; exact A).
  split; [apply (f_equal (@length _)) in K; cbn in K; unfold dkeys in K; rewrite !map_length in K; lia|].
  destruct xs as [|x0 [|x1 [|x2 [|x3 [|x4 [|x5 [|x6 [|x7 [|x8 [|]]]]]]]]]]; cbn in L; try discriminate. clear L. unfold element_code in A.
  repeat match goal with H : Forall2 _ (_ :: _) (_ :: _) |- _ => inversion H; subst; clear H end. cbn beta in *.
  repeat match goal with H : dget _ _ = _ /\ _ /\ _ |- _ => let a := fresh "D" in let b := fresh "S" in let c := fresh "Val" in destruct H as (a & b & c) end.
  split.
  - intros i j Hi Hj. apply below3_cases in Hi as [->|[->| ->]]; apply below3_cases in Hj as [->|[->| ->]]; assumption.
  - intros input V angle.
    assert (Sq2 : forall a : R, cos a * cos a = 1 - sin a * sin a) by (intros a; pose proof (sin2_cos2 a) as H; unfold Rsqr in H; lra).
    assert (P : forall i j, below3 i -> below3 j -> V i j = mul3 (about_3 (angle p)) (mul3 (about_1 (angle q)) (about_3 (angle r))) i j).
    { intros i j Hi Hj. unfold V, angle. clear V angle. apply below3_cases in Hi as [->|[->| ->]]; apply below3_cases in Hj as [->|[->| ->]]; cbn [nth Nat.mul Nat.add];
        match goal with H : forall lv i, value _ lv st2 ?x i = _ |- value _ _ st2 ?x _ = _ => rewrite H end; cbn; unfold mul3, bin_meaning, rows; cbn; ring. }
    assert (B : below3 0 /\ below3 1 /\ below3 2) by (unfold below3; lia). destruct B as (B0 & B1 & B2).
    split; [intros i j Hi Hj; split; [now apply P|]|].
    + unfold mul3 at 1 2, transposed. rewrite !P by assumption. clear P V E.
      generalize (angle p) (angle q) (angle r). intros a b c. pose proof (Sq2 a) as Ha. pose proof (Sq2 b) as Hb. pose proof (Sq2 c) as Hc.
      apply below3_cases in Hi as [->|[->| ->]]; apply below3_cases in Hj as [->|[->| ->]]; unfold mul3, about_1, about_3, rows, identity; cbn; split; ring [Ha Hb Hc].
    + unfold det3. rewrite !P by assumption. clear P V E.
      generalize (angle p) (angle q) (angle r). intros a b c. pose proof (Sq2 a) as Ha. pose proof (Sq2 b) as Hb. pose proof (Sq2 c) as Hc.
      unfold mul3, about_1, about_3, rows; cbn. ring [Ha Hb Hc].
Qed.
Print Assumptions c84_body_313_partial.

Lemma elem_ok (N : numbers) (st : store N) f x s : shape_of st x = Some s -> elem st f x = Ok (st ++ [Elem N f x s], length st).
Proof. intros H. unfold elem. now rewrite H. Qed.
Lemma mul_mismatch (N : numbers) (st : store N) x y sx sy : shape_of st x = Some sx -> shape_of st y = Some sy -> sx <> sy -> ArithModel.mul st x (OVar N y) = Err ValueError.
Proof.
  intros Sx Sy H. assert (G : good N st [x; y]) by (intros v [<-|[<-|[]]]; eapply shape_valid; eassumption).
  pose proof (exec_accept N st [x; y] (SBin N OpMul 0 1) x sx G eq_refl Sx y sy eq_refl Sy) as A. cbn beta iota in A.
  destruct (shape_eqb sx sy) eqn:E; [apply shape_eqb_spec in E; contradiction|]. exact A.
Qed.
(** C84: variables of all other shapes are rejected; in particular, body_313 never accepts angles of
    the default shape (1,). *)
Theorem c84_other_shapes_refuted : forall (N : numbers) (name : nat -> string) (st : store N) p q r sp sq sr,
  shape_of st p = Some sp -> shape_of st q = Some sq -> shape_of st r = Some sr ->
  ~ (sp = [1; 1]%nat /\ sq = [1; 1]%nat /\ sr = [1; 1]%nat) ->
  exists st2 c2, body_313 name [3; 3]%nat st concat0 p q r = (st2, c2, Err ValueError).
Proof.
  intros N name st p q r sp sq sr Sp Sq Sr H.
  destruct (list_eq_dec Nat.eq_dec sp sr) as [<-|Npr].
  - destruct (list_eq_dec Nat.eq_dec sp sq) as [<-|Npq].
    + unfold body_313. cbn [assign_elements element_code].
      destruct (expression N st p q r (snd (hd (0%Z, 0%Z, []) (element_code N))) sp Sp Sq Sr) as (st1 & env & E & S1 & _).
      { cbn. repeat split; try lia; discriminate. } { cbn [hd element_code snd]. match goal with |- exists l s, ?p = _ /\ _ => exists (removelast p), (last p (SFun N Cos 0)); split; [reflexivity|exact I] end. }
      cbn [hd element_code snd] in E. rewrite E, S1.
      destruct (set_element concat0 0 0 (name (last env p)) sp) as [K _]; [now left|now left|]. rewrite K; [eauto|]. intros ->. apply H. auto.
    + unfold body_313. cbn [assign_elements element_code run exec lookup nth_error bind].
      rewrite (elem_ok N st Cos p sp Sp). cbn [lookup bind fst snd app nth_error]. set (st1 := st ++ [Elem N Cos p sp]).
      assert (S1 : shape_of st1 r = Some sp) by (unfold st1; rewrite shape_ext by (eapply shape_valid, Sr); exact Sr).
      rewrite (elem_ok N st1 Cos r sp S1). cbn [lookup bind fst snd app nth_error apply_bin]. set (st2 := st1 ++ [Elem N Cos r sp]).
      assert (Sx : shape_of st2 (length st) = Some sp) by (unfold st2; rewrite shape_ext by (unfold st1; rewrite app_length; cbn; lia); apply shape_new).
      assert (Sy : shape_of st2 (length st1) = Some sp) by apply shape_new.
      assert (G : good N st2 [length st; length st1]) by (intros v [<-|[<-|[]]]; eapply shape_valid; eassumption).
      pose proof (exec_accept N st2 _ (SBin N OpMul 0 1) (length st) sp G eq_refl Sx (length st1) sp eq_refl Sy) as A. cbn beta iota in A.
      rewrite (proj2 (shape_eqb_spec sp sp) eq_refl) in A. destruct A as [[st3 v] A]. pose proof (exec_sound N _ _ _ _ _ G A) as ((m & E3) & _).
      change (ArithModel.mul st2 (length st) (OVar N (length st1)) = Ok (st3, v)) in A. rewrite A. cbn [lookup bind fst snd app nth_error].
      assert (X : forall u s, shape_of st u = Some s -> shape_of st3 u = Some s).
      { intros u s Hu. pose proof (shape_valid N _ _ _ Hu). rewrite E3. unfold st2, st1. rewrite <- !app_assoc, shape_ext by assumption. exact Hu. }
      rewrite (elem_ok N st3 Sin p sp (X _ _ Sp)). cbn [lookup bind fst snd app nth_error]. set (st4 := st3 ++ [Elem N Sin p sp]).
      assert (S4 : shape_of st4 q = Some sq) by (unfold st4; rewrite shape_ext by (eapply shape_valid, X, Sq); exact (X _ _ Sq)).
      rewrite (elem_ok N st4 Cos q sq S4). cbn [lookup bind fst snd app nth_error apply_bin].
      rewrite (mul_mismatch N _ _ _ sp sq); [cbn [bind]; eauto| |apply shape_new|exact Npq].
      rewrite shape_ext by (unfold st4; rewrite app_length; cbn; lia). apply shape_new.
  - unfold body_313. cbn [assign_elements element_code run exec lookup nth_error bind].
    rewrite (elem_ok N st Cos p sp Sp). cbn [lookup bind fst snd app nth_error]. set (st1 := st ++ [Elem N Cos p sp]).
    assert (S1 : shape_of st1 r = Some sr) by (unfold st1; rewrite shape_ext by (eapply shape_valid, Sr); exact Sr).
    rewrite (elem_ok N st1 Cos r sr S1). cbn [lookup bind fst snd app nth_error apply_bin].
    rewrite (mul_mismatch N _ _ _ sp sr); [cbn [bind]; eauto| |apply shape_new|exact Npr]. rewrite shape_ext by (unfold st1; rewrite app_length; cbn; lia). apply shape_new.
Qed.
Print Assumptions c84_other_shapes_refuted.
(** The hypotheses of both theorems are met: two angles, one of them used twice. *)
Fixpoint unary (n : nat) : string := match n with O => EmptyString | S n => String "a" (unary n) end.
Lemma unary_injective u v : unary u = unary v -> u = v.
Proof. revert v. induction u as [|u IH]; intros [|v] H; try discriminate; [reflexivity|]. injection H as H. f_equal. auto. Qed.
Example c84_example : exists st2 c2, body_313 unary [3; 3]%nat (map (@Leaf reals) [[1; 1]; [1; 1]]%nat) concat0 0 1 0 = (st2, c2, Ok tt).
Proof.
  destruct (c84_body_313_partial unary (map (@Leaf reals) [[1; 1]; [1; 1]]%nat) 0 1 0 unary_injective eq_refl eq_refl eq_refl) as (st2 & c2 & _ & H & _). eauto.
Qed.
Example c84_default_shape : exists st2 c2, body_313 unary [3; 3]%nat (map (@Leaf reals) [[1]]%nat) concat0 0 0 0 = (st2, c2, Err ValueError).
Proof. apply (c84_other_shapes_refuted reals unary _ 0 0 0 [1%nat] [1%nat] [1%nat]); try reflexivity. intros [H _]. discriminate. Qed.
