(** Proofs about the arithmetic of variables. *)
From Coq Require Import Field.
From Verif Require Import PyBase PromotionsModel ArithModel ArithSpec.

Section Proofs.
  Context (N : numbers).
  Notation value := (value N). Notation values := (values N).

  Lemma values_snoc lv st e : values lv (st ++ [e]) = values lv st ++ [entry_value N lv (values lv st) e].
  Proof. unfold ArithSpec.values. now rewrite fold_left_app. Qed.
  Lemma values_length lv st : length (values lv st) = length st.
  Proof.
    induction st as [|e st IH] using rev_ind; [reflexivity|].
    now rewrite values_snoc, !app_length, IH.
  Qed.
  Lemma value_old lv st e v : v < length st -> value lv (st ++ [e]) v = value lv st v.
  Proof. intros H. unfold ArithSpec.value. rewrite values_snoc, app_nth1; [reflexivity|]. now rewrite values_length. Qed.
  Lemma value_ext lv st more v : v < length st -> value lv (st ++ more) v = value lv st v.
  Proof.
    intros H. induction more as [|e more IH] using rev_ind; [now rewrite app_nil_r|].
    rewrite app_assoc, value_old; [exact IH|]. rewrite app_length. lia.
  Qed.
  Lemma value_new lv st e : value lv (st ++ [e]) (length st) = entry_value N lv (values lv st) e.
  Proof. unfold ArithSpec.value. rewrite values_snoc. rewrite app_nth2; rewrite values_length; [|lia]. now rewrite Nat.sub_diag. Qed.

  Lemma shape_ext (st more : store N) v : v < length st -> shape_of (st ++ more) v = shape_of st v.
  Proof. intros H. unfold shape_of. now rewrite nth_error_app1. Qed.
  Lemma shape_new (st : store N) e : shape_of (st ++ [e]) (length st) = Some (entry_shape e).
  Proof. unfold shape_of. rewrite nth_error_app2, Nat.sub_diag; [reflexivity|lia]. Qed.
  Lemma shape_valid (st : store N) v s : shape_of st v = Some s -> v < length st.
  Proof. unfold shape_of. destruct (nth_error st v) eqn:E; [intros _|discriminate]. apply nth_error_Some. congruence. Qed.
  Lemma valid_shape (st : store N) v : v < length st -> exists s, shape_of st v = Some s.
  Proof. intros H. unfold shape_of. destruct (nth_error st v) eqn:E; [eexists; reflexivity|]. apply nth_error_None in E. lia. Qed.

  Definition rF := F_R (num_field N).
  Add Ring nring : rF.

  Lemma one_times lv st a s : a < length st ->
    forall i, value lv (st ++ [PowComb [a] (All (Num f1)) (Num f1) s]) (length st) i = value lv st a i.
  Proof.
    intros H i. rewrite value_new. cbn. unfold powcomb. cbn. rewrite (pow_one N).
    unfold ArithSpec.value. ring.
  Qed.

  (** ** dedup *)
  Record dedup_facts (st : store N) (seen args : list nat) (st2 : store N) (l : list nat) : Prop := {
    df_ext : exists more, st2 = st ++ more;
    df_len : length l = length args;
    df_valid : forall a, In a l -> a < length st2;
    df_nodup : NoDup l;
    df_fresh : forall a, In a l -> ~ In a seen;
    df_vals : forall lv k i, value lv st2 (nth k l 0) i = value lv st2 (nth k args 0) i;
    df_shapes : forall k, shape_of st2 (nth k l 0) = shape_of st2 (nth k args 0);
    df_first : forall k a, nth_error args k = Some a -> ~ In a seen -> ~ In a (firstn k args) -> nth_error l k = Some a;
    df_kept : NoDup args -> (forall a, In a args -> ~ In a seen) -> st2 = st /\ l = args;
    df_ord : ordered N st -> ordered N st2
  }.
  Lemma ordered_snoc st e : ordered N st ->
    (match e with
     | Leaf _ => True
     | LinComb args _ _ _ => forall a, In a args -> a < length st
     | PowComb args _ _ _ => forall a, In a args -> a < length st
     | Elem _ _ a _ | Expand _ a _ => a < length st
     | ExpA b a _ => a < length st /\ match b with OVar _ u => u < length st | OLit _ => True end
     end) ->
    ordered N (st ++ [e]).
  Proof.
    intros O H v x Hv. destruct (Nat.lt_ge_cases v (length st)) as [L|L].
    - rewrite nth_error_app1 in Hv by exact L. exact (O v x Hv).
    - rewrite nth_error_app2 in Hv by exact L. destruct (v - length st) as [|k] eqn:E; cbn in Hv; [|destruct k; discriminate].
      assert (Ev : v = length st) by lia. subst v. injection Hv as <-. exact H.
  Qed.
  Lemma dedup_spec st seen args st2 l : dedup st seen args = (st2, l) ->
    (forall a, In a args -> a < length st) -> (forall a, In a seen -> a < length st) ->
    dedup_facts st seen args st2 l.
  Proof.
    revert st seen st2 l. induction args as [|a r IH]; cbn [dedup]; intros st seen st2 l E Ha Hs.
    - injection E as <- <-. constructor; cbn; [|tauto|tauto|constructor|tauto|intros; reflexivity|intros; reflexivity| |tauto|tauto].
      + exists []. now rewrite app_nil_r.
      + intros k x Hk. now destruct k.
    - destruct (existsb (Nat.eqb a) seen) eqn:Ex.
      + destruct (valid_shape st a) as [s Sh]; [apply Ha; now left|]. rewrite Sh in E.
        destruct (dedup _ (length st :: seen) r) as [st3 l3] eqn:D. injection E as <- <-.
        set (e := PowComb [a] (All (Num f1)) (Num f1) s) in *.
        assert (L : length (st ++ [e]) = S (length st)) by (rewrite app_length; cbn; lia).
        apply IH in D; cycle 1.
        { intros b Hb. rewrite L. specialize (Ha b (or_intror Hb)). lia. }
        { intros b [<-|Hb]; rewrite L; [lia|]. specialize (Hs b Hb). lia. }
        destruct D as [[more ->] Dl Dv Dn Df Dvals Dsh Dfi Dk Do].
        assert (In a seen) as Ia. { apply existsb_exists in Ex as (y & Hy & Ey). apply Nat.eqb_eq in Ey. now subst. }
        assert (a < length st) as La by (apply Ha; now left).
        constructor.
        * exists ([e] ++ more). now rewrite app_assoc.
        * cbn. now rewrite Dl.
        * intros b [<-|Hb]; [|now apply Dv]. rewrite app_length, L. lia.
        * constructor; [|exact Dn]. intros Hin. exact (Df _ Hin (or_introl eq_refl)).
        * intros b [<-|Hb] Hin; [|exact (Df b Hb (or_intror Hin))]. specialize (Hs _ Hin). lia.
        * intros lv [|k] i; [|exact (Dvals lv k i)]. cbn. rewrite !(value_ext lv (st ++ [e])) by (rewrite L; lia).
          rewrite (value_old lv st e a) by exact La. now apply one_times.
        * intros [|k]; [|exact (Dsh k)]. cbn. rewrite !(shape_ext (st ++ [e])) by (rewrite L; lia).
          rewrite shape_new, (shape_ext st [e] a) by exact La. now rewrite Sh.
        * intros [|k] x Hk Hns Hnf; cbn in *; [injection Hk as ->; contradiction|].
          apply Dfi; [exact Hk| |tauto]. intros [Hx|Hx]; [|tauto]. subst x. specialize (Ha (length st)).
          apply nth_error_In in Hk. specialize (Ha (or_intror Hk)). lia.
        * intros _ Hd. exfalso. exact (Hd a (or_introl eq_refl) Ia).
        * intros O. apply Do. apply ordered_snoc; [exact O|]. intros b [<-|[]]. exact La.
      + destruct (dedup st (a :: seen) r) as [st3 l3] eqn:D. injection E as <- <-.
        apply IH in D; cycle 1.
        { intros b Hb. apply Ha. now right. }
        { intros b [<-|Hb]; [apply Ha; now left|now apply Hs]. }
        destruct D as [[more ->] Dl Dv Dn Df Dvals Dsh Dfi Dk Do].
        assert (~ In a seen) as Na.
        { intros Hin. enough (existsb (Nat.eqb a) seen = true) by congruence. apply existsb_exists. exists a. split; [exact Hin|apply Nat.eqb_refl]. }
        constructor.
        * now exists more.
        * cbn. now rewrite Dl.
        * intros b [<-|Hb]; [|now apply Dv]. rewrite app_length. specialize (Ha a (or_introl eq_refl)). lia.
        * constructor; [|exact Dn]. intros Hin. exact (Df _ Hin (or_introl eq_refl)).
        * intros b [<-|Hb]; [exact Na|]. intros Hin. exact (Df b Hb (or_intror Hin)).
        * intros lv [|k] i; [reflexivity|exact (Dvals lv k i)].
        * intros [|k]; [reflexivity|exact (Dsh k)].
        * intros [|k] x Hk Hns Hnf; cbn in *; [exact Hk|]. apply Dfi; [exact Hk| |tauto]. intros [->|Hx]; tauto.
        * intros ND Hd. inversion ND; subst. destruct Dk as [E1 E2]; [assumption| |].
          { intros b Hb [->|Hin]; [contradiction|]. exact (Hd b (or_intror Hb) Hin). }
          split; [exact E1|congruence].
        * exact Do.
  Qed.

  (** ** check_args *)
  Lemma same_shape_Ok (st : store N) s l s' : same_shape st s l = Ok s' -> s' = s /\ forall a, In a l -> shape_of st a = Some s.
  Proof.
    induction l as [|b r IH]; cbn; intros H; [injection H as <-; split; [reflexivity|intros ? []]|].
    destruct (shape_of st b) as [t|] eqn:Sb; [|discriminate]. destruct (shape_eqb s t) eqn:E; [|discriminate].
    apply shape_eqb_spec in E. subst t. destruct (IH H) as [-> K]. split; [reflexivity|]. intros a [<-|Ha]; auto.
  Qed.
  Lemma check_args_Ok (st : store N) args s : check_args st args = Ok s ->
    args <> [] /\ forall a, In a args -> shape_of st a = Some s.
  Proof.
    destruct args as [|a r]; [discriminate|]. intros H. split; [discriminate|].
    unfold check_args in H. destruct (shape_of st a) as [s0|] eqn:Sh; [|discriminate].
    apply same_shape_Ok in H as [-> H]. exact H.
  Qed.
  Lemma check_args_accept (st : store N) args s : args <> [] -> (forall a, In a args -> shape_of st a = Some s) -> check_args st args = Ok s.
  Proof.
    destruct args as [|a r]; [congruence|]. intros _ H. unfold check_args. rewrite (H a (or_introl eq_refl)).
    revert H. generalize (a :: r). intros l. induction l as [|b l IH]; intros H; [reflexivity|]. cbn.
    rewrite (H b (or_introl eq_refl)). rewrite (proj2 (shape_eqb_spec s s) eq_refl). apply IH. intros x Hx. apply H. now right.
  Qed.
  Lemma check_args_two (st : store N) a b sa sb : shape_of st a = Some sa -> shape_of st b = Some sb -> sa <> sb ->
    check_args st [a; b] = Err ValueError.
  Proof.
    intros Ha Hb Hn. cbn. rewrite Ha, Hb, (proj2 (shape_eqb_spec sa sa) eq_refl).
    destruct (shape_eqb sa sb) eqn:E; [apply shape_eqb_spec in E; contradiction|reflexivity].
  Qed.

  (** ** Recorded operations *)
  Definition recorded (st : store N) (args : list nat) (sh : option shape) (st2 : store N) (v : nat) (f : (nat -> arr N) -> nat -> N) : Prop :=
    (exists more, st2 = st ++ more) /\ v < length st2 /\ length st <= v /\ shape_of st2 v = sh /\ (ordered N st -> ordered N st2) /\
    forall lv i, value lv st2 v i = f lv i.

  Lemma args_values lv (st : store N) l args i : length l = length args ->
    (forall k, value lv st (nth k l 0) i = value lv st (nth k args 0) i) ->
    map (fun a => value lv st a i) l = map (fun a => value lv st a i) args.
  Proof.
    revert args. induction l as [|a r IH]; intros [|b s] L H; try discriminate; [reflexivity|].
    cbn. f_equal; [exact (H 0)|]. apply IH; [now injection L|]. intros k. exact (H (S k)).
  Qed.
  (* value of the operations, element by element *)
  Lemma lincomb_at cs (k : arr N) i : lincomb N cs k i = fold_left (fun acc ca => fadd N acc (fmul N (fst ca) (snd ca))) (map (fun ca => (fst ca i, snd ca i)) cs) (k i).
  Proof. unfold lincomb. generalize (k i). induction cs as [|c r IH]; intros x; cbn; [reflexivity|]. apply IH. Qed.
  Lemma powcomb_at cs (k : arr N) i : powcomb N cs k i = fold_left (fun acc ca => fmul N acc (fpow N (snd ca) (fst ca))) (map (fun ca => (fst ca i, snd ca i)) cs) (k i).
  Proof. unfold powcomb. generalize (k i). induction cs as [|c r IH]; intros x; cbn; [reflexivity|]. apply IH. Qed.
  Lemma pairs_at (cs vs : list (arr N)) i : map (fun ca => (fst ca i, snd ca i)) (combine cs vs) = combine (map (fun c => c i) cs) (map (fun v => v i) vs).
  Proof. revert vs. induction cs as [|c r IH]; intros [|v vs]; cbn; [reflexivity..|]. now rewrite IH. Qed.

  Definition lin_at (cs : list N) (vs : list N) (k : N) : N := fold_left (fun acc ca => fadd N acc (fmul N (fst ca) (snd ca))) (combine cs vs) k.
  Definition pow_at (cs : list N) (vs : list N) (k : N) : N := fold_left (fun acc ca => fmul N acc (fpow N (snd ca) (fst ca))) (combine cs vs) k.
  Definition factors_at (f : factors N) n i : list N := map (fun l => lit_at l i) (factor_list f n).

  Lemma linear_recorded st args cs k st2 v : (forall a, In a args -> a < length st) ->
    linear_combination st args cs k = Ok (st2, v) ->
    (exists s, forall a, In a args -> shape_of st a = Some s) /\
    recorded st args (shape_of st (hd 0 args)) st2 v (fun lv i => lin_at (factors_at cs (length args) i) (map (fun a => value lv st a i) args) (lit_at k i)).
  Proof.
    unfold linear_combination. intros Ha H. destruct (dedup st [] args) as [st1 l] eqn:D.
    apply dedup_spec in D; [|exact Ha|intros ? []]. destruct D as [[more ->] Dl Dv Dn _ Dvals Dsh _ _ Do].
    destruct (check_args _ l) as [s|] eqn:C; [|discriminate]. cbn in H. injection H as <- <-.
    apply check_args_Ok in C as [Cn C].
    assert (Shs : forall a, In a args -> shape_of st a = Some s).
    { intros a Hin. destruct (In_nth args a 0 Hin) as (j & Lj & <-). rewrite <- (shape_ext st more) by now apply Ha.
      rewrite <- Dsh. apply C. apply nth_In. lia. }
    split; [now exists s|]. repeat split.
    - exists (more ++ [LinComb l cs k s]). now rewrite app_assoc.
    - rewrite (app_length (st ++ more)). cbn. lia.
    - rewrite app_length. lia.
    - rewrite shape_new. cbn. destruct args as [|a r]; [destruct l; [congruence|discriminate]|]. cbn. now rewrite Shs by now left.
    - intros O. apply ordered_snoc; [now apply Do|]. exact Dv.
    - intros lv i. rewrite value_new. cbn [entry_value]. rewrite lincomb_at, pairs_at, !map_map, Dl. unfold lin_at, factors_at. f_equal. f_equal.
      transitivity (map (fun a => value lv (st ++ more) a i) l); [reflexivity|].
      rewrite (args_values lv (st ++ more) l args i Dl (fun k => Dvals lv k i)). apply map_ext_in. intros a Hin. now rewrite value_ext by now apply Ha.
  Qed.
  Lemma power_recorded st args cs k st2 v : (forall a, In a args -> a < length st) ->
    power_combination st args cs k = Ok (st2, v) ->
    (exists s, forall a, In a args -> shape_of st a = Some s) /\
    recorded st args (shape_of st (hd 0 args)) st2 v (fun lv i => pow_at (factors_at cs (length args) i) (map (fun a => value lv st a i) args) (lit_at k i)).
  Proof.
    unfold power_combination. intros Ha H. destruct (dedup st [] args) as [st1 l] eqn:D.
    apply dedup_spec in D; [|exact Ha|intros ? []]. destruct D as [[more ->] Dl Dv Dn _ Dvals Dsh _ _ Do].
    destruct (check_args _ l) as [s|] eqn:C; [|discriminate]. cbn in H. injection H as <- <-.
    apply check_args_Ok in C as [Cn C].
    assert (Shs : forall a, In a args -> shape_of st a = Some s).
    { intros a Hin. destruct (In_nth args a 0 Hin) as (j & Lj & <-). rewrite <- (shape_ext st more) by now apply Ha.
      rewrite <- Dsh. apply C. apply nth_In. lia. }
    split; [now exists s|]. repeat split.
    - exists (more ++ [PowComb l cs k s]). now rewrite app_assoc.
    - rewrite (app_length (st ++ more)). cbn. lia.
    - rewrite app_length. lia.
    - rewrite shape_new. cbn. destruct args as [|a r]; [destruct l; [congruence|discriminate]|]. cbn. now rewrite Shs by now left.
    - intros O. apply ordered_snoc; [now apply Do|]. exact Dv.
    - intros lv i. rewrite value_new. cbn [entry_value]. rewrite powcomb_at, pairs_at, !map_map, Dl. unfold pow_at, factors_at. f_equal. f_equal.
      transitivity (map (fun a => value lv (st ++ more) a i) l); [reflexivity|].
      rewrite (args_values lv (st ++ more) l args i Dl (fun k => Dvals lv k i)). apply map_ext_in. intros a Hin. now rewrite value_ext by now apply Ha.
  Qed.

  (* acceptance *)
  Lemma dedup_shapes (st : store N) args st1 l : (forall a, In a args -> a < length st) -> dedup st [] args = (st1, l) ->
    length l = length args /\ forall k, k < length args -> shape_of st1 (nth k l 0) = shape_of st (nth k args 0).
  Proof.
    intros Ha D. apply dedup_spec in D; [|exact Ha|intros ? []]. destruct D as [[more ->] Dl Dv Dn _ Dvals Dsh _ _ Do].
    split; [exact Dl|]. intros k L. rewrite Dsh. apply shape_ext. apply Ha. now apply nth_In.
  Qed.
  Lemma linear_accept (st : store N) args cs k s : args <> [] -> (forall a, In a args -> shape_of st a = Some s) ->
    exists r, linear_combination st args cs k = Ok r.
  Proof.
    intros Hn H. unfold linear_combination. destruct (dedup st [] args) as [st1 l] eqn:D.
    apply dedup_shapes in D as [L D]; [|intros a Ha; exact (shape_valid _ _ _ (H a Ha))].
    rewrite (check_args_accept st1 l s); [eexists; reflexivity| |].
    - destruct l, args; cbn in L; try discriminate; congruence.
    - intros a Ha. destruct (In_nth l a 0 Ha) as (j & Lj & <-). rewrite D by lia. apply H. apply nth_In. lia.
  Qed.
  Lemma power_accept (st : store N) args cs k s : args <> [] -> (forall a, In a args -> shape_of st a = Some s) ->
    exists r, power_combination st args cs k = Ok r.
  Proof.
    intros Hn H. unfold power_combination. destruct (dedup st [] args) as [st1 l] eqn:D.
    apply dedup_shapes in D as [L D]; [|intros a Ha; exact (shape_valid _ _ _ (H a Ha))].
    rewrite (check_args_accept st1 l s); [eexists; reflexivity| |].
    - destruct l, args; cbn in L; try discriminate; congruence.
    - intros a Ha. destruct (In_nth l a 0 Ha) as (j & Lj & <-). rewrite D by lia. apply H. apply nth_In. lia.
  Qed.
  Lemma dedup_two (st : store N) a b : a <> b -> dedup st [] [a; b] = (st, [a; b]).
  Proof. intros H. cbn. destruct (Nat.eqb_spec b a); [congruence|reflexivity]. Qed.
  Lemma linear_reject (st : store N) a b cs k sa sb : shape_of st a = Some sa -> shape_of st b = Some sb -> sa <> sb ->
    linear_combination st [a; b] cs k = Err ValueError.
  Proof.
    intros Ha Hb Hn. unfold linear_combination. rewrite dedup_two by congruence. now rewrite (check_args_two st a b sa sb).
  Qed.
  Lemma power_reject (st : store N) a b cs k sa sb : shape_of st a = Some sa -> shape_of st b = Some sb -> sa <> sb ->
    power_combination st [a; b] cs k = Err ValueError.
  Proof.
    intros Ha Hb Hn. unfold power_combination. rewrite dedup_two by congruence. now rewrite (check_args_two st a b sa sb).
  Qed.

  (** ** Statements *)
  Definition good (st : store N) (env : list nat) : Prop := forall v, In v env -> v < length st.

  Lemma recorded_ext st args sh st2 v f g : recorded st args sh st2 v f -> (forall lv i, f lv i = g lv i) -> recorded st args sh st2 v g.
  Proof. intros (A & B & C & D & O & V) H. repeat split; auto. intros. now rewrite V. Qed.

  (** One statement: the result has the value and the shape expected. *)
  Definition sound (st st2 : store N) (v x : nat) (f : (nat -> arr N) -> nat -> N) : Prop :=
    (exists more, st2 = st ++ more) /\ v < length st2 /\ shape_of st2 v = shape_of st x /\ (ordered N st -> ordered N st2) /\
    forall lv i, value lv st2 v i = f lv i.
  Lemma lin_sound st args cs k st2 v g : (forall a, In a args -> a < length st) ->
    linear_combination st args cs k = Ok (st2, v) ->
    (forall lv i, lin_at (factors_at cs (length args) i) (map (fun a => value lv st a i) args) (lit_at k i) = g lv i) ->
    sound st st2 v (hd 0 args) g.
  Proof. intros Ha H E. apply linear_recorded in H as [_ (A & B & C & D & O & V)]; [|exact Ha]. repeat split; auto. intros. now rewrite V. Qed.
  Lemma pow_sound st args cs k st2 v g : (forall a, In a args -> a < length st) ->
    power_combination st args cs k = Ok (st2, v) ->
    (forall lv i, pow_at (factors_at cs (length args) i) (map (fun a => value lv st a i) args) (lit_at k i) = g lv i) ->
    sound st st2 v (hd 0 args) g.
  Proof. intros Ha H E. apply power_recorded in H as [_ (A & B & C & D & O & V)]; [|exact Ha]. repeat split; auto. intros. now rewrite V. Qed.

  Definition operand_value (lv : nat -> arr N) (st : store N) (y : operand N) : arr N :=
    match y with OVar _ v => value lv st v | OLit l => lit_at l end.

  Lemma fdiv_mul (a b : N) : fdiv N a b = fmul N a (finv N b).
  Proof. apply (Fdiv_def (num_field N)). Qed.
  Lemma lit_opp_at (l : literal N) i : lit_at (lit_opp l) i = fopp N (lit_at l i).
  Proof. now destruct l. Qed.
  Lemma lit_inv_at (l l' : literal N) i : lit_inv l = Ok l' -> lit_at l' i = finv N (lit_at l i).
  Proof.
    destruct l as [c|s a]; cbn.
    - destruct (feqb N c f0); [discriminate|]. intros E. injection E as <-. cbn. rewrite fdiv_mul. ring.
    - intros E. injection E as <-. cbn. rewrite fdiv_mul. ring.
  Qed.

  Ltac two := intros ? [<-|[<-|[]]]; assumption.
  Ltac one := intros ? [<-|[]]; assumption.
  Lemma apply_bin_sound st o x y st2 v : x < length st -> match y with OVar _ u => u < length st | _ => True end ->
    apply_bin st o x y = Ok (st2, v) ->
    sound st st2 v x (fun lv => bin_meaning N o (value lv st x) (operand_value lv st y)).
  Proof.
    intros Hx Hy. destruct o, y as [u|l]; cbn [apply_bin]; unfold add, sub, mul, truediv, pow; intros H; try discriminate.
    - refine (lin_sound st [x; u] _ _ _ _ _ _ H _); [two|]. intros lv i. unfold lin_at, factors_at, m1. cbn. ring.
    - refine (lin_sound st [x] _ _ _ _ _ _ H _); [one|]. intros lv i. unfold lin_at, factors_at, m1. cbn. ring.
    - refine (lin_sound st [x; u] _ _ _ _ _ _ H _); [two|]. intros lv i. unfold lin_at, factors_at, m1. cbn. ring.
    - refine (lin_sound st [x] _ _ _ _ _ _ H _); [one|]. intros lv i. unfold lin_at, factors_at, m1. cbn. rewrite lit_opp_at. ring.
    - refine (pow_sound st [x; u] _ _ _ _ _ _ H _); [two|]. intros lv i. unfold pow_at, factors_at, m1. cbn. rewrite !(pow_one N). ring.
    - refine (pow_sound st [x] _ _ _ _ _ _ H _); [one|]. intros lv i. unfold pow_at, factors_at, m1. cbn. rewrite !(pow_one N). ring.
    - refine (pow_sound st [x; u] _ _ _ _ _ _ H _); [two|]. intros lv i. unfold pow_at, factors_at, m1. cbn. rewrite (pow_one N), (pow_minus_one N), fdiv_mul. ring.
    - destruct (lit_inv l) as [l'|] eqn:I; [|discriminate]. cbn in H.
      refine (pow_sound st [x] _ _ _ _ _ _ H _); [one|]. intros lv i. unfold pow_at, factors_at, m1. cbn. rewrite (pow_one N), (lit_inv_at _ _ _ I), fdiv_mul. ring.
    - refine (pow_sound st [x] _ _ _ _ _ _ H _); [one|]. intros lv i. unfold pow_at, factors_at, m1. cbn. ring.
  Qed.
  Lemma apply_rbin_sound st o l x st2 v : x < length st -> apply_rbin st o l x = Ok (st2, v) ->
    sound st st2 v x (fun lv => bin_meaning N o (lit_at l) (value lv st x)).
  Proof.
    intros Hx. destruct o; cbn [apply_rbin]; unfold radd, rsub, rmul, rtruediv, add, mul; intros H; try discriminate.
    - refine (lin_sound st [x] _ _ _ _ _ _ H _); [one|]. intros lv i. unfold lin_at, factors_at, m1. cbn. ring.
    - refine (lin_sound st [x] _ _ _ _ _ _ H _); [one|]. intros lv i. unfold lin_at, factors_at, m1. cbn. ring.
    - refine (pow_sound st [x] _ _ _ _ _ _ H _); [one|]. intros lv i. unfold pow_at, factors_at, m1. cbn. rewrite (pow_one N). ring.
    - refine (pow_sound st [x] _ _ _ _ _ _ H _); [one|]. intros lv i. unfold pow_at, factors_at, m1. cbn. rewrite (pow_minus_one N), fdiv_mul. ring.
  Qed.

  Lemma elem_sound st f x st2 v : x < length st -> elem st f x = Ok (st2, v) ->
    sound st st2 v x (fun lv i => function N f (value lv st x i)).
  Proof.
    intros Hx. unfold elem. destruct (shape_of st x) as [s|] eqn:Sx; [|discriminate]. intros H. injection H as <- <-. repeat split.
    - eexists; reflexivity.
    - rewrite app_length. cbn. lia.
    - rewrite shape_new. cbn. now rewrite Sx.
    - intros O. apply ordered_snoc; [exact O|exact Hx].
    - intros lv i. rewrite value_new. reflexivity.
  Qed.
  Lemma lookup_Ok env p v : lookup env p = Ok v -> nth_error env p = Some v.
  Proof. unfold lookup. destruct (nth_error env p); congruence. Qed.

  Lemma exec_sound st env s st2 v : good st env -> exec st env s = Ok (st2, v) ->
    sound st st2 v (nth (first_operand N s) env 0) (fun lv => stmt_meaning N (map (value lv st) env) s).
  Proof.
    intros G H.
    assert (VN : forall lv p x, nth_error env p = Some x -> nth p (map (value lv st) env) (fun _ => f0) = value lv st x).
    { intros lv p x Hp. apply nth_error_nth. now apply map_nth_error. }
    destruct s as [p|p|o p q|o p l|o l p|f p]; cbn [exec] in H.
    all: destruct (lookup env p) as [x|] eqn:P; [|discriminate]; cbn [bind] in H; apply lookup_Ok in P.
    all: assert (x < length st) as Hx by (apply G; eapply nth_error_In; eassumption).
    all: cbn [first_operand]; rewrite (nth_error_nth env p 0 P).
    - unfold neg in H. refine (lin_sound st [x] _ _ _ _ _ _ H _); [one|].
      intros lv i. unfold lin_at, factors_at, m1. cbn. rewrite (VN lv p x P). ring.
    - unfold pos in H. injection H as <- <-. repeat split; auto; [exists []; now rewrite app_nil_r|]. intros lv i. cbn. now rewrite (VN lv p x P).
    - destruct (lookup env q) as [y|] eqn:Q; [|discriminate]. cbn [bind] in H. apply lookup_Ok in Q.
      apply apply_bin_sound in H; [|exact Hx|apply G; eapply nth_error_In; eassumption].
      destruct H as (A & B & C & D & V). repeat split; auto. intros lv i. rewrite V. cbn. now rewrite (VN lv p x P), (VN lv q y Q).
    - apply apply_bin_sound in H; [|exact Hx|exact I].
      destruct H as (A & B & C & D & V). repeat split; auto. intros lv i. rewrite V. cbn. now rewrite (VN lv p x P).
    - apply apply_rbin_sound in H; [|exact Hx].
      destruct H as (A & B & C & D & V). repeat split; auto. intros lv i. rewrite V. cbn. now rewrite (VN lv p x P).
    - apply elem_sound in H; [|exact Hx].
      destruct H as (A & B & C & D & V). repeat split; auto. intros lv i. rewrite V. cbn. now rewrite (VN lv p x P).
  Qed.

  (** ** Programs *)
  Definition same (l m : list (arr N)) : Prop := Forall2 (fun a b => forall i, a i = b i) l m.
  Lemma same_nth l m p i : same l m -> nth p l (fun _ => f0) i = nth p m (fun _ => f0) i.
  Proof. intros H. revert p. induction H as [|a b l m E H IH]; intros [|p]; cbn; auto. Qed.
  Lemma stmt_meaning_same l m s i : same l m -> stmt_meaning N l s i = stmt_meaning N m s i.
  Proof.
    intros H. destruct s as [p|p|o p q|o p x|o x p|f p]; cbn; rewrite ?(same_nth l m p i H); auto.
    all: unfold bin_meaning; rewrite ?(same_nth l m p i H), ?(same_nth l m q i H); reflexivity.
  Qed.
  Lemma meaning_same prog : forall l m, same l m -> same (meaning N l prog) (meaning N m prog).
  Proof.
    induction prog as [|s r IH]; intros l m H; cbn; [exact H|]. apply IH. apply Forall2_app; [exact H|]. constructor; [|constructor].
    intros i. now apply stmt_meaning_same.
  Qed.
  Lemma same_refl l : same l l.
  Proof. induction l; constructor; auto. Qed.
  Lemma same_trans l m n : same l m -> same m n -> same l n.
  Proof. intros H. revert n. induction H as [|a b l m E H IH]; intros n K; inversion K; subst; constructor; [intros i; now rewrite E|now apply IH]. Qed.
  Lemma run_sound prog : forall st env st2 env2, good st env -> run st env prog = Ok (st2, env2) ->
    (exists more, st2 = st ++ more) /\ (exists res, env2 = env ++ res) /\ good st2 env2 /\ (ordered N st -> ordered N st2) /\
    length env2 = length env + length prog /\
    (forall k s, nth_error prog k = Some s -> shape_of st2 (nth (length env + k) env2 0) = shape_of st2 (nth (first_operand N s) env2 0)) /\
    forall lv, same (map (value lv st2) env2) (meaning N (map (value lv st) env) prog).
  Proof.
    induction prog as [|s r IH]; intros st env st2 env2 G H; cbn [run] in H.
    - injection H as <- <-. split; [exists []; now rewrite app_nil_r|]. split; [exists []; now rewrite app_nil_r|].
      repeat split; auto. intros [|k] s Hs; discriminate. intros lv. apply same_refl.
    - destruct (exec st env s) as [[st1 v]|] eqn:X; [|discriminate]. cbn [bind fst snd] in H.
      pose proof (exec_sound _ _ _ _ _ G X) as ((m1 & ->) & Hv & Sh & O & V).
      assert (G1 : good (st ++ m1) (env ++ [v])).
      { intros u Hu. apply in_app_iff in Hu as [Hu|[<-|[]]]; [|exact Hv]. rewrite app_length. specialize (G u Hu). lia. }
      assert (Fst : nth_error env (first_operand N s) <> None).
      { intros E. destruct s; cbn in X, E; unfold lookup in X; rewrite E in X; discriminate. }
      apply nth_error_Some in Fst.
      apply IH in H; [|exact G1]. destruct H as ((more & ->) & (res & ->) & G2 & O2 & L & Shs & Vs).
      split; [exists (m1 ++ more); now rewrite app_assoc|].
      split; [exists ([v] ++ res); now rewrite app_assoc|].
      split; [exact G2|]. split; [auto|].
      split; [rewrite L, app_length; cbn; lia|]. split.
      + intros [|k] s' Hs'; cbn in Hs'.
        * injection Hs' as <-. rewrite Nat.add_0_r.
          pose proof (G _ (nth_In _ 0 Fst)) as LF.
          replace (nth (length env) ((env ++ [v]) ++ res) 0) with v by (rewrite <- app_assoc, app_nth2, Nat.sub_diag; [reflexivity|lia]).
          replace (nth (first_operand N s) ((env ++ [v]) ++ res) 0) with (nth (first_operand N s) env 0) by (rewrite <- app_assoc, app_nth1; [reflexivity|exact Fst]).
          rewrite (shape_ext (st ++ m1) more v) by exact Hv.
          rewrite (shape_ext (st ++ m1) more) by (rewrite app_length; lia).
          rewrite Sh. now rewrite shape_ext.
        * specialize (Shs k s' Hs'). rewrite (app_length env) in Shs. cbn in Shs. now rewrite <- Nat.add_assoc in Shs.
      + intros lv. eapply same_trans; [apply Vs|]. cbn [meaning]. apply meaning_same. rewrite map_app. apply Forall2_app.
        * clear -G. induction env as [|u env IH]; cbn; [constructor|]. constructor.
          { intros i. rewrite value_ext; [reflexivity|]. apply G. now left. }
          { apply IH. intros w Hw. apply G. now right. }
        * constructor; [|constructor]. intros i. apply V.
  Qed.

  (** ** Acceptance *)
  Lemma exec_accept st env s x sx : good st env -> nth_error env (first_operand N s) = Some x -> shape_of st x = Some sx ->
    match s with
    | SPos _ _ | SNeg _ _ | SFun _ _ _ => exists r, exec st env s = Ok r
    | SBin _ o p q => forall y sy, nth_error env q = Some y -> shape_of st y = Some sy ->
        if match o with OpPow => true | _ => false end then exec st env s = Err NotImplementedError
        else if shape_eqb sx sy then exists r, exec st env s = Ok r else exec st env s = Err ValueError
    | SBinL o p l => (o = OpDiv /\ l = Num f0 /\ exec st env s = Err ZeroDivisionError) \/ (~ (o = OpDiv /\ l = Num f0) /\ exists r, exec st env s = Ok r)
    | SLBin o l p => if match o with OpPow => true | _ => false end then exec st env s = Err TypeError else exists r, exec st env s = Ok r
    end.
  Proof.
    intros G Hx Sx. assert (One : forall a, In a [x] -> shape_of st a = Some sx) by (intros a [<-|[]]; exact Sx).
    destruct s as [p|p|o p q|o p l|o l p|f p]; cbn [first_operand] in Hx; cbn [exec]; unfold lookup; rewrite Hx; cbn [bind].
    - apply linear_accept with (s := sx); [discriminate|exact One].
    - eexists; reflexivity.
    - intros y sy Hy Sy. rewrite Hy. cbn [bind].
      destruct (shape_eqb sx sy) eqn:E.
      + apply shape_eqb_spec in E. subst sy.
        assert (Two : forall a, In a [x; y] -> shape_of st a = Some sx) by (intros a [<-|[<-|[]]]; assumption).
        destruct o; cbn [apply_bin add sub mul truediv pow]; unfold add, sub, mul, truediv, pow; [apply linear_accept with (s := sx)|apply linear_accept with (s := sx)|apply power_accept with (s := sx)|apply power_accept with (s := sx)|reflexivity]; solve [discriminate|exact Two].
      + assert (Hn : sx <> sy) by (intros ->; rewrite (proj2 (shape_eqb_spec sy sy) eq_refl) in E; discriminate).
        destruct o; cbn [apply_bin add sub mul truediv pow]; unfold add, sub, mul, truediv, pow; [apply linear_reject with (sa := sx) (sb := sy)|apply linear_reject with (sa := sx) (sb := sy)|apply power_reject with (sa := sx) (sb := sy)|apply power_reject with (sa := sx) (sb := sy)|reflexivity]; assumption.
    - destruct o; cbn [apply_bin]; unfold add, sub, mul, pow, truediv.
      + right. split; [intros [? _]; discriminate|]. apply linear_accept with (s := sx); [discriminate|exact One].
      + right. split; [intros [? _]; discriminate|]. apply linear_accept with (s := sx); [discriminate|exact One].
      + right. split; [intros [? _]; discriminate|]. apply power_accept with (s := sx); [discriminate|exact One].
      + destruct l as [c|s a]; cbn [lit_inv].
        * destruct (feqb N c f0) eqn:E; [left|right].
          { apply (feqb_spec N) in E. subst c. repeat split. }
          { split; [|apply power_accept with (s := sx); [discriminate|exact One]].
            intros [_ K]. injection K as ->. rewrite (proj2 (feqb_spec N f0 f0) eq_refl) in E. discriminate. }
        * right. split; [intros [_ ?]; discriminate|]. apply power_accept with (s := sx); [discriminate|exact One].
      + right. split; [intros [? _]; discriminate|]. apply power_accept with (s := sx); [discriminate|exact One].
    - destruct o; cbn [apply_rbin]; unfold radd, rsub, rmul, rtruediv, add, mul;
        [apply linear_accept with (s := sx)|apply linear_accept with (s := sx)|apply power_accept with (s := sx)|apply power_accept with (s := sx)|reflexivity]; solve [discriminate|exact One].
    - unfold elem. rewrite Sx. eexists; reflexivity.
  Qed.
End Proofs.

(** ** Arguments of recorded operations *)
Section Distinct.
  Context (N : numbers).
  Notation distinct_entry := (distinct_arguments N).
  Lemma dedup_distinct args : forall (st : store N) seen st2 l, dedup st seen args = (st2, l) ->
    (forall e, In e st -> distinct_entry e) -> forall e, In e st2 -> distinct_entry e.
  Proof.
    induction args as [|a r IH]; cbn [dedup]; intros st seen st2 l E P; [injection E as <- <-; auto|].
    destruct (existsb (Nat.eqb a) seen).
    - destruct (dedup _ _ r) as [st3 l3] eqn:D. injection E as <- <-. eapply IH; [exact D|].
      intros e He. apply in_app_iff in He as [He|[<-|[]]]; [auto|]. cbn. constructor; [intros []|constructor].
    - destruct (dedup _ _ r) as [st3 l3] eqn:D. injection E as <- <-. eapply IH; [exact D|exact P].
  Qed.
  Lemma linear_distinct (st : store N) args cs k st2 v : (forall a, In a args -> a < length st) -> (forall e, In e st -> distinct_entry e) ->
    linear_combination st args cs k = Ok (st2, v) -> forall e, In e st2 -> distinct_entry e.
  Proof.
    intros Ha P E. unfold linear_combination in E. destruct (dedup st [] args) as [st1 l] eqn:D. destruct (check_args st1 l) as [s|]; [|discriminate].
    cbn in E. injection E as <- _. intros e He. apply in_app_iff in He as [He|[<-|[]]]; [eapply dedup_distinct; eassumption|].
    apply dedup_spec in D; [|exact Ha|intros ? []]. exact (df_nodup _ _ _ _ _ _ D).
  Qed.
  Lemma power_distinct (st : store N) args cs k st2 v : (forall a, In a args -> a < length st) -> (forall e, In e st -> distinct_entry e) ->
    power_combination st args cs k = Ok (st2, v) -> forall e, In e st2 -> distinct_entry e.
  Proof.
    intros Ha P E. unfold power_combination in E. destruct (dedup st [] args) as [st1 l] eqn:D. destruct (check_args st1 l) as [s|]; [|discriminate].
    cbn in E. injection E as <- _. intros e He. apply in_app_iff in He as [He|[<-|[]]]; [eapply dedup_distinct; eassumption|].
    apply dedup_spec in D; [|exact Ha|intros ? []]. exact (df_nodup _ _ _ _ _ _ D).
  Qed.
  Lemma exec_distinct (st : store N) env s st2 v : good N st env -> (forall e, In e st -> distinct_entry e) ->
    exec st env s = Ok (st2, v) -> forall e, In e st2 -> distinct_entry e.
  Proof.
    intros G P H.
    assert (LK : forall p x, lookup env p = Ok x -> x < length st) by (intros p x Hp; apply G; eapply nth_error_In, lookup_Ok, Hp).
    assert (O1 : forall p x, lookup env p = Ok x -> forall a, In a [x] -> a < length st) by (intros p x Hp a [<-|[]]; eauto).
    assert (O2 : forall p x p' x', lookup env p = Ok x -> lookup env p' = Ok x' -> forall a, In a [x; x'] -> a < length st) by (intros p x p' x' Hp Hp' a [<-|[<-|[]]]; eauto).
    destruct s as [p|p|o p q|o p l|o l p|f p]; cbn [exec] in H.
    all: destruct (lookup env p) as [x|] eqn:Lx; [|discriminate]; cbn [bind] in H.
    - eapply linear_distinct; [|exact P|exact H]; eauto.
    - injection H as <- _. exact P.
    - destruct (lookup env q) as [y|] eqn:Ly; [|discriminate]. cbn [bind] in H. destruct o; cbn in H; unfold add, sub, mul, truediv in H; try discriminate.
      all: (eapply linear_distinct; [|exact P|exact H]; eauto) || (eapply power_distinct; [|exact P|exact H]; eauto).
    - destruct o; cbn [apply_bin] in H; unfold add, sub, mul, truediv, pow in H.
      4: destruct (lit_inv l); [|discriminate]; cbn [bind] in H.
      all: (eapply linear_distinct; [|exact P|exact H]; eauto) || (eapply power_distinct; [|exact P|exact H]; eauto).
    - destruct o; cbn [apply_rbin] in H; unfold radd, rsub, rmul, rtruediv, add, mul in H; try discriminate.
      all: (eapply linear_distinct; [|exact P|exact H]; eauto) || (eapply power_distinct; [|exact P|exact H]; eauto).
    - unfold elem in H. destruct (shape_of st x); [|discriminate]. injection H as <- _.
      intros e He. apply in_app_iff in He as [He|[<-|[]]]; [auto|exact I].
  Qed.
End Distinct.
