From Verif Require Import PyBase Digraph CombineModel CombineSpec.
Set Implicit Arguments.
Open Scope list_scope.

Lemma nd_eqb_spec a b : nd_eqb a b = true <-> a = b.
Proof. destruct a, b; simpl; rewrite ?Nat.eqb_eq; split; intros H; congruence. Qed.

(** ** Programs *)
Fixpoint closed (known : list nat) (p : program) : Prop :=
  match p with
  | [] => True
  | (y, _, zs) :: r => incl zs known /\ closed (y :: known) r
  end.
Definition targets (p : program) : list nat := map (fun s => fst (fst s)) p.

Lemma closed_mono k k' p : incl k k' -> closed k p -> closed k' p.
Proof.
  revert k k'. induction p as [|[[y f] zs] p IH]; intros k k' H; simpl; [auto|].
  intros [H1 H2]. split; [intros x Hx; auto|]. eapply IH; [|exact H2].
  intros x [<-|Hx]; [left; reflexivity|right; auto].
Qed.
Lemma closed_app k p q : closed k p -> closed (targets p ++ k) q -> closed k (p ++ q).
Proof.
  revert k. induction p as [|[[y f] zs] p IH]; intros k; simpl; [auto|].
  intros [H1 H2] H3. split; [exact H1|]. apply IH; [exact H2|].
  eapply closed_mono; [|exact H3]. intros x Hx. simpl in Hx. rewrite !in_app_iff in *. simpl. tauto.
Qed.

Section Sem.
  Variable D : Type.
  Variable I : nat -> list D -> D.

  Lemma args_agree (e e' : env D) xs : (forall x, In x xs -> e x = e' x) -> args e xs = args e' xs.
  Proof.
    induction xs as [|x xs IH]; intros H; simpl; [reflexivity|].
    rewrite (H x (or_introl eq_refl)), IH; [reflexivity|]. intros y Hy. apply H. right; exact Hy.
  Qed.
  Lemma run_agree p : forall known e e' e1, closed known p -> (forall x, In x known -> e x = e' x) ->
    run I e p = Some e1 -> exists e1', run I e' p = Some e1' /\ forall x, In x (targets p ++ known) -> e1 x = e1' x.
  Proof.
    induction p as [|[[y f] zs] p IH]; intros known e e' e1 HC HA HR; simpl in *.
    - injection HR as <-. exists e'. auto.
    - destruct HC as [H1 H2]. rewrite <- (@args_agree e e' zs) by (intros x Hx; auto).
      destruct (args e zs) as [ds|]; [|discriminate].
      destruct (IH (y :: known) (eset e y (I f ds)) (eset e' y (I f ds)) e1 H2) as (e1' & R & A); [|exact HR|].
      + intros x Hx. unfold eset. destruct (Nat.eqb_spec x y) as [->|N]; [reflexivity|].
        destruct Hx as [Hx|Hx]; [congruence|auto].
      + exists e1'. split; [exact R|]. intros x Hx. apply A. apply in_app_iff. destruct Hx as [<-|Hx]; [right; left; reflexivity|]. apply in_app_iff in Hx. destruct Hx as [Hx|Hx]; [left; exact Hx|right; right; exact Hx].
  Qed.
  Lemma run_app e p q : run I e (p ++ q) = match run I e p with Some e' => run I e' q | None => None end.
  Proof.
    revert e. induction p as [|[[y f] zs] p IH]; intros e; simpl; [reflexivity|].
    destruct (args e zs); [apply IH|reflexivity].
  Qed.
  Lemma args_bind xs (ds : list D) : NoDup xs -> length xs = length ds -> args (bind_all xs ds) xs = Some ds.
  Proof.
    revert ds. induction xs as [|x xs IH]; intros [|d ds] ND HL; try discriminate; [reflexivity|].
    inversion ND as [|? ? N1 N2]; subst. simpl. unfold eset at 1. rewrite Nat.eqb_refl.
    rewrite (@args_agree _ (bind_all xs ds)).
    - rewrite IH; [reflexivity|exact N2|simpl in HL; lia].
    - intros y Hy. unfold eset. destruct (Nat.eqb_spec y x) as [->|]; [contradiction|reflexivity].
  Qed.
End Sem.

(** ** Predecessor lists *)
Lemma filter_all {A} (f : A -> bool) l : (forall x, In x l -> f x = true) -> filter f l = l.
Proof. intros H. induction l as [|a l IH]; simpl; [reflexivity|]. rewrite H by (left; reflexivity). f_equal. apply IH. intros x Hx. apply H. right; exact Hx. Qed.

Lemma preds_remove g y x : x <> y -> gpreds (remove_node nd_eqb g y) x = filter (fun a => negb (nd_eqb y a)) (gpreds g x).
Proof.
  intros N. unfold preds, remove_node. simpl. induction (g_edges g) as [|[a b] l IH]; [reflexivity|]. simpl.
  destruct (nd_eqb y b) eqn:Eb.
  - apply nd_eqb_spec in Eb. subst b. rewrite andb_false_r. replace (nd_eqb x y) with false; [exact IH|].
    symmetry. apply not_true_is_false. rewrite nd_eqb_spec. exact N.
  - rewrite andb_true_r. destruct (nd_eqb y a) eqn:Ea; simpl.
    + destruct (nd_eqb x b); simpl; [rewrite Ea; simpl; exact IH|exact IH].
    + destruct (nd_eqb x b); simpl; [rewrite Ea; simpl; f_equal; exact IH|exact IH].
Qed.
Lemma preds_add_node g y x : gpreds (add_node nd_eqb g y) x = gpreds g x.
Proof. unfold add_node. destruct (has_node nd_eqb g y); reflexivity. Qed.
Lemma preds_add_edge g a b x : x <> b -> gpreds (add_edge nd_eqb g a b) x = gpreds g x.
Proof.
  intros N. unfold add_edge. set (g1 := add_node _ _ _). 
  assert (E : gpreds g1 x = gpreds g x) by (unfold g1; rewrite !preds_add_node; reflexivity).
  destruct (has_edge nd_eqb g1 a b); [exact E|]. unfold preds in *. simpl. rewrite filter_app. simpl.
  replace (nd_eqb x b) with false by (symmetry; apply not_true_is_false; rewrite nd_eqb_spec; exact N).
  rewrite app_nil_r. exact E.
Qed.
Lemma preds_untouched g rem x : ~ In x rem -> (forall a, In a rem -> ~ edge g a x) ->
  gpreds (remove_nodes nd_eqb g rem) x = gpreds g x.
Proof.
  unfold remove_nodes. revert g. induction rem as [|y rem IH]; intros g HN HE; simpl; [reflexivity|].
  rewrite IH.
  - rewrite preds_remove by (intros ->; apply HN; left; reflexivity).
    apply filter_all. intros a Ha. apply negb_true_iff. apply not_true_is_false. rewrite nd_eqb_spec. intros ->.
    apply (@In_preds _ nd_eqb nd_eqb_spec) in Ha. apply (HE a); [left; reflexivity|exact Ha].
  - intros H. apply HN. right; exact H.
  - intros a Ha H. apply (@edge_remove _ nd_eqb nd_eqb_spec) in H. apply (HE a); [right; exact Ha|apply H].
Qed.
Lemma preds_single g x a : Digraph.wf g -> (forall b, edge g b x <-> b = a) -> gpreds g x = [a].
Proof.
  intros W H. pose proof (@NoDup_preds _ _ nd_eqb_spec g x W) as ND.
  assert (HI : forall b, In b (gpreds g x) <-> b = a) by (intros b; rewrite (@In_preds _ nd_eqb nd_eqb_spec); apply H).
  destruct (gpreds g x) as [|b l]; [exfalso; apply (proj2 (HI a)); reflexivity|].
  assert (b = a) by (apply HI; left; reflexivity). subst b. destruct l as [|c l]; [reflexivity|].
  assert (c = a) by (apply HI; right; left; reflexivity). subst c. inversion ND; subst. exfalso. apply H2. left; reflexivity.
Qed.
Lemma preds_nil g x : gpreds g x = [] <-> forall b, ~ edge g b x.
Proof.
  split; [intros H b Hb; apply (@In_preds _ nd_eqb nd_eqb_spec) in Hb; rewrite H in Hb; exact Hb|].
  intros H. destruct (gpreds g x) as [|b l] eqn:E; [reflexivity|]. exfalso. apply (H b), (@In_preds _ nd_eqb nd_eqb_spec). rewrite E. left; reflexivity.
Qed.
Lemma preds_cons_edge g x a l : gpreds g x = a :: l -> edge g a x.
Proof. intros H. apply (@In_preds _ nd_eqb nd_eqb_spec). rewrite H. left; reflexivity. Qed.

(** ** The invariant *)
Record inv (st : cstate) : Prop := {
  i_wf : Digraph.wf (c_graph st);
  i_bip : forall a b, edge (c_graph st) a b -> match a, b with V _, O _ => True | O _, V _ => True | _, _ => False end;
  i_one : forall n a b, edge (c_graph st) a (V n) -> edge (c_graph st) b (V n) -> a = b;
  i_str : forall o, node (c_graph st) (O o) -> o_elementwise (c_ops st o) = true ->
    exists n xs, gpreds (c_graph st) (O o) = map V xs /\ edge (c_graph st) (O o) (V n) /\
      closed xs (compute_string (o_body (c_ops st o))) /\ In n (targets (compute_string (o_body (c_ops st o)))) /\
      (forall f p, o_body (c_ops st o) = Fn f p -> p = [(n, f, xs)]);
  i_fresh : forall o, node (c_graph st) (O o) -> o < c_next st;
  i_rank : exists rank : nd -> nat, forall a b, edge (c_graph st) a b -> rank a < rank b;
  i_unsh : unshared (c_graph st)
}.

Lemma built_inv st : built st -> unshared (c_graph st) -> inv st.
Proof.
  intros [B1 B2 B3 B4 B5 B6 B7] U. constructor; try assumption.
  intros o Ho He. destruct (B4 o Ho He) as (n & f & xs & E & P & Ed & Hn). exists n, xs. rewrite E. simpl.
  repeat split; auto; [apply incl_refl|]. intros f' p [= <- <-]. reflexivity.
Qed.

(** The situation in which insert_new_op is called *)
Record chain (st : cstate) (v01 o1 v12 o2 v23 : nat) : Prop := {
  ch1 : edge (c_graph st) (V v01) (O o1);
  ch2 : edge (c_graph st) (O o1) (V v12);
  ch3 : edge (c_graph st) (V v12) (O o2);
  ch4 : edge (c_graph st) (O o2) (V v23);
  chp1 : gpreds (c_graph st) (O o1) = [V v01];
  chp2 : gpreds (c_graph st) (O o2) = [V v12];
  chs1 : forall b, edge (c_graph st) (O o1) b -> b = V v12;
  chs2 : forall b, edge (c_graph st) (O o2) b -> b = V v23;
  che1 : o_elementwise (c_ops st o1) = true;
  che2 : o_elementwise (c_ops st o2) = true
}.

Section Insert.
  Variable st : cstate.
  Variables v01 o1 v12 o2 v23 : nat.
  Hypothesis HI : inv st.
  Hypothesis HC : chain st v01 o1 v12 o2 v23.
  Let st' := insert_new_op st v01 o1 v12 o2 v23.
  Let c := c_next st.

  Lemma distinct : o1 <> o2 /\ v01 <> v12 /\ v12 <> v23 /\ v01 <> v23.
  Proof.
    destruct HC. destruct (i_rank HI) as (rank & HR).
    pose proof (HR _ _ ch5). pose proof (HR _ _ ch6). pose proof (HR _ _ ch7). pose proof (HR _ _ ch8).
    repeat split; intros ->; lia.
  Qed.

  Lemma c_fresh : ~ node (c_graph st) (O c).
  Proof. intros H. apply (i_fresh HI) in H. unfold c in H. lia. Qed.

  Lemma edge_node a b : edge (c_graph st) a b -> node (c_graph st) a /\ node (c_graph st) b.
  Proof. intros H. destruct (i_wf HI) as [W _ _]. apply W, H. Qed.

  Definition removed (x : nd) : Prop := x = O o1 \/ x = V v12 \/ x = O o2.

  Lemma st'_graph : c_graph st' = add_edges nd_eqb (remove_nodes nd_eqb (c_graph st) [O o1; V v12; O o2]) [(V v01, O c); (O c, V v23)].
  Proof. reflexivity. Qed.

  Lemma st'_spec : Digraph.wf (c_graph st') /\
    (forall y, node (c_graph st') y <-> (node (c_graph st) y /\ ~ removed y) \/ y = O c) /\
    (forall a b, edge (c_graph st') a b <-> (edge (c_graph st) a b /\ ~ removed a /\ ~ removed b) \/
       (a = V v01 /\ b = O c) \/ (a = O c /\ b = V v23)).
  Proof.
    rewrite st'_graph.
    destruct (@remove_nodes_spec _ _ nd_eqb_spec [O o1; V v12; O o2] _ (i_wf HI)) as (W & N & E).
    destruct (@add_edges_spec _ _ nd_eqb_spec [(V v01, O c); (O c, V v23)] _ W) as (W' & N' & E').
    assert (R : forall y, ~ In y [O o1; V v12; O o2] <-> ~ removed y).
    { intros y. unfold removed. simpl. intuition congruence. }
    destruct HC. destruct distinct as (D1 & D2 & D3 & D4).
    split; [exact W'|]. split.
    - intros y. rewrite N'. rewrite N, R. split.
      + intros [H|(e & [<-|[<-|[]]] & H)]; simpl in H; [auto| |].
        * destruct H as [->| ->]; [|auto]. left. split; [apply (edge_node _ _ ch5)|]. unfold removed. intuition congruence.
        * destruct H as [->| ->]; [auto|]. left. split; [apply (edge_node _ _ ch8)|]. unfold removed. intuition congruence.
      + intros [H| ->]; [auto|]. right. exists (V v01, O c). simpl. auto.
    - intros a b. rewrite E', E, !R. simpl. intuition congruence.
  Qed.

  Lemma preds_other x : ~ removed x -> x <> V v23 -> x <> O c -> gpreds (c_graph st') x = gpreds (c_graph st) x.
  Proof.
    intros HR H1 H2. rewrite st'_graph. unfold add_edges. cbn [fold_left fst snd].
    rewrite !preds_add_edge by assumption. apply preds_untouched.
    - simpl. unfold removed in HR. intuition congruence.
    - intros a Ha He. destruct HC. destruct Ha as [<-|[<-|[<-|[]]]].
      + apply chs3 in He. subst x. apply HR. unfold removed; auto.
      + assert (x = O o2) by (apply (i_unsh HI _ _ _ He ch7)). subst x. apply HR. unfold removed; auto.
      + apply chs4 in He. congruence.
  Qed.

  Lemma preds_v23 : gpreds (c_graph st') (V v23) = [O c].
  Proof.
    destruct st'_spec as (W & _ & E). apply preds_single; [exact W|]. intros b. rewrite E. split.
    - intros [(H1 & H2 & H3)|[[_ H]|[H _]]]; [|discriminate|exact H].
      exfalso. apply H2. unfold removed. right; right. exact (i_one HI _ _ _ H1 (ch4 HC)).
    - intros ->. auto.
  Qed.
  Lemma preds_c : gpreds (c_graph st') (O c) = [V v01].
  Proof.
    destruct st'_spec as (W & _ & E). apply preds_single; [exact W|]. intros b. rewrite E. split.
    - intros [(H1 & _)|[[H _]|[_ H]]]; [|exact H|discriminate].
      exfalso. apply c_fresh. apply (edge_node _ _ H1).
    - intros ->. auto.
  Qed.

  Let p1 := compute_string (o_body (c_ops st o1)).
  Let p2 := compute_string (o_body (c_ops st o2)).

  Lemma strings1 : closed [v01] p1 /\ In v12 (targets p1) /\ (forall f p, o_body (c_ops st o1) = Fn f p -> p = [(v12, f, [v01])]).
  Proof.
    destruct HC. destruct (i_str HI o1) as (n & xs & P & E & K & T & F); [apply (edge_node _ _ ch5)|exact che3|].
    rewrite chp3 in P. destruct xs as [|x [|]]; try discriminate. injection P as <-. apply chs3 in E. injection E as ->. auto.
  Qed.
  Lemma strings2 : closed [v12] p2 /\ In v23 (targets p2) /\ (forall f p, o_body (c_ops st o2) = Fn f p -> p = [(v23, f, [v12])]).
  Proof.
    destruct HC. destruct (i_str HI o2) as (n & xs & P & E & K & T & F); [apply (edge_node _ _ ch7)|exact che4|].
    rewrite chp4 in P. destruct xs as [|x [|]]; try discriminate. injection P as <-. apply chs4 in E. injection E as ->. auto.
  Qed.

  Lemma ops_c : c_ops st' c = OpInfo true (Combined (p1 ++ p2)).
  Proof. simpl. fold c. rewrite Nat.eqb_refl. reflexivity. Qed.
  Lemma ops_other o : o <> c -> c_ops st' o = c_ops st o.
  Proof. intros H. simpl. fold c. rewrite (proj2 (Nat.eqb_neq o c) H). reflexivity. Qed.

  Opaque insert_new_op.
  Lemma insert_inv : inv st'.
  Proof.
    destruct st'_spec as (W & N & E). destruct distinct as (D1 & D2 & D3 & D4). constructor.
    - exact W.
    - intros a b H. apply E in H. destruct H as [(H & _)|[[-> ->]|[-> ->]]]; [apply (i_bip HI _ _ H)|exact Logic.I|exact Logic.I].
    - intros n a b Ha Hb. 
      assert (X : forall x, edge (c_graph st') x (V n) -> In x (gpreds (c_graph st') (V n))) by (intros x; apply (@In_preds _ nd_eqb nd_eqb_spec)).
      destruct (Nat.eq_dec n v23) as [->|Hn].
      + apply X in Ha, Hb. rewrite preds_v23 in Ha, Hb. destruct Ha as [<-|[]], Hb as [<-|[]]. reflexivity.
      + apply E in Ha, Hb. destruct Ha as [(Ha & _)|[[_ Ha]|[_ Ha]]]; try discriminate; [|congruence].
        destruct Hb as [(Hb & _)|[[_ Hb]|[_ Hb]]]; try discriminate; [|congruence]. apply (i_one HI _ _ _ Ha Hb).
    - intros o Ho He. destruct (Nat.eq_dec o c) as [->|Hoc].
      + exists v23, [v01]. rewrite preds_c, ops_c. simpl o_body. simpl compute_string.
        destruct strings1 as (K1 & T1 & _), strings2 as (K2 & T2 & _).
        split; [reflexivity|]. split; [apply E; auto|]. split; [|split].
        * apply closed_app; [exact K1|]. eapply closed_mono; [|exact K2]. intros x [<-|[]]. apply in_app_iff; auto.
        * unfold targets. rewrite map_app. apply in_app_iff. right; exact T2.
        * intros f p H. discriminate.
      + rewrite ops_other in * by exact Hoc. apply N in Ho. destruct Ho as [[Ho Hr]|Ho]; [|congruence].
        destruct (i_str HI o Ho He) as (n & xs & P & Ed & K & T & F). exists n, xs.
        rewrite preds_other; [|exact Hr|discriminate|congruence]. split; [exact P|]. split; [|auto].
        apply E. left. split; [exact Ed|]. split; [exact Hr|]. intros [H|[H|H]]; try discriminate.
        injection H as ->. apply Hr. left. exact (i_one HI _ _ _ Ed (ch2 HC)).
    - intros o Ho. Transparent insert_new_op. simpl. Opaque insert_new_op. apply N in Ho. destruct Ho as [[Ho _]|Ho]; [apply (i_fresh HI) in Ho; lia|]. injection Ho as ->. unfold c. lia.
    - destruct (i_rank HI) as (rank & HR). exists (fun x => if nd_eqb x (O c) then rank (O o2) else rank x).
      destruct HC as [H1 H2 H3 H4 _ _ _ _ _ _]. pose proof (HR _ _ H1). pose proof (HR _ _ H2). pose proof (HR _ _ H3). pose proof (HR _ _ H4).
      intros a b Hab. apply E in Hab. destruct Hab as [(Hab & Ra & Rb)|[[-> ->]|[-> ->]]].
      + destruct (nd_eqb a (O c)) eqn:Ea; [apply nd_eqb_spec in Ea; subst a; exfalso; apply c_fresh, (edge_node _ _ Hab)|].
        destruct (nd_eqb b (O c)) eqn:Eb; [apply nd_eqb_spec in Eb; subst b; exfalso; apply c_fresh, (edge_node _ _ Hab)|].
        apply HR, Hab.
      + rewrite (proj2 (nd_eqb_spec (O c) (O c)) eq_refl). simpl. lia.
      + rewrite (proj2 (nd_eqb_spec (O c) (O c)) eq_refl). simpl. lia.
    - intros n a b Ha Hb. apply E in Ha, Hb.
      destruct Ha as [(Ha & Ra1 & Ra2)|[[Ha ->]|[Ha _]]]; [| |discriminate];
      destruct Hb as [(Hb & Rb1 & Rb2)|[[Hb ->]|[Hb _]]]; try discriminate.
      + apply (i_unsh HI _ _ _ Ha Hb).
      + injection Hb as ->. exfalso. apply Ra2. left. apply (i_unsh HI _ _ _ Ha (ch1 HC)).
      + injection Ha as ->. exfalso. apply Rb2. left. apply (i_unsh HI _ _ _ Hb (ch1 HC)).
      + reflexivity.
  Qed.

  Section Val.
    Variable D : Type.
    Variable I : nat -> list D -> D.
    Variable inp : nat -> D.
    Notation value := (value I inp).

    Lemma NoDup_args g (W : Digraph.wf g) o xs : gpreds g (O o) = map V xs -> NoDup xs.
    Proof.
      intros H. pose proof (@NoDup_preds _ _ nd_eqb_spec g (O o) W) as ND. rewrite H in ND.
      eapply NoDup_map_inv; exact ND.
    Qed.

    (** an elementwise operation runs its string *)
    Lemma value_runs s o n d xs : inv s -> node (c_graph s) (O o) -> o_elementwise (c_ops s o) = true ->
      gpreds (c_graph s) (V n) = [O o] -> gpreds (c_graph s) (O o) = map V xs ->
      (forall b, edge (c_graph s) (O o) b -> b = V n) ->
      value s n d -> exists ds e, Forall2 (value s) xs ds /\ run I (bind_all xs ds) (compute_string (o_body (c_ops s o))) = Some e /\ e n = Some d.
    Proof.
      intros HS Ho He Hn Hx Hu H. destruct (i_str HS o Ho He) as (m & xs' & P & Ed & K & T & F).
      apply Hu in Ed. injection Ed as ->.
      assert (xs' = xs). { rewrite Hx in P. clear - P. revert xs' P. induction xs as [|x xs IH]; intros [|y ys] P; try discriminate; [reflexivity|]. injection P as -> P. f_equal. apply IH, P. }
      subst xs'. inversion H as [n' E|n' o' f p ys ds E1 E2 E3 FV|n' o' p ys ds e d' E1 E2 E3 FV R V0]; subst.
      - congruence.
      - rewrite Hn in E1. injection E1 as <-. pose proof (F _ _ E2) as ->.
        assert (ys = xs). { rewrite Hx in E3. clear - E3. revert ys E3. induction xs as [|x xs IH]; intros [|y ys] P; try discriminate; [reflexivity|]. injection P as -> P. f_equal. apply IH, P. }
        subst ys. exists ds. rewrite E2. simpl.
        rewrite args_bind; [|eapply NoDup_args; [apply (i_wf HS)|exact Hx]|].
        + eexists. split; [exact FV|]. split; [reflexivity|]. unfold eset. rewrite Nat.eqb_refl. reflexivity.
        + clear - FV. induction FV; simpl; congruence.
      - rewrite Hn in E1. injection E1 as <-.
        assert (ys = xs). { rewrite Hx in E3. clear - E3. revert ys E3. induction xs as [|x xs IH]; intros [|y ys] P; try discriminate; [reflexivity|]. injection P as -> P. f_equal. apply IH, P. }
        subst ys. exists ds, e. rewrite E2. auto.
    Qed.

    Lemma not_removed_V n : n <> v12 -> ~ removed (V n).
    Proof. intros H [A|[A|A]]; congruence. Qed.

    Lemma insert_value n d : value st n d -> n <> v12 -> value st' n d.
    Proof.
      destruct distinct as (D1 & D2 & D3 & D4). destruct HC as [E01 E12 E23 E34 P1 P2 S1 S2 L1 L2].
      destruct (i_rank HI) as (rank & HR).
      remember (rank (V n)) as k eqn:Hk. revert n d Hk.
      induction k as [k IH] using lt_wf_ind. intros n d -> H Hn.
      assert (IHx : forall o xs ds, gpreds (c_graph st) (V n) = [O o] -> gpreds (c_graph st) (O o) = map V xs ->
                ~ In v12 xs -> Forall2 (value st) xs ds -> Forall2 (value st') xs ds).
      { intros o xs ds E1 E3 Hx FV.
        assert (HL : forall x, In x xs -> rank (V x) < rank (V n)).
        { intros x Hin. apply preds_cons_edge, HR in E1.
          assert (edge (c_graph st) (V x) (O o)) as E4 by (apply (@In_preds _ nd_eqb nd_eqb_spec); rewrite E3; apply in_map, Hin).
          apply HR in E4. lia. }
        clear E3. induction FV as [|x d' xs ds H1 _ IH2]; constructor.
        - eapply IH; [apply HL; left; reflexivity|reflexivity|exact H1|]. intros ->. apply Hx. left; reflexivity.
        - apply IH2; [intros Hin; apply Hx; right; exact Hin|intros y Hy; apply HL; right; exact Hy]. }
      assert (Hv12 : forall o xs, gpreds (c_graph st) (O o) = map V xs -> ~ removed (O o) -> ~ In v12 xs).
      { intros o xs E3 Ro Hin. apply Ro. right; right. apply (i_unsh HI v12); [|exact E23].
        apply (@In_preds _ nd_eqb nd_eqb_spec). rewrite E3. apply in_map, Hin. }
      destruct (Nat.eq_dec n v23) as [->|Hn3].
      - (* the end of the chain *)
        assert (Q2 : gpreds (c_graph st) (V v23) = [O o2]).
        { apply preds_single; [apply (i_wf HI)|]. intros b. split; [intros Hb; apply (i_one HI _ _ _ Hb E34)|intros ->; exact E34]. }
        assert (Q1 : gpreds (c_graph st) (V v12) = [O o1]).
        { apply preds_single; [apply (i_wf HI)|]. intros b. split; [intros Hb; apply (i_one HI _ _ _ Hb E12)|intros ->; exact E12]. }
        destruct (@value_runs st o2 v23 d [v12] HI (proj1 (edge_node _ _ E34)) L2 Q2 P2 S2 H) as (ds2 & e2 & F2 & R2 & V2).
        inversion F2 as [|? d12 ? ? A2 B2]; subst. inversion B2; subst.
        destruct (@value_runs st o1 v12 d12 [v01] HI (proj1 (edge_node _ _ E12)) L1 Q1 P1 S1 A2) as (ds1 & e1 & F1 & R1 & V1).
        inversion F1 as [|? d01 ? ? A1 B1]; subst. inversion B1; subst.
        fold p1 in R1. fold p2 in R2.
        destruct strings2 as (K2 & T2 & _).
        destruct (@run_agree _ I p2 [v12] (bind_all [v12] [d12]) e1 e2 K2) as (e2' & R2' & A'); [|exact R2|].
        { intros x [<-|[]]. rewrite V1. simpl. unfold eset. rewrite Nat.eqb_refl. reflexivity. }
        apply (@value_combined _ I inp st' v23 c (p1 ++ p2) [v01] [d01] e2' d).
        + apply preds_v23.
        + rewrite ops_c. reflexivity.
        + apply preds_c.
        + constructor; [|constructor]. eapply IH; [|reflexivity|exact A1|exact D2].
          pose proof (HR _ _ E01). pose proof (HR _ _ E12). pose proof (HR _ _ E23). pose proof (HR _ _ E34). lia.
        + rewrite run_app, R1. exact R2'.
        + rewrite <- A'; [exact V2|]. apply in_app_iff. left; exact T2.
      - assert (Ro : forall o, gpreds (c_graph st) (V n) = [O o] -> ~ removed (O o)).
        { intros o Eo. apply preds_cons_edge in Eo. intros [A|[A|A]]; [|discriminate|]; injection A as ->; [apply S1 in Eo|apply S2 in Eo]; congruence. }
        assert (Hoc : forall o, gpreds (c_graph st) (V n) = [O o] -> o <> c).
        { intros o Eo. apply preds_cons_edge in Eo. intros ->. apply c_fresh, (edge_node _ _ Eo). }
        assert (PV : gpreds (c_graph st') (V n) = gpreds (c_graph st) (V n)) by (apply preds_other; [apply not_removed_V, Hn|congruence|discriminate]).
        inversion H as [n' E|n' o f p xs ds E1 E2 E3 FV|n' o p xs ds e d' E1 E2 E3 FV R V0]; subst.
        + apply value_source. rewrite PV. exact E.
        + apply (@value_fn _ I inp st' n o f p xs ds); [rewrite PV; exact E1|rewrite ops_other by (apply Hoc, E1); exact E2| |].
          * rewrite preds_other; [exact E3|apply Ro, E1|discriminate|intros [= X]; revert X; apply Hoc, E1].
          * eapply IHx; eauto.
        + apply (@value_combined _ I inp st' n o p xs ds e d); [rewrite PV; exact E1|rewrite ops_other by (apply Hoc, E1); exact E2| | |exact R|exact V0].
          * rewrite preds_other; [exact E3|apply Ro, E1|discriminate|intros [= X]; revert X; apply Hoc, E1].
          * eapply IHx; eauto.
    Qed.
  End Val.
End Insert.

(** ** The recursion *)
Definition no_succs (g : digraph nd) (n : nat) : Prop := forall b, ~ edge g (V n) b.
(** variables ordered by dependence *)
Definition varrank (st : cstate) (rk : nat -> nat) : Prop :=
  forall x o y, edge (c_graph st) (V x) (O o) -> edge (c_graph st) (O o) (V y) -> rk x < rk y.
Record good (st st' : cstate) : Prop := {
  g_inv : inv st';
  g_sub : forall n, node (c_graph st') (V n) -> node (c_graph st) (V n);
  g_keep : forall n, node (c_graph st) (V n) -> no_succs (c_graph st) n -> node (c_graph st') (V n) /\ no_succs (c_graph st') n;
  g_rk : forall rk, varrank st rk -> varrank st' rk;
  g_val : forall D (I : nat -> list D -> D) inp n d, node (c_graph st') (V n) -> value I inp st n d -> value I inp st' n d
}.
Lemma good_refl st : inv st -> good st st.
Proof. intros H. constructor; auto. Qed.
Lemma good_trans a b c : good a b -> good b c -> good a c.
Proof.
  intros [A1 A2 A3 A5 A4] [B1 B2 B3 B5 B4]. constructor; auto.
  intros n Hn Hs. destruct (A3 n Hn Hs) as [X Y]. apply B3; auto.
Qed.
Opaque insert_new_op.
Lemma insert_good st v01 o1 v12 o2 v23 : inv st -> chain st v01 o1 v12 o2 v23 ->
  good st (insert_new_op st v01 o1 v12 o2 v23).
Proof.
  intros HI HC. destruct (st'_spec HI HC) as (W & N & E).
  constructor.
  - apply insert_inv; assumption.
  - intros n Hn. apply N in Hn. destruct Hn as [[Hn _]|Hn]; [exact Hn|discriminate].
  - intros n Hn Hs. split.
    + apply N. left. split; [exact Hn|]. intros [H|[H|H]]; try discriminate. injection H as ->. apply (Hs _ (ch3 HC)).
    + intros b Hb. apply E in Hb. destruct Hb as [(Hb & _)|[[Hb _]|[Hb _]]]; [apply (Hs _ Hb)| |discriminate].
      injection Hb as ->. apply (Hs _ (ch1 HC)).
  - intros rk HR x o y H1 H2. apply E in H1, H2. destruct HC as [X1 X2 X3 X4 _ _ _ _ _ _].
    destruct H1 as [(H1 & _)|[[H1 H1']|[H1 _]]]; try discriminate; destruct H2 as [(H2 & _)|[[H2 _]|[H2 H2']]]; try discriminate.
    + apply (HR _ _ _ H1 H2).
    + injection H2 as ->. exfalso. apply (c_fresh HI), (edge_node HI _ _ H1).
    + injection H1' as ->. exfalso. apply (c_fresh HI), (edge_node HI _ _ H2).
    + injection H1 as ->. injection H2' as ->. pose proof (HR _ _ _ X1 X2). pose proof (HR _ _ _ X3 X4). lia.
  - intros D I inp n d Hn Hv. apply insert_value; [exact HI|exact HC|exact Hv|]. intros ->. apply N in Hn. destruct Hn as [[_ Hr]|Hn]; [|discriminate].
    apply Hr. right; left; reflexivity.
Qed.

Lemma combinable_spec st reg o : combinable st reg o = true ->
  exists p s, gpreds (c_graph st) (O o) = [V p] /\ gsuccs (c_graph st) (O o) = [s] /\ ~ In p reg /\ o_elementwise (c_ops st o) = true.
Proof.
  unfold combinable. destruct (gpreds (c_graph st) (O o)) as [|[p|] [|]]; try discriminate.
  destruct (gsuccs (c_graph st) (O o)) as [|s [|]]; try discriminate. intros H. apply andb_true_iff in H. destruct H as [H1 H2].
  exists p, s. repeat split; auto. intros Hin. apply negb_true_iff in H1. unfold nmem in H1.
  rewrite <- not_true_iff_false in H1. apply H1, existsb_exists. exists p. split; [exact Hin|apply Nat.eqb_refl].
Qed.
Lemma succs_one g o s b : gsuccs g (O o) = [s] -> edge g (O o) b -> b = s.
Proof. intros H Hb. apply (@In_succs _ nd_eqb nd_eqb_spec) in Hb. rewrite H in Hb. destruct Hb as [<-|[]]. reflexivity. Qed.

Lemma combine_good io fuel : forall st reg v st', inv st -> combine io fuel st reg v = Ok st' -> good st st'.
Proof.
  induction fuel as [|fuel IH]; intros st reg v st' HI H; simpl in H; [discriminate|].
  destruct (io v); [|injection H as <-; apply good_refl, HI].
  destruct (gpreds (c_graph st) (V v)) as [|[|o2] l2] eqn:E2; try discriminate.
  destruct (combinable st reg o2) eqn:C2.
  - destruct (gpreds (c_graph st) (O o2)) as [|[v12|] l12] eqn:E12; try discriminate.
    destruct (io v12); [|injection H as <-; apply good_refl, HI].
    destruct (gpreds (c_graph st) (V v12)) as [|[|o1] l1] eqn:E1; try discriminate.
    destruct (combinable st reg o1) eqn:C1.
    + destruct (gpreds (c_graph st) (O o1)) as [|[v01|] l01] eqn:E01; try discriminate.
      apply combinable_spec in C1, C2. destruct C1 as (q1 & s1 & Q1 & S1 & _ & L1), C2 as (q2 & s2 & Q2 & S2 & _ & L2).
      pose proof (preds_cons_edge _ _ E2) as X2. pose proof (preds_cons_edge _ _ E12) as X12.
      pose proof (preds_cons_edge _ _ E1) as X1. pose proof (preds_cons_edge _ _ E01) as X01.
      rewrite E12 in Q2. rewrite E01 in Q1. injection Q1 as -> ->. injection Q2 as -> ->.
      assert (HC : chain st q1 o1 q2 o2 v).
      { pose proof (succs_one _ _ _ S1 X1) as Y1. pose proof (succs_one _ _ _ S2 X2) as Y2. subst s1 s2.
        constructor; auto; intros b Hb; [exact (succs_one _ _ _ S1 Hb)|exact (succs_one _ _ _ S2 Hb)]. }
      pose proof (insert_good HI HC) as G. eapply good_trans; [exact G|]. eapply IH; [apply G|exact H].
    + revert H. generalize (gpreds (c_graph st) (O o1)) as l. intros l H. clear - HI H IH. revert st HI H. induction l as [|[x|] l IHl]; intros st HI H; try discriminate.
      * injection H as <-. apply good_refl, HI.
      * destruct (combine io fuel st reg x) as [s|] eqn:Ex; [|discriminate]. simpl in H.
        pose proof (IH _ _ _ _ HI Ex) as G. eapply good_trans; [exact G|]. apply IHl; [apply G|exact H].
  - revert H. generalize (length (gpreds (c_graph st) (O o2))) as size. generalize (gpreds (c_graph st) (O o2)) as l. intros l size H.
    clear - HI H IH. revert st HI H. induction l as [|[x|] l IHl]; intros st HI H; try discriminate.
    + injection H as <-. apply good_refl, HI.
    + destruct (combine io fuel st reg x) as [s|] eqn:Ex; [|discriminate]. simpl in H.
      pose proof (IH _ _ _ _ HI Ex) as G. unfold raise_if in H.
      destruct (negb (Nat.eqb (length (gpreds (c_graph s) (O o2))) size)); [discriminate|].
      eapply good_trans; [exact G|]. apply IHl; [apply G|exact H].
Qed.

Lemma combine_all_good io fuel reg order : forall st st', inv st -> combine_all io fuel st reg order = Ok st' -> good st st'.
Proof.
  induction order as [|r order IH]; intros st st' HI H; simpl in H.
  - injection H as <-. apply good_refl, HI.
  - destruct (combine io fuel st reg r) as [s|] eqn:E; [|discriminate]. simpl in H.
    pose proof (@combine_good _ _ _ _ _ _ HI E) as G. eapply good_trans; [exact G|]. apply IH; [apply G|exact H].
Qed.

(** ** Values are functions of the variable *)
Lemma map_V_inj xs ys : map V xs = map V ys -> xs = ys.
Proof. revert ys. induction xs as [|x xs IH]; intros [|y ys] P; try discriminate; [reflexivity|]. injection P as -> P. f_equal. apply IH, P. Qed.

Lemma value_fun D (I : nat -> list D -> D) inp st : (exists rank : nd -> nat, forall a b, edge (c_graph st) a b -> rank a < rank b) ->
  forall n d d', value I inp st n d -> value I inp st n d' -> d = d'.
Proof.
  intros (rank & HR) n d d' H H'. remember (rank (V n)) as k eqn:Hk. revert n d d' Hk H H'.
  induction k as [k IH] using lt_wf_ind. intros n d d' -> H H'.
  assert (A : forall o xs ds ds', gpreds (c_graph st) (V n) = [O o] -> gpreds (c_graph st) (O o) = map V xs ->
            Forall2 (value I inp st) xs ds -> Forall2 (value I inp st) xs ds' -> ds = ds').
  { intros o xs ds ds' E1 E3 F F'.
    assert (HL : forall x, In x xs -> rank (V x) < rank (V n)).
    { intros x Hin. apply preds_cons_edge, HR in E1.
      assert (edge (c_graph st) (V x) (O o)) as E4 by (apply (@In_preds _ nd_eqb nd_eqb_spec); rewrite E3; apply in_map, Hin).
      apply HR in E4. lia. }
    clear E3. revert ds' F'. induction F as [|x d0 xs ds H1 _ IH2]; intros ds' F'; inversion F'; subst; [reflexivity|].
    f_equal; [eapply IH; [apply HL; left; reflexivity|reflexivity|eassumption|eassumption]|].
    apply IH2; [intros z Hz; apply HL; right; exact Hz|assumption]. }
  inversion H as [? E|? o f p xs ds E1 E2 E3 F|? o p xs ds e ? E1 E2 E3 F R V0]; subst;
  inversion H' as [? E'|? o' f' p' xs' ds' E1' E2' E3' F'|? o' p' xs' ds' e' ? E1' E2' E3' F' R' V0']; subst;
  try congruence; rewrite E1 in E1'; injection E1' as <-; rewrite E3 in E3'; apply map_V_inj in E3'; subst xs';
  rewrite (A o xs ds ds' E1 E3 F F') in *; congruence.
Qed.

(** ** The recursion ends *)
Lemma inv_varrank st : inv st -> exists rk, varrank st rk.
Proof.
  intros H. destruct (i_rank H) as (rank & HR). exists (fun n => rank (V n)). intros x o y H1 H2.
  apply HR in H1, H2. lia.
Qed.
Lemma combine_fuel io rk fuel : forall fuel' st reg v, inv st -> varrank st rk -> rk v < fuel -> rk v < fuel' ->
  combine io fuel st reg v = combine io fuel' st reg v.
Proof.
  induction fuel as [|fuel IH]; intros fuel' st reg v HI HR H1 H2; [lia|]. destruct fuel' as [|fuel']; [lia|].
  simpl. destruct (io v); [|reflexivity].
  destruct (gpreds (c_graph st) (V v)) as [|[|o2] l2] eqn:E2; try reflexivity.
  pose proof (preds_cons_edge _ _ E2) as X2.
  assert (L2 : forall x, In (V x) (gpreds (c_graph st) (O o2)) -> rk x < rk v).
  { intros x Hx. apply (@In_preds _ nd_eqb nd_eqb_spec) in Hx. apply (HR _ _ _ Hx X2). }
  destruct (combinable st reg o2) eqn:C2.
  - destruct (gpreds (c_graph st) (O o2)) as [|[v12|] l12] eqn:E12; try reflexivity.
    destruct (io v12); [|reflexivity].
    destruct (gpreds (c_graph st) (V v12)) as [|[|o1] l1] eqn:E1; try reflexivity.
    pose proof (preds_cons_edge _ _ E1) as X1. pose proof (L2 v12 (or_introl eq_refl)) as R12.
    assert (L1 : forall x, In (V x) (gpreds (c_graph st) (O o1)) -> rk x < rk v12).
    { intros x Hx. apply (@In_preds _ nd_eqb nd_eqb_spec) in Hx. apply (HR _ _ _ Hx X1). }
    destruct (combinable st reg o1) eqn:C1.
    + destruct (gpreds (c_graph st) (O o1)) as [|[v01|] l01] eqn:E01; try reflexivity.
      pose proof (L1 v01 (or_introl eq_refl)) as R01.
      apply combinable_spec in C1, C2. destruct C1 as (q1 & s1 & Q1 & S1 & _ & M1), C2 as (q2 & s2 & Q2 & S2 & _ & M2).
      pose proof (preds_cons_edge _ _ E12) as X12. pose proof (preds_cons_edge _ _ E01) as X01.
      rewrite E12 in Q2. rewrite E01 in Q1. injection Q1 as -> ->. injection Q2 as -> ->.
      assert (HC : chain st q1 o1 q2 o2 v).
      { pose proof (succs_one _ _ _ S1 X1) as Y1. pose proof (succs_one _ _ _ S2 X2) as Y2. subst s1 s2.
        constructor; auto; intros b Hb; [exact (succs_one _ _ _ S1 Hb)|exact (succs_one _ _ _ S2 Hb)]. }
      pose proof (insert_good HI HC) as G. apply IH; [apply G|apply G, HR|lia|lia].
    + revert L1. generalize (gpreds (c_graph st) (O o1)) as l. intros l L1. clear - HI HR IH H1 H2 L1 R12.
      revert st HI HR. induction l as [|[x|] l IHl]; intros st HI HR; try reflexivity.
      pose proof (L1 x (or_introl eq_refl)) as Rx.
      rewrite (IH fuel' st reg x HI HR) by lia.
      destruct (combine io fuel' st reg x) as [s|] eqn:Ex; [|reflexivity]. simpl.
      pose proof (@combine_good _ _ _ _ _ _ HI Ex) as G. apply IHl; [intros y Hy; apply L1; right; exact Hy|apply G|apply G, HR].
  - generalize (length (gpreds (c_graph st) (O o2))) as size. revert L2. generalize (gpreds (c_graph st) (O o2)) as l. intros l L2 size.
    clear - HI HR IH H1 H2 L2. revert st HI HR. induction l as [|[x|] l IHl]; intros st HI HR; try reflexivity.
    pose proof (L2 x (or_introl eq_refl)) as Rx.
    rewrite (IH fuel' st reg x HI HR) by lia.
    destruct (combine io fuel' st reg x) as [s|] eqn:Ex; [|reflexivity]. simpl.
    pose proof (@combine_good _ _ _ _ _ _ HI Ex) as G. unfold raise_if.
    destruct (negb (Nat.eqb (length (gpreds (c_graph s) (O o2))) size)); [reflexivity|].
    apply IHl; [intros y Hy; apply L2; right; exact Hy|apply G|apply G, HR].
Qed.
Lemma combine_all_fuel io rk order : forall fuel fuel' st reg, inv st -> varrank st rk ->
  (forall v, In v order -> rk v < fuel /\ rk v < fuel') ->
  combine_all io fuel st reg order = combine_all io fuel' st reg order.
Proof.
  induction order as [|r order IH]; intros fuel fuel' st reg HI HR HB; simpl; [reflexivity|].
  destruct (HB r (or_introl eq_refl)) as [B1 B2]. rewrite (@combine_fuel io rk fuel fuel' st reg r HI HR B1 B2).
  destruct (combine io fuel' st reg r) as [s|] eqn:E; [|reflexivity]. simpl.
  pose proof (@combine_good _ _ _ _ _ _ HI E) as G. apply IH; [apply G|apply G, HR|intros v Hv; apply HB; right; exact Hv].
Qed.
