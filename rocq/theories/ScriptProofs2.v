(** Invariants of scripts: reads and assignments. *)
From Verif Require Import PyBase NamesModel PromotionsModel ExprModel UnflatModel UnflatSpec ExprProofs EffectSpec EffectProofs WorldModel
  IndexModel IndexSpec IndexProofs ArithModel ArithSpec ScriptModel ScriptSpec ScriptProofs.
From Coq Require Import Lia.
Set Implicit Arguments.
Local Open Scope list_scope.
Local Open Scope nat_scope.

Lemma upd_same {A} (l : list A) i f a : nth_error l i = Some a -> f a = a -> upd l i f = l.
Proof. revert i; induction l as [|x r IH]; intros [|i] E F; cbn in *; try discriminate; [injection E as ->; rewrite F; reflexivity|]. f_equal. eapply IH; eassumption. Qed.
Lemma nth_snoc {A} (l : list A) x : nth_error (l ++ [x]) (length l) = Some x.
Proof. rewrite nth_error_app2, Nat.sub_diag by lia. reflexivity. Qed.
Lemma nth_app_cases {A} (l : list A) x i y : nth_error (l ++ [x]) i = Some y -> nth_error l i = Some y \/ (i = length l /\ y = x).
Proof. apply ExprProofs.nth_app_last. Qed.

Section S.
  Context (N : numbers).
  Notation pstate := (pstate N). Notation opdata := (opdata N).
  Notation attrs := (list (shape * option opdata)).

  Definition tgt_ok (size : Z) (tgt : list (list Z)) (checked : list Z) : Prop :=
    (forall ix, In ix tgt -> NoDup ix /\ Forall (fun z => (0 <= z < size)%Z) ix /\ incl ix checked) /\
    ForallOrdPairs (fun a b => forall i : Z, In i a -> In i b -> False) tgt.
  Definition dec_ok (h : list obj) (at_ : attrs) (dec : nat -> decomp) (x : nat) (ox : obj) : Prop :=
    match ob_decomp ox with
    | Some d => exists od, nth_error h d = Some od /\ ob_kind od = KOp false /\ ob_deps od = [x] /\
                  Forall (fun v => v < length h) (ob_outs od) /\ map (shape_in at_) (ob_outs od) = map fst (d_outs (dec x)) /\ data_in at_ d = Some (DReads (map snd (d_outs (dec x))))
    | None => dec x = decomp0
    end.
  Definition cat_ok (h : list obj) (at_ : attrs) (cat : nat -> concat_st) (y : nat) (oy : obj) : Prop :=
    exists op oo tgt, ob_deps oy = [op] /\ nth_error h op = Some oo /\ ob_kind oo = KOp false /\ ob_outs oo = [y] /\
      data_in at_ op = Some (DWrites (size_of (shape_in at_ y)) tgt) /\ length tgt = length (ob_deps oo) /\
      tgt_ok (size_of (shape_in at_ y)) tgt (c_checked (cat y)).
  Record hinv (h : list obj) (at_ : attrs) (dec : nat -> decomp) (cat : nat -> concat_st) : Prop := {
    v_len : length at_ = length h;
    v_fresh : forall i, length h <= i -> dec i = decomp0 /\ cat i = concat0;
    v_dinv : forall x, x < length h -> dinv (shape_in at_ x) (dec x);
    v_dec : forall x ox, nth_error h x = Some ox -> dec_ok h at_ dec x ox;
    v_cat : forall y oy, nth_error h y = Some oy -> ob_kind oy = KConcat -> ob_defined oy = true -> cat_ok h at_ cat y oy
  }.

  (** Later states. *)
  Definition op_later (d : opdata) (oo oo' : obj) (x : option opdata) : Prop :=
    ob_kind oo' = KOp false /\
    match d with
    | DReads l => ob_deps oo' = ob_deps oo /\ exists m l', ob_outs oo' = ob_outs oo ++ m /\ x = Some (DReads (l ++ l'))
    | DWrites n l => ob_outs oo' = ob_outs oo /\ exists m l', ob_deps oo' = ob_deps oo ++ m /\ x = Some (DWrites n (l ++ l'))
    | _ => ob_deps oo' = ob_deps oo /\ ob_outs oo' = ob_outs oo /\ x = Some d
    end.
  Record hxt (h : list obj) (at_ : attrs) (h' : list obj) (at' : attrs) : Prop := {
    e_len : length h <= length h';
    e_shape : forall i, i < length h -> shape_in at' i = shape_in at_ i;
    e_kind : forall i o, nth_error h i = Some o -> exists o', nth_error h' i = Some o' /\ ob_kind o' = ob_kind o;
    e_op : forall o oo d, nth_error h o = Some oo -> ob_kind oo = KOp false -> data_in at_ o = Some d ->
      exists oo', nth_error h' o = Some oo' /\ op_later d oo oo' (data_in at' o)
  }.
  Lemma op_later_refl d oo : ob_kind oo = KOp false -> op_later d oo oo (Some d).
  Proof.
    intros K. split; [exact K|]. destruct d; auto.
    - split; [reflexivity|]. exists [], []. rewrite !app_nil_r. auto.
    - split; [reflexivity|]. exists [], []. rewrite !app_nil_r. auto.
  Qed.
  Lemma hxt_refl h at_ : hxt h at_ h at_.
  Proof. split; [lia|reflexivity|eauto|]. intros o oo d E K D. exists oo. split; [exact E|]. rewrite D. apply op_later_refl, K. Qed.
  Lemma hxt_trans h1 a1 h2 a2 h3 a3 : hxt h1 a1 h2 a2 -> hxt h2 a2 h3 a3 -> hxt h1 a1 h3 a3.
  Proof.
    intros [L1 S1 K1 O1] [L2 S2 K2 O2]. split; [lia|intros i Hi; rewrite S2, S1 by lia; reflexivity| |].
    { intros i o E. destruct (K1 _ _ E) as (o1 & E1 & Q1). destruct (K2 _ _ E1) as (o2 & E2 & Q2). exists o2. split; [exact E2|congruence]. }
    clear K1 K2.
    intros o oo d E K D. destruct (O1 _ _ _ E K D) as (oo1 & E1 & K1 & H1). destruct d.
    1-4: destruct H1 as (P1 & P2 & P3); destruct (O2 _ _ _ E1 K1 P3) as (oo2 & E2 & K2 & Q1 & Q2 & Q3); exists oo2; (split; [exact E2|]); split; [exact K2|]; split; [congruence|split; congruence].
    - destruct H1 as (P1 & m & l' & P2 & P3). destruct (O2 _ _ _ E1 K1 P3) as (oo2 & E2 & K2 & Q1 & m2 & l2 & Q2 & Q3).
      exists oo2. split; [exact E2|]. split; [exact K2|]. split; [congruence|]. exists (m ++ m2), (l' ++ l2). rewrite !app_assoc, <- P2. auto.
    - destruct H1 as (P1 & m & l' & P2 & P3). destruct (O2 _ _ _ E1 K1 P3) as (oo2 & E2 & K2 & Q1 & m2 & l2 & Q2 & Q3).
      exists oo2. split; [exact E2|]. split; [exact K2|]. split; [congruence|]. exists (m ++ m2), (l' ++ l2). rewrite !app_assoc, <- P2. auto.
  Qed.

  Lemma shape_app (at_ more : attrs) i : i < length at_ -> shape_in (at_ ++ more) i = shape_in at_ i.
  Proof. intros L. unfold shape_in. rewrite nth_error_app1 by exact L. reflexivity. Qed.
  Lemma data_app' (at_ more : attrs) i : i < length at_ -> data_in (at_ ++ more) i = data_in at_ i.
  Proof. intros L. unfold data_in. rewrite nth_error_app1 by exact L. reflexivity. Qed.

  Lemma dec_keep (h h' : list obj) (at_ at' : attrs) outs l : length h <= length h' -> (forall i, i < length h -> shape_in at' i = shape_in at_ i) ->
    Forall (fun v => v < length h) outs -> map (shape_in at_) outs = l -> Forall (fun v => v < length h') outs /\ map (shape_in at') outs = l.
  Proof.
    intros L S F <-. split; [eapply Forall_impl; [|exact F]; cbn; intros; lia|]. apply map_ext_in. intros a Ha. apply S. rewrite Forall_forall in F. apply F, Ha.
  Qed.

  (** ** Plain calls *)
  Lemma plain_hinv h at_ dec cat h' more : hinv h at_ dec cat -> plain_effect h h' -> length more = length h' - length h ->
    hinv h' (at_ ++ more) dec cat /\ hxt h at_ h' (at_ ++ more).
  Proof.
    intros [V1 V2 V3 V4 V5] (P1 & P2 & P3) L. split; [split|split].
    - rewrite app_length. lia.
    - intros i Hi. apply V2. lia.
    - intros x Hx. destruct (Nat.lt_ge_cases x (length h)) as [Hl|Hl].
      + rewrite shape_app by lia. apply V3, Hl.
      + destruct (V2 _ Hl) as [-> _]. apply dinv0.
    - intros x ox' E'. destruct (Nat.lt_ge_cases x (length h)) as [Hl|Hl].
      + destruct (nth_error h x) as [ox|] eqn:E; [|apply nth_error_None in E; lia]. destruct (P2 _ _ E) as (o' & Eo & K1 & K2 & _). rewrite E' in Eo. injection Eo as <-.
        specialize (V4 _ _ E). unfold dec_ok in *. rewrite K2. destruct (ob_decomp ox) as [d|]; [|exact V4].
        destruct V4 as (od & Ed & Kd & Dd & Bd & Ld & Ad). destruct (P2 _ _ Ed) as (od' & Ed' & Q1 & Q2 & Q3 & Q4 & Q5). destruct (Q4 Kd) as [Q6 Q7].
        exists od'. split; [exact Ed'|]. split; [congruence|]. split; [congruence|]. rewrite Q7. edestruct (@dec_keep h h' at_ (at_ ++ more)) as [B1 B2]; [exact P1|intros i Hi; apply shape_app; lia|exact Bd|exact Ld|]. split; [exact B1|]. split; [exact B2|]. apply data_app, Ad.
      + destruct (P3 _ _ Hl E') as [D0 _]. unfold dec_ok. rewrite D0. apply V2, Hl.
    - intros y oy' E' Ky Dy. destruct (Nat.lt_ge_cases y (length h)) as [Hl|Hl].
      + destruct (nth_error h y) as [oy|] eqn:E; [|apply nth_error_None in E; lia]. destruct (P2 _ _ E) as (o' & Eo & K1 & K2 & K3 & K4 & K5). rewrite E' in Eo. injection Eo as <-.
        destruct (V5 y oy E) as (op & oo & tgt & Q1 & Q2 & Q3 & Q4 & Q5 & Q6 & Q7); [congruence|congruence|].
        destruct (P2 _ _ Q2) as (oo' & Eo' & R1 & R2 & R3 & R4 & R5). destruct (R4 Q3) as [R6 R7].
        exists op, oo', tgt. rewrite shape_app by lia. split.
        { rewrite K5; [exact Q1| |rewrite Q1; discriminate]. unfold is_op. rewrite <- K1, Ky. reflexivity. }
        split; [exact Eo'|]. split; [congruence|]. split; [congruence|]. split; [apply data_app, Q5|]. split; [congruence|exact Q7].
      + destruct (P3 _ _ Hl E') as [_ ?]. congruence.
    - exact P1.
    - intros i Hi. apply shape_app. lia.
    - intros i o E. destruct (P2 _ _ E) as (o' & Eo' & R1 & _). eauto.
    - intros o oo d E K D. destruct (P2 _ _ E) as (oo' & Eo' & R1 & R2 & R3 & R4 & R5). destruct (R4 K) as [R6 R7].
      exists oo'. split; [exact Eo'|]. rewrite (data_app _ _ _ D). pose proof (@op_later_refl d oo K) as [_ H]. split; [congruence|].
      destruct d; rewrite ?R6, ?R7; exact H.
  Qed.

  (** ** Reads *)
  Lemma first_read h at_ dec cat x ox n nm : hinv h at_ dec cat -> nth_error h x = Some ox -> is_op ox = false -> ob_decomp ox = None ->
    let h1 := upd (h ++ [Obj (KOp false) n nm [x] [] None false]) x (set_decomp (length h)) in
    let a1 := at_ ++ [([], Some (DReads []))] in
    hinv h1 a1 dec cat /\ hxt h at_ h1 a1.
  Proof.
    intros [V1 V2 V3 V4 V5] E KX D h1 a1. pose proof (nth_lt _ _ E) as Lx. pose proof (V4 _ _ E) as DX. unfold dec_ok in DX. rewrite D in DX.
    assert (LH : length h1 = S (length h)) by (unfold h1; rewrite ExprProofs.upd_length, app_length; cbn; lia).
    assert (OLD : forall i o, nth_error h i = Some o -> nth_error h1 i = Some (if Nat.eqb x i then set_decomp (length h) o else o)).
    { intros i o Ei. unfold h1. rewrite nth_upd', (nth_app1 _ _ _ Ei). destruct (Nat.eqb x i); reflexivity. }
    assert (NEW : nth_error h1 (length h) = Some (Obj (KOp false) n nm [x] [] None false)).
    { unfold h1. rewrite nth_upd', nth_snoc. destruct (Nat.eqb_spec x (length h)); [lia|reflexivity]. }
    assert (INV : forall i o, nth_error h1 i = Some o -> (i = length h /\ o = Obj (KOp false) n nm [x] [] None false) \/ exists o0, nth_error h i = Some o0 /\ o = if Nat.eqb x i then set_decomp (length h) o0 else o0).
    { intros i o Ei. destruct (Nat.eq_dec i (length h)) as [->|Hi]; [left; rewrite NEW in Ei; injection Ei as <-; auto|]. right.
      pose proof (nth_lt _ _ Ei) as Li. destruct (nth_error h i) as [o0|] eqn:E0; [|apply nth_error_None in E0; lia]. rewrite (OLD _ _ E0) in Ei. injection Ei as <-. eauto. }
    assert (OPK : forall i o, nth_error h i = Some o -> ob_kind o = KOp false -> nth_error h1 i = Some o).
    { intros i o Ei Ki. rewrite (OLD _ _ Ei). destruct (Nat.eqb_spec x i) as [<-|]; [|reflexivity]. exfalso. rewrite E in Ei. injection Ei as <-. unfold is_op in KX. rewrite Ki in KX. discriminate. }
    assert (DATA : forall i, i < length h -> data_in a1 i = data_in at_ i) by (intros i Hi; apply data_app'; lia).
    assert (SHP : forall i, i < length h -> shape_in a1 i = shape_in at_ i) by (intros i Hi; apply shape_app; lia).
    split; [split|split].
    - unfold a1. rewrite app_length. cbn. lia.
    - intros i Hi. apply V2. lia.
    - intros i Hi. destruct (Nat.lt_ge_cases i (length h)) as [Hl|Hl]; [rewrite SHP by exact Hl; apply V3, Hl|]. destruct (V2 _ Hl) as [-> _]. apply dinv0.
    - intros i o Ei. destruct (INV _ _ Ei) as [(-> & ->)|(o0 & E0 & ->)]; [unfold dec_ok; cbn; apply V2; lia|].
      destruct (Nat.eqb_spec x i) as [<-|Hxi].
      + unfold dec_ok. cbn. rewrite DX. eexists. split; [exact NEW|]. cbn. split; [reflexivity|]. split; [reflexivity|]. split; [constructor|]. split; [reflexivity|]. unfold data_in, a1. rewrite <- V1, nth_snoc. reflexivity.
      + specialize (V4 _ _ E0). unfold dec_ok in *. destruct (ob_decomp o0) as [d|]; [|exact V4]. destruct V4 as (od & Ed & Kd & Dd & Bd & Ld & Ad).
        exists od. split; [apply OPK; assumption|]. edestruct (@dec_keep h h1 at_ a1) as [B1 B2]; [lia|exact SHP|exact Bd|exact Ld|]. repeat (split; [assumption|]). rewrite DATA by (eapply nth_lt, Ed). exact Ad.
    - intros y oy Ey Ky Dy. destruct (INV _ _ Ey) as [(-> & ->)|(o0 & E0 & ->)]; [discriminate|].
      assert (K0 : ob_kind o0 = KConcat) by (destruct (Nat.eqb x y); exact Ky). assert (D0 : ob_defined o0 = true) by (destruct (Nat.eqb x y); exact Dy).
      destruct (V5 y o0 E0 K0 D0) as (op & oo & tgt & Q1 & Q2 & Q3 & Q4 & Q5 & Q6 & Q7). exists op, oo, tgt.
      rewrite SHP by (eapply nth_lt, E0). split; [destruct (Nat.eqb x y); exact Q1|]. split; [apply OPK; assumption|]. repeat (split; [assumption|]).
      split; [rewrite DATA by (eapply nth_lt, Q2); exact Q5|auto].
    - lia.
    - exact SHP.
    - intros i o Ei. eexists. split; [apply OLD, Ei|]. match goal with |- context [if ?b then _ else _] => destruct b; reflexivity end.
    - intros o oo d Eo Ko Do. exists oo. split; [apply OPK; assumption|]. rewrite DATA by (eapply nth_lt, Eo). rewrite Do. apply op_later_refl, Ko.
  Qed.

  Lemma fresh_read h at_ dec cat x ox d d' n nm sh ix : hinv h at_ dec cat -> nth_error h x = Some ox -> is_op ox = false -> ob_decomp ox = Some d ->
    d_outs d' = d_outs (dec x) ++ [(sh, ix)] -> dinv (shape_in at_ x) d' ->
    let h1 := upd (h ++ [Obj KOut n nm [d] [] None false]) d (add_outs (length h)) in
    let a1 := upd (at_ ++ [(sh, None)]) d (fun a => (fst a, Some (DReads (map snd (d_outs d'))))) in
    hinv h1 a1 (set_fun dec x d') cat /\ hxt h at_ h1 a1.
  Proof.
    intros [V1 V2 V3 V4 V5] E KX D EO DI h1 a1. pose proof (nth_lt _ _ E) as Lx. pose proof (V4 _ _ E) as DX. unfold dec_ok in DX. rewrite D in DX.
    destruct DX as (od & Ed & Kd & Dd & Bd & Ld & Ad). pose proof (nth_lt _ _ Ed) as Ldl.
    assert (Hxd : x <> d). { intros ->. rewrite E in Ed. injection Ed as ->. unfold is_op in KX. rewrite Kd in KX. discriminate. }
    assert (LH : length h1 = S (length h)) by (unfold h1; rewrite ExprProofs.upd_length, app_length; cbn; lia).
    assert (OLD : forall i o, nth_error h i = Some o -> nth_error h1 i = Some (if Nat.eqb d i then add_outs (length h) o else o)).
    { intros i o Ei. unfold h1. rewrite nth_upd', (nth_app1 _ _ _ Ei). destruct (Nat.eqb d i); reflexivity. }
    assert (NEW : nth_error h1 (length h) = Some (Obj KOut n nm [d] [] None false)).
    { unfold h1. rewrite nth_upd', nth_snoc. destruct (Nat.eqb_spec d (length h)); [lia|reflexivity]. }
    assert (INV : forall i o, nth_error h1 i = Some o -> (i = length h /\ o = Obj KOut n nm [d] [] None false) \/ exists o0, nth_error h i = Some o0 /\ o = if Nat.eqb d i then add_outs (length h) o0 else o0).
    { intros i o Ei. destruct (Nat.eq_dec i (length h)) as [->|Hi]; [left; rewrite NEW in Ei; injection Ei as <-; auto|]. right.
      pose proof (nth_lt _ _ Ei) as Li. destruct (nth_error h i) as [o0|] eqn:E0; [|apply nth_error_None in E0; lia]. rewrite (OLD _ _ E0) in Ei. injection Ei as <-. eauto. }
    assert (NTH : forall i, i < length h -> nth_error a1 i = if Nat.eqb d i then option_map (fun a => (fst a, Some (DReads (map snd (d_outs d'))))) (nth_error at_ i) else nth_error at_ i).
    { intros i Hi. unfold a1. rewrite nth_upd', nth_error_app1 by lia. reflexivity. }
    assert (DATA : forall i, i < length h -> data_in a1 i = if Nat.eqb d i then Some (DReads (map snd (d_outs d'))) else data_in at_ i).
    { intros i Hi. unfold data_in. rewrite (NTH _ Hi). destruct (Nat.eqb d i); [|reflexivity]. destruct (nth_error at_ i) eqn:Ea; [reflexivity|]. apply nth_error_None in Ea. lia. }
    assert (SHP : forall i, i < length h -> shape_in a1 i = shape_in at_ i).
    { intros i Hi. unfold shape_in. rewrite (NTH _ Hi). destruct (Nat.eqb d i); [|reflexivity]. destruct (nth_error at_ i); reflexivity. }
    assert (SN : shape_in a1 (length h) = sh).
    { unfold shape_in, a1. rewrite nth_upd', <- V1, nth_snoc. destruct (Nat.eqb d (length at_)); reflexivity. }
    assert (NW : forall o, data_in at_ o <> Some (DReads (map snd (d_outs (dec x)))) -> Nat.eqb d o = false).
    { intros o H. apply Nat.eqb_neq. intros <-. contradiction. }
    split; [split|split].
    - unfold a1. rewrite ExprProofs.upd_length, app_length. cbn. lia.
    - intros i Hi. unfold set_fun. destruct (Nat.eqb_spec i x); [lia|]. apply V2. lia.
    - intros i Hi. unfold set_fun. destruct (Nat.eqb_spec i x) as [->|Hne]; [rewrite SHP by exact Lx; exact DI|].
      destruct (Nat.lt_ge_cases i (length h)) as [Hl|Hl]; [rewrite SHP by exact Hl; apply V3, Hl|]. destruct (V2 _ Hl) as [-> _]. apply dinv0.
    - intros i o Ei. destruct (INV _ _ Ei) as [(-> & ->)|(o0 & E0 & ->)].
      { unfold dec_ok. cbn. unfold set_fun. destruct (Nat.eqb_spec (length h) x); [lia|]. apply V2; lia. }
      assert (DO : ob_decomp (if Nat.eqb d i then add_outs (length h) o0 else o0) = ob_decomp o0) by (destruct (Nat.eqb d i); reflexivity).
      unfold dec_ok. rewrite DO. destruct (Nat.eqb_spec x i) as [<-|Hxi].
      + rewrite E in E0. injection E0 as <-. rewrite D. exists (add_outs (length h) od). split; [rewrite (OLD _ _ Ed), Nat.eqb_refl; reflexivity|]. cbn.
        split; [exact Kd|]. split; [exact Dd|]. unfold set_fun. rewrite Nat.eqb_refl, EO, !map_app. edestruct (@dec_keep h h1 at_ a1) as [B1 B2]; [lia|exact SHP|exact Bd|exact Ld|].
        split; [apply Forall_app; split; [exact B1|]; constructor; [lia|constructor]|]. split; [rewrite B2; cbn; rewrite SN; reflexivity|].
        rewrite DATA by exact Ldl. rewrite Nat.eqb_refl, EO, map_app. reflexivity.
      + unfold set_fun. destruct (Nat.eqb_spec i x) as [->|_]; [congruence|]. specialize (V4 _ _ E0). unfold dec_ok in V4. destruct (ob_decomp o0) as [d0|]; [|exact V4].
        destruct V4 as (od0 & Ed0 & Kd0 & Dd0 & Bd0 & Ld0 & Ad0). assert (Hdd : d <> d0). { intros <-. rewrite Ed in Ed0. injection Ed0 as <-. rewrite Dd in Dd0. congruence. }
        exists od0. split; [rewrite (OLD _ _ Ed0); destruct (Nat.eqb_spec d d0); [contradiction|reflexivity]|].
        edestruct (@dec_keep h h1 at_ a1) as [B1 B2]; [lia|exact SHP|exact Bd0|exact Ld0|]. repeat (split; [assumption|]).
        rewrite DATA by (eapply nth_lt, Ed0). destruct (Nat.eqb_spec d d0); [contradiction|exact Ad0].
    - intros y oy Ey Ky Dy. destruct (INV _ _ Ey) as [(-> & ->)|(o0 & E0 & ->)]; [discriminate|].
      assert (Hdy : Nat.eqb d y = false). { apply Nat.eqb_neq. intros <-. rewrite Ed in E0. injection E0 as <-. rewrite Nat.eqb_refl in Ky. cbn in Ky. congruence. }
      rewrite Hdy in *. destruct (V5 y o0 E0 Ky Dy) as (op & oo & tgt & Q1 & Q2 & Q3 & Q4 & Q5 & Q6 & Q7). exists op, oo, tgt.
      assert (Hop : Nat.eqb d op = false) by (apply NW; rewrite Q5; discriminate).
      rewrite SHP by (eapply nth_lt, E0). split; [exact Q1|]. split; [rewrite (OLD _ _ Q2), Hop; reflexivity|]. repeat (split; [assumption|]).
      split; [rewrite DATA by (eapply nth_lt, Q2); rewrite Hop; exact Q5|auto].
    - lia.
    - exact SHP.
    - intros i o Ei. eexists. split; [apply OLD, Ei|]. match goal with |- context [if ?b then _ else _] => destruct b; reflexivity end.
    - intros o oo dd Eo Ko Do. rewrite DATA by (eapply nth_lt, Eo). rewrite (OLD _ _ Eo). destruct (Nat.eqb_spec d o) as [<-|_].
      + rewrite Ed in Eo. injection Eo as <-. rewrite Ad in Do. injection Do as <-. exists (add_outs (length h) od). split; [reflexivity|].
        split; [exact Kd|]. split; [reflexivity|]. exists [length h], [ix]. cbn. split; [reflexivity|]. rewrite EO, map_app. reflexivity.
      + exists oo. split; [reflexivity|]. rewrite Do. apply op_later_refl, Ko.
  Qed.

  Lemma hinv_ext h at_ dec dec' cat : hinv h at_ dec cat -> (forall i, dec' i = dec i) -> hinv h at_ dec' cat.
  Proof.
    intros [V1 V2 V3 V4 V5] H. split; auto.
    - intros i Hi. rewrite H. auto.
    - intros i Hi. rewrite H. auto.
    - intros x ox E. specialize (V4 _ _ E). unfold dec_ok in *. rewrite H. exact V4.
  Qed.
  Lemma hinv_cat h at_ dec cat cat' : hinv h at_ dec cat -> (forall i, length h <= i -> cat' i = concat0) ->
    (forall i, incl (c_checked (cat i)) (c_checked (cat' i))) -> hinv h at_ dec cat'.
  Proof.
    intros [V1 V2 V3 V4 V5] H1 H2. split; auto.
    - intros i Hi. split; [apply V2, Hi|auto].
    - intros y oy Ey Ky Dy. destruct (V5 y oy Ey Ky Dy) as (op & oo & tgt & Q1 & Q2 & Q3 & Q4 & Q5 & Q6 & (Q7 & Q8)). exists op, oo, tgt.
      repeat (split; [assumption|]). split; [|exact Q8]. intros ix Hi. destruct (Q7 ix Hi) as (R1 & R2 & R3). repeat split; auto. intros z Hz. apply H2, R3, Hz.
  Qed.

  (** ** Assignments *)
  Lemma first_assign h at_ dec cat cat' x y oy n nm ix : hinv h at_ dec cat -> nth_error h y = Some oy -> ob_kind oy = KConcat -> ob_defined oy = false ->
    (forall i, i <> y -> cat' i = cat i) -> incl ix (c_checked (cat' y)) -> NoDup ix -> Forall (fun z => (0 <= z < size_of (shape_in at_ y))%Z) ix ->
    let h1 := upd (upd (h ++ [Obj (KOp false) n nm [x] [] None false]) (length h) (set_outs [y])) y (set_defined (length h)) in
    let a1 := at_ ++ [([], Some (DWrites (size_of (shape_in at_ y)) [ix]))] in
    hinv h1 a1 dec cat' /\ hxt h at_ h1 a1.
  Proof.
    intros [V1 V2 V3 V4 V5] E KY D HC HI ND FB h1 a1. pose proof (nth_lt _ _ E) as Ly.
    assert (LH : length h1 = S (length h)) by (unfold h1; rewrite !ExprProofs.upd_length, app_length; cbn; lia).
    assert (OLD : forall i o, nth_error h i = Some o -> nth_error h1 i = Some (if Nat.eqb y i then set_defined (length h) o else o)).
    { intros i o Ei. pose proof (nth_lt _ _ Ei). unfold h1. rewrite !nth_upd', (nth_app1 _ _ _ Ei). destruct (Nat.eqb_spec (length h) i); [lia|]. destruct (Nat.eqb y i); reflexivity. }
    assert (NEW : nth_error h1 (length h) = Some (Obj (KOp false) n nm [x] [y] None false)).
    { unfold h1. rewrite !nth_upd', Nat.eqb_refl, nth_snoc. destruct (Nat.eqb_spec y (length h)); [lia|reflexivity]. }
    assert (INV : forall i o, nth_error h1 i = Some o -> (i = length h /\ o = Obj (KOp false) n nm [x] [y] None false) \/ exists o0, nth_error h i = Some o0 /\ o = if Nat.eqb y i then set_defined (length h) o0 else o0).
    { intros i o Ei. destruct (Nat.eq_dec i (length h)) as [->|Hi]; [left; rewrite NEW in Ei; injection Ei as <-; auto|]. right.
      pose proof (nth_lt _ _ Ei) as Li. destruct (nth_error h i) as [o0|] eqn:E0; [|apply nth_error_None in E0; lia]. rewrite (OLD _ _ E0) in Ei. injection Ei as <-. eauto. }
    assert (OPK : forall i o, nth_error h i = Some o -> ob_kind o = KOp false -> nth_error h1 i = Some o).
    { intros i o Ei Ki. rewrite (OLD _ _ Ei). destruct (Nat.eqb_spec y i) as [<-|]; [|reflexivity]. exfalso. rewrite E in Ei. injection Ei as <-. congruence. }
    assert (DATA : forall i, i < length h -> data_in a1 i = data_in at_ i) by (intros i Hi; apply data_app'; lia).
    assert (SHP : forall i, i < length h -> shape_in a1 i = shape_in at_ i) by (intros i Hi; apply shape_app; lia).
    split; [split|split].
    - unfold a1. rewrite app_length. cbn. lia.
    - intros i Hi. rewrite HC by lia. apply V2. lia.
    - intros i Hi. destruct (Nat.lt_ge_cases i (length h)) as [Hl|Hl]; [rewrite SHP by exact Hl; apply V3, Hl|]. destruct (V2 _ Hl) as [-> _]. apply dinv0.
    - intros i o Ei. destruct (INV _ _ Ei) as [(-> & ->)|(o0 & E0 & ->)]; [unfold dec_ok; cbn; apply V2; lia|].
      specialize (V4 _ _ E0). unfold dec_ok in *.
      assert (DO : ob_decomp (if Nat.eqb y i then set_defined (length h) o0 else o0) = ob_decomp o0) by (destruct (Nat.eqb y i); reflexivity).
      rewrite DO. destruct (ob_decomp o0) as [d|]; [|exact V4]. destruct V4 as (od & Ed & Kd & Dd & Bd & Ld & Ad).
      exists od. split; [apply OPK; assumption|]. edestruct (@dec_keep h h1 at_ a1) as [B1 B2]; [lia|exact SHP|exact Bd|exact Ld|]. repeat (split; [assumption|]). rewrite DATA by (eapply nth_lt, Ed). exact Ad.
    - intros i o Ei Ki Di. destruct (INV _ _ Ei) as [(-> & ->)|(o0 & E0 & ->)]; [discriminate|].
      destruct (Nat.eqb_spec y i) as [<-|Hyi].
      + rewrite E in E0. injection E0 as <-. exists (length h). eexists. exists [ix]. rewrite SHP by exact Ly. split; [reflexivity|]. split; [exact NEW|]. cbn.
        repeat (split; [reflexivity|]). split; [unfold data_in, a1; rewrite <- V1, nth_snoc; reflexivity|]. split; [reflexivity|].
        split; [|constructor; constructor]. intros ix' [<-|[]]. auto.
      + destruct (V5 i o0 E0 Ki Di) as (op & oo & tgt & Q1 & Q2 & Q3 & Q4 & Q5 & Q6 & Q7). exists op, oo, tgt.
        rewrite SHP by (eapply nth_lt, E0). split; [exact Q1|]. split; [apply OPK; assumption|]. repeat (split; [assumption|]).
        split; [rewrite DATA by (eapply nth_lt, Q2); exact Q5|]. split; [exact Q6|]. rewrite HC by congruence. exact Q7.
    - lia.
    - exact SHP.
    - intros i o Ei. eexists. split; [apply OLD, Ei|]. match goal with |- context [if ?b then _ else _] => destruct b; reflexivity end.
    - intros o oo d Eo Ko Do. exists oo. split; [apply OPK; assumption|]. rewrite DATA by (eapply nth_lt, Eo). rewrite Do. apply op_later_refl, Ko.
  Qed.

  Lemma next_assign h at_ dec cat cat' x y oy op rest ix : hinv h at_ dec cat -> nth_error h y = Some oy -> ob_kind oy = KConcat -> ob_defined oy = true ->
    ob_deps oy = op :: rest ->
    (forall i, i <> y -> cat' i = cat i) -> c_checked (cat' y) = c_checked (cat y) ++ ix -> (forall i, In i ix -> In i (c_checked (cat y)) -> False) ->
    NoDup ix -> Forall (fun z => (0 <= z < size_of (shape_in at_ y))%Z) ix ->
    let h1 := upd h op (app_deps [x]) in
    let a1 := upd at_ op (add_target ix) in
    hinv h1 a1 dec cat' /\ hxt h at_ h1 a1.
  Proof.
    intros [V1 V2 V3 V4 V5] E KY D DP HC HI HD ND FB h1 a1. pose proof (nth_lt _ _ E) as Ly.
    destruct (V5 y oy E KY D) as (op0 & oo & tgt & Q1 & Q2 & Q3 & Q4 & Q5 & Q6 & (Q7 & Q8)). rewrite DP in Q1. injection Q1 as -> ->.
    assert (LH : length h1 = length h) by (unfold h1; apply ExprProofs.upd_length).
    assert (OLD : forall i o, nth_error h i = Some o -> nth_error h1 i = Some (if Nat.eqb op0 i then app_deps [x] o else o)).
    { intros i o Ei. unfold h1. rewrite nth_upd', Ei. destruct (Nat.eqb op0 i); reflexivity. }
    assert (INV : forall i o, nth_error h1 i = Some o -> exists o0, nth_error h i = Some o0 /\ o = if Nat.eqb op0 i then app_deps [x] o0 else o0).
    { intros i o Ei. pose proof (nth_lt _ _ Ei) as Li. rewrite LH in Li. destruct (nth_error h i) as [o0|] eqn:E0; [|apply nth_error_None in E0; lia]. rewrite (OLD _ _ E0) in Ei. injection Ei as <-. eauto. }
    pose proof (nth_lt _ _ Q2) as Lop.
    assert (DATA : forall i, data_in a1 i = if Nat.eqb op0 i then Some (DWrites (size_of (shape_in at_ y)) (tgt ++ [ix])) else data_in at_ i).
    { intros i. unfold data_in, a1 in *. rewrite nth_upd'. destruct (Nat.eqb_spec op0 i) as [<-|]; [|reflexivity]. destruct (nth_error at_ op0) as [[sh dd]|] eqn:Ea; [|discriminate]. cbn in Q5 |- *. subst dd. reflexivity. }
    assert (SHP : forall i, shape_in a1 i = shape_in at_ i).
    { intros i. unfold shape_in, a1. rewrite nth_upd'. destruct (Nat.eqb op0 i); [|reflexivity]. destruct (nth_error at_ i) as [[sh [[]|]]|]; reflexivity. }
    split; [split|split].
    - unfold a1. rewrite ExprProofs.upd_length. lia.
    - intros i Hi. rewrite HC by lia. apply V2. lia.
    - intros i Hi. rewrite SHP. apply V3. lia.
    - intros i o Ei. destruct (INV _ _ Ei) as (o0 & E0 & ->). specialize (V4 _ _ E0). unfold dec_ok in *.
      assert (DO : ob_decomp (if Nat.eqb op0 i then app_deps [x] o0 else o0) = ob_decomp o0) by (destruct (Nat.eqb op0 i); reflexivity).
      rewrite DO. destruct (ob_decomp o0) as [d|]; [|exact V4]. destruct V4 as (od & Ed & Kd & Dd & Bd & Ld & Ad).
      assert (Hd : Nat.eqb op0 d = false) by (apply Nat.eqb_neq; intros <-; rewrite Q5 in Ad; discriminate).
      exists od. split; [rewrite (OLD _ _ Ed), Hd; reflexivity|]. edestruct (@dec_keep h h1 at_ a1) as [B1 B2]; [lia|intros; apply SHP|exact Bd|exact Ld|]. repeat (split; [assumption|]). rewrite DATA, Hd. exact Ad.
    - intros i o Ei Ki Di. destruct (INV _ _ Ei) as (o0 & E0 & ->).
      assert (Hi : Nat.eqb op0 i = false). { apply Nat.eqb_neq. intros <-. rewrite Q2 in E0. injection E0 as <-. rewrite Nat.eqb_refl in Ki. cbn in Ki. congruence. }
      rewrite Hi in *. destruct (V5 i o0 E0 Ki Di) as (op & oo2 & tgt2 & P1 & P2 & P3 & P4 & P5 & P6 & (P7 & P8)). unfold cat_ok. rewrite SHP.
      destruct (Nat.eq_dec i y) as [->|Hne].
      + rewrite E in E0. injection E0 as <-. rewrite DP in P1. injection P1 as <-. rewrite Q2 in P2. injection P2 as <-. rewrite Q5 in P5. injection P5 as <-.
        exists op0, (app_deps [x] oo), (tgt ++ [ix]). split; [exact DP|]. split; [rewrite (OLD _ _ Q2), Nat.eqb_refl; reflexivity|]. cbn.
        split; [exact Q3|]. split; [exact Q4|]. split; [rewrite DATA, Nat.eqb_refl; reflexivity|]. split; [rewrite !app_length; cbn; lia|]. split.
        * intros ix' Hi'. apply in_app_iff in Hi'. rewrite HI. destruct Hi' as [Hi'|[<-|[]]].
          -- destruct (Q7 _ Hi') as (R1 & R2 & R3). repeat split; auto. intros z Hz. apply in_app_iff. left. apply R3, Hz.
          -- repeat split; auto. intros z Hz. apply in_app_iff. right. exact Hz.
        * apply ForallOrdPairs_app; [exact Q8|]. intros ix' Hi' z Hz1 Hz2. destruct (Q7 _ Hi') as (_ & _ & R3). eapply HD; [exact Hz2|apply R3, Hz1].
      + assert (Hop : Nat.eqb op0 op = false). { apply Nat.eqb_neq. intros <-. rewrite Q2 in P2. injection P2 as <-. rewrite Q4 in P4. congruence. }
        exists op, oo2, tgt2. split; [exact P1|]. split; [rewrite (OLD _ _ P2), Hop; reflexivity|]. repeat (split; [assumption|]). split; [rewrite DATA, Hop; exact P5|].
        split; [exact P6|]. rewrite HC by exact Hne. split; assumption.
    - lia.
    - intros i _. apply SHP.
    - intros i o Ei. eexists. split; [apply OLD, Ei|]. match goal with |- context [if ?b then _ else _] => destruct b; reflexivity end.
    - intros o oo2 d Eo Ko Do. rewrite (OLD _ _ Eo), DATA. destruct (Nat.eqb_spec op0 o) as [<-|_].
      + rewrite Q2 in Eo. injection Eo as <-. rewrite Q5 in Do. injection Do as <-. eexists. split; [reflexivity|]. split; [exact Q3|]. split; [reflexivity|].
        exists [x], [ix]. auto.
      + exists oo2. split; [reflexivity|]. rewrite Do. apply op_later_refl, Ko.
  Qed.
End S.
