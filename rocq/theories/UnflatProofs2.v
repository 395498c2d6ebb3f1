(** The graph of a model, with its submodels. *)
From Verif Require Import PyBase Digraph ExprModel UnflatModel UnflatSpec UnflatProofs.
Set Implicit Arguments.

(** Induction on models. *)
Section UmodelInd.
  Variable P : umodel -> Prop.
  Hypothesis H : forall ins outs decls subs, Forall (fun s => P (snd s)) subs -> P (UM ins outs decls subs).
  Fixpoint umodel_ind' (m : umodel) : P m :=
    match m with
    | UM ins outs decls subs =>
      H ins outs decls ((fix go l : Forall (fun s => P (snd s)) l :=
        match l with
        | [] => Forall_nil _
        | s :: r => Forall_cons s (umodel_ind' (snd s)) (go r)
        end) subs)
    end.
End UmodelInd.

Fixpoint subs_pass (F : list string -> umodel -> res ugraph) (p : list string) (nodes : dict irnode)
  (g : digraph irnode) (subs : list (string * umodel)) : res (dict irnode * digraph irnode * list (string * ugraph)) :=
  match subs with
  | [] => Ok (nodes, g, [])
  | (s, sm) :: r =>
    if dmem s nodes then subs_pass F p nodes g r
    else do u <- F (p ++ [s]) sm;
         do rest <- subs_pass F p (dset nodes s (NModel p s)) (add_node irnode_eqb g (NModel p s)) r;
         Ok (fst rest, (s, u) :: snd rest)
  end.

Definition finish (h : list obj) (p : list string) (ins leaves : list nat)
  (sub : dict irnode * digraph irnode * list (string * ugraph)) : res ugraph :=
  let input_nodes := dict_of (input_entries h p ins) in
  let nodes := dupdate (fst (fst sub)) input_nodes in
  let g := add_nodes irnode_eqb (snd (fst sub)) (map snd input_nodes) in
  match construct_this_model h p nodes g leaves with
  | None => Err RuntimeError
  | Some (Err e) => Err e
  | Some (Ok w) => Ok (UG (w_graph w) (snd sub))
  end.

Lemma construct_all_eq h p ins outs decls subs :
  construct_all h p (UM ins outs decls subs) =
  bind (subs_pass (construct_all h) p [] empty_graph subs) (finish h p ins (outs ++ decls)).
Proof.
  cbn [construct_all]. unfold finish.
  match goal with |- bind (?G [] _ _) _ = _ =>
    assert (E : forall n g l, G n g l = subs_pass (construct_all h) p n g l) end.
  { intros n g l. revert n g. induction l as [|[s sm] r IH]; intros n g; [reflexivity|].
    cbn [subs_pass]. destruct (dmem s n); [apply IH|]. destruct (construct_all h (p ++ [s]) sm); [|reflexivity].
    cbn [bind]. rewrite IH. reflexivity. }
  rewrite E. reflexivity.
Qed.

(** Submodels: first occurrence of each name. *)
Lemma subs_pass_spec F p subs : forall nodes g nodes' g' us,
  subs_pass F p nodes g subs = Ok (nodes', g', us) ->
  (forall k n, dget nodes' k = Some n <-> dget nodes k = Some n \/ (dget nodes k = None /\ In k (map fst subs) /\ n = NModel p k)) /\
  (forall a, node g' a <-> node g a \/ exists s, In s (map fst subs) /\ dget nodes s = None /\ a = NModel p s) /\
  (forall a b, edge g' a b <-> edge g a b) /\ (wf g -> wf g') /\
  (forall s u, In (s, u) us -> exists sm, In (s, sm) subs /\ F (p ++ [s]) sm = Ok u) /\
  (forall s, In s (map fst us) <-> In s (map fst subs) /\ dget nodes s = None) /\
  NoDup (map fst us).
Proof.
  induction subs as [|[s sm] r IH]; intros nodes g nodes' g' us H; cbn in H.
  - injection H as <- <- <-. split; [intros k n; split; [auto|intros [H|(_ & [] & _)]; exact H]|].
    split; [intros a; split; [auto|intros [H|(s & [] & _)]; exact H]|]. split; [tauto|]. split; [auto|].
    split; [intros s u []|]. split; [cbn; tauto|constructor].
  - destruct (dmem s nodes) eqn:D.
    + apply dmem_spec in D. apply In_key_dget in D. destruct D as [v Dv].
      apply IH in H. destruct H as (H1 & H2 & H3 & H4 & H5 & H6 & H7). cbn [map fst].
      split; [|split; [|split; [|split; [|split; [|split]]]]]; auto.
      * intros k n. rewrite H1. cbn. split; [intros [H|(A & B & C)]; auto|].
        intros [H|(A & [<-|B] & C)]; [auto|congruence|auto].
      * intros a. rewrite H2. cbn. split; [intros [H|(x & A & B & C)]; [auto|right; exists x; auto]|].
        intros [H|(x & [<-|A] & B & C)]; [auto|congruence|right; exists x; auto].
      * intros s0 u Hu. destruct (H5 s0 u Hu) as (sm0 & A & B). exists sm0. cbn. auto.
      * intros x. rewrite H6. cbn. split; [tauto|]. intros [[<-|A] B]; [congruence|auto].
    + apply dmem_false in D. apply dget_None in D.
      destruct (F (p ++ [s]) sm) as [u|] eqn:Fu; [|discriminate]. cbn [bind] in H.
      destruct (subs_pass F p _ _ r) as [[[n2 g2] us2]|] eqn:R; [|discriminate]. cbn [bind fst snd] in H.
      injection H as <- <- <-. apply IH in R. destruct R as (H1 & H2 & H3 & H4 & H5 & H6 & H7). cbn [map fst].
      assert (DS : forall k, k <> s -> dget (dset nodes s (NModel p s)) k = dget nodes k) by (intros k Hk; apply dget_dset_other, Hk).
      assert (DE := dget_dset_same nodes s (NModel p s)).
      split; [|split; [|split; [|split; [|split; [|split]]]]].
      * intros k n. rewrite H1. cbn. destruct (String.eqb_spec k s) as [->|Hne].
        -- rewrite DE. split.
           ++ intros [H|(A & _)]; [injection H as <-; right; auto|discriminate].
           ++ intros [H|(A & B & C)]; [congruence|]. subst. auto.
        -- rewrite DS by exact Hne. split; [intros [H|(A & B & C)]; auto|].
           intros [H|(A & [B|B] & C)]; [auto|congruence|auto].
      * intros a. rewrite H2. rewrite (node_add_node _ irnode_eqb_spec). cbn. split.
        -- intros [[H|H]|(x & A & B & C)]; [auto|right; exists s; auto|].
           destruct (String.eqb_spec x s) as [->|Hne]; [congruence|]. rewrite DS in B by exact Hne. right. exists x. auto.
        -- intros [H|(x & A & B & C)]; [auto|]. destruct (String.eqb_spec x s) as [->|Hne]; [auto|].
           right. exists x. rewrite DS by exact Hne. destruct A as [A|A]; [congruence|auto].
      * intros a b. rewrite H3. rewrite edge_add_node. reflexivity.
      * intros W. apply H4. apply (wf_add_node _ irnode_eqb_spec). exact W.
      * intros s0 u0 [Hu|Hu]; [injection Hu as <- <-; exists sm; cbn; auto|].
        destruct (H5 s0 u0 Hu) as (sm0 & A & B). exists sm0. cbn. auto.
      * intros x. cbn. rewrite H6. destruct (String.eqb_spec x s) as [->|Hne].
        -- split; [auto|auto].
        -- rewrite DS by exact Hne. split; [intros [A|A]; [congruence|tauto]|]. intros [[A|A] B]; [congruence|auto].
      * cbn. constructor; [|exact H7]. rewrite H6. rewrite DE. intros [_ A]. discriminate.
Qed.

(** Inputs. *)
Lemma input_entries_spec h p ins k n : In (k, n) (input_entries h p ins) <-> exists i, In i ins /\ n = NObj p i /\ named h i k.
Proof.
  unfold input_entries. rewrite in_flat_map. split.
  - intros (i & Hi & H). destruct (nth_error h i) as [ob|] eqn:E; [|destruct H]. destruct H as [H|[]].
    injection H as <- <-. exists i. split; [exact Hi|]. split; [reflexivity|]. exists ob. auto.
  - intros (i & Hi & -> & ob & E & <-). exists i. rewrite E. split; [exact Hi|left; reflexivity].
Qed.

Lemma dupdate_get {V} (e d : dict V) k v : dget (dupdate d e) k = Some v ->
  In (k, v) e \/ (dget d k = Some v /\ ~ In k (dkeys e)).
Proof.
  revert d; induction e as [|[k' v'] e IH]; intros d H; [right; auto|]. rewrite dupdate_cons in H. cbn [fst snd] in H.
  apply IH in H. destruct H as [H|[H Hn]]; [left; right; exact H|].
  destruct (String.eqb_spec k k') as [->|Hne].
  - rewrite dget_dset_same in H. injection H as <-. left; left; reflexivity.
  - rewrite dget_dset_other in H by exact Hne. right. split; [exact H|]. cbn. intros [E|E]; [congruence|contradiction].
Qed.
Lemma dupdate_none {V} (e d : dict V) k : dget (dupdate d e) k = None <-> dget d k = None /\ ~ In k (dkeys e).
Proof. rewrite !dget_None, In_dkeys_dupdate. tauto. Qed.
Lemma NoDup_dupdate {V} (e d : dict V) : NoDup (dkeys d) -> NoDup (dkeys (dupdate d e)).
Proof.
  revert d; induction e as [|[k v] e IH]; intros d H; [exact H|]. rewrite dupdate_cons. apply IH, NoDup_dset, H.
Qed.
Lemma dict_of_get {V} (e : list (string * V)) k v : dget (dict_of e) k = Some v -> In (k, v) e.
Proof. intros H. apply dupdate_get in H. destruct H as [H|[H _]]; [exact H|discriminate]. Qed.
Lemma dict_of_keys {V} (e : list (string * V)) k : In k (dkeys (dict_of e)) <-> In k (dkeys e).
Proof. unfold dict_of. rewrite In_dkeys_dupdate. cbn. tauto. Qed.
Lemma NoDup_dict_of {V} (e : list (string * V)) : NoDup (dkeys (dict_of e)).
Proof. apply NoDup_dupdate. constructor. Qed.

Lemma named_fun h o k k' : named h o k -> named h o k' -> k = k'.
Proof. intros (ob & E & <-) (ob' & E' & <-). congruence. Qed.

(** Full description of the graph of one model; [f] maps an object to its node. *)
Lemma graph_of_model h p ins outs decls subs u :
  (forall i, In i ins -> i < length h) ->
  construct_all h p (UM ins outs decls subs) = Ok u ->
  exists f : nat -> irnode,
    (forall x, scope h ins (outs ++ decls) x -> 
        (exists o, f x = NObj p o /\ scope h ins (outs ++ decls) o /\ (forall k, named h x k <-> named h o k)) \/
        (exists s, f x = NModel p s /\ In s (map fst subs) /\ named h x s)) /\
    (forall x y k k', scope h ins (outs ++ decls) x -> scope h ins (outs ++ decls) y -> named h x k -> named h y k' ->
        (f x = f y <-> k = k')) /\
    (forall a b, edge (ug_graph u) a b <-> exists x y,
        needed h (outs ++ decls) x /\ needed h (outs ++ decls) y /\ flows h x y /\ a = f x /\ b = f y) /\
    (forall a, node (ug_graph u) a <-> (exists s, In s (map fst subs) /\ a = NModel p s) \/ (exists i, In i ins /\ a = f i) \/
        (exists x y, needed h (outs ++ decls) x /\ needed h (outs ++ decls) y /\ flows h x y /\ (a = f x \/ a = f y))) /\
    (forall x, needed h (outs ++ decls) x -> variable h x -> exists o, f x = NObj p o /\ variable h o) /\
    wf (ug_graph u).
Proof.
  intros Hins H. rewrite construct_all_eq in H.
  destruct (subs_pass (construct_all h) p [] empty_graph subs) as [[[n1 g1] us]|] eqn:SP; [|discriminate].
  cbn [bind] in H. apply subs_pass_spec in SP. destruct SP as (S1 & S2 & S3 & S4 & S5 & S6 & S7).
  unfold finish in H. cbn [fst snd] in H.
  set (inp := dict_of (input_entries h p ins)) in *.
  set (d0 := dupdate n1 inp) in *. set (g0 := add_nodes irnode_eqb g1 (map snd inp)) in *.
  assert (W1 : wf g1). { apply S4. split; [intros a b []|constructor|constructor]. }
  destruct (@add_nodes_spec _ irnode_eqb irnode_eqb_spec (map snd inp) g1 W1) as (W0 & N0 & E0). fold g0 in W0, N0, E0.
  set (leaves := outs ++ decls) in *.
  destruct (@construct_spec h p d0 g0 leaves W0) as (r & Er & Hr). rewrite Er in H.
  destruct r as [w|]; [|discriminate]. injection H as <-. cbn [ug_graph].
  destruct (Hr w eq_refl) as (WF & X & F & NO & NV & EE & VV). clear Hr Er.
  (* entries of the final dictionary *)
  assert (ENT : forall k n, dget (w_nodes w) k = Some n ->
      (exists o, n = NObj p o /\ scope h ins leaves o /\ named h o k) \/ (n = NModel p k /\ In k (map fst subs) /\ dget d0 k = Some n)).
  { intros k n D. apply F in D. destruct D as [D|(o & -> & Ho & Hn)].
    - pose proof D as D'. unfold d0 in D'. apply dupdate_get in D'. destruct D' as [D'|[D' _]].
      + unfold inp in D'. apply (In_dget _ _ _ (NoDup_dict_of _)) in D'. apply dict_of_get in D'.
        apply input_entries_spec in D'. destruct D' as (i & Hi & -> & Hn). left. exists i. split; [reflexivity|]. split; [left; exact Hi|exact Hn].
      + apply S1 in D'. destruct D' as [D'|(_ & Hk & ->)]; [discriminate|]. right. auto.
    - left. exists o. split; [reflexivity|]. split; [right; exact Ho|exact Hn]. }
  assert (NI : forall i, In i ins -> exists n, node_of h (w_nodes w) i n /\ In n (map snd inp)).
  { intros i Hi. destruct (nth_error h i) as [ob|] eqn:E; [|apply nth_error_None in E; specialize (Hins i Hi); lia].
    assert (Hk : In (ob_name ob) (dkeys inp)).
    { unfold inp. rewrite dict_of_keys. unfold dkeys. apply in_map_iff. exists (ob_name ob, NObj p i). split; [reflexivity|].
      apply input_entries_spec. exists i. split; [exact Hi|]. split; [reflexivity|]. exists ob. auto. }
    assert (Hd : exists n, dget d0 (ob_name ob) = Some n).
    { apply In_key_dget. unfold d0. apply In_dkeys_dupdate. auto. }
    destruct Hd as [n Hd]. exists n. split; [exists (ob_name ob); split; [exists ob; auto|apply X, Hd]|].
    unfold d0 in Hd. apply dupdate_get in Hd. destruct Hd as [Hd|[_ Hd]]; [apply in_map_iff; exists (ob_name ob, n); auto|contradiction]. }
  assert (NS : forall x, scope h ins leaves x -> exists n, node_of h (w_nodes w) x n).
  { intros x [Hx|Hx]; [destruct (NI x Hx) as (n & Hn & _); eauto|apply NO, Hx]. }
  pose (f := fun x => match nth_error h x with
                      | Some ob => match dget (w_nodes w) (ob_name ob) with Some n => n | None => NObj p x end
                      | None => NObj p x
                      end).
  assert (Hf : forall x n, node_of h (w_nodes w) x n -> f x = n).
  { intros x n (k & (ob & E & <-) & D). unfold f. rewrite E, D. reflexivity. }
  exists f. split; [|split; [|split; [|split; [|split; [|exact WF]]]]].
  - intros x Hx. destruct (NS x Hx) as [n Hn]. rewrite (Hf _ _ Hn). destruct Hn as (k & Hk & D).
    destruct (ENT k n D) as [(o & -> & Ho & Hok)|(-> & Hs & _)].
    + left. exists o. split; [reflexivity|]. split; [exact Ho|]. intros k'. split; intros H.
      * rewrite <- (named_fun Hk H). exact Hok.
      * rewrite <- (named_fun Hok H). exact Hk.
    + right. exists k. auto.
  - intros x y k k' H H0 H1 H2. split. { intros Efg. destruct (NS x H) as [n Hn]. destruct (NS y H0) as [n' Hn']. rewrite (Hf _ _ Hn), (Hf _ _ Hn') in Efg. subst n'.
    destruct Hn as (a & Ha & Da). destruct Hn' as (b & Hb & Db).
    rewrite (named_fun H1 Ha), (named_fun H2 Hb).
    destruct (ENT a n Da) as [(o & -> & Ho & Hok)|(-> & Hs & _)].
    + destruct (ENT b _ Db) as [(o' & E' & Ho' & Hok')|(E' & _)]; [|discriminate]. injection E' as <-.
      exact (named_fun Hok Hok').
    + destruct (ENT b _ Db) as [(o' & E' & Ho' & Hok')|(E' & _)]; [discriminate|]. injection E' as <-. reflexivity. }
    intros <-. destruct (NS x H) as [n Hn]. destruct (NS y H0) as [n' Hn']. rewrite (Hf _ _ Hn), (Hf _ _ Hn').
    destruct Hn as (a & Ha & Da). destruct Hn' as (b & Hb & Db). rewrite (named_fun Ha H1) in Da. rewrite (named_fun Hb H2) in Db. congruence.
  - intros a b. split. { rewrite EE. intros [H|(x & y & Hx & Hy & Hfl & Ha & Hb)].
    + apply E0 in H. apply S3 in H. destruct H.
    + exists x, y. rewrite (Hf _ _ Ha), (Hf _ _ Hb). auto. }
    intros (x & y & Hx & Hy & Hfl & -> & ->). apply EE. right. exists x, y. destruct (NO x Hx) as [n Hn]. destruct (NO y Hy) as [n' Hn'].
    rewrite (Hf _ _ Hn), (Hf _ _ Hn'). auto.
  - intros a. split. { rewrite VV. intros [H|(x & y & Hx & Hy & Hfl & Ha)].
    + apply N0 in H. destruct H as [H|H].
      * apply S2 in H. destruct H as [[]|(s & Hs & _ & ->)]. left. eauto.
      * right. left. apply in_map_iff in H. destruct H as ([k n] & <- & Hin). cbn [snd].
        pose proof (In_dget _ _ _ (NoDup_dict_of _) Hin) as D. apply dict_of_get in D. apply input_entries_spec in D.
        destruct D as (i & Hi & -> & Hn). exists i. split; [exact Hi|].
        destruct (NI i Hi) as (n & Hno & _). rewrite (Hf _ _ Hno). destruct Hno as (k' & Hk' & D).
        rewrite (named_fun Hk' Hn) in D.
        destruct (dget d0 k) as [m|] eqn:Dm.
        { pose proof (X _ _ Dm) as Dw. rewrite D in Dw. injection Dw as ->.
          unfold d0 in Dm. apply dupdate_get in Dm. destruct Dm as [Dm|[_ Dm]].
          - pose proof (In_dget _ _ _ (NoDup_dict_of _) Dm) as D1. pose proof (In_dget _ _ _ (NoDup_dict_of _) Hin) as D2. congruence.
          - exfalso. apply Dm. unfold dkeys. apply in_map_iff. exists (k, NObj p i). auto. }
        { exfalso. unfold d0 in Dm. apply dupdate_none in Dm. destruct Dm as [_ Dm]. apply Dm. unfold dkeys. apply in_map_iff. exists (k, NObj p i). auto. }
    + right. right. exists x, y. destruct Ha as [Ha|Ha]; rewrite (Hf _ _ Ha); auto 6. }
    intros [(s & Hs & ->)|[(i & Hi & ->)|(x & y & Hx & Hy & Hfl & Ha)]]; apply VV.
    + left. apply N0. left. apply S2. right. exists s. auto.
    + left. apply N0. right. destruct (NI i Hi) as (n & Hn & Hin). rewrite (Hf _ _ Hn). exact Hin.
    + right. exists x, y. destruct (NO x Hx) as [n Hn]. destruct (NO y Hy) as [n' Hn'].
      rewrite (Hf _ _ Hn), (Hf _ _ Hn') in Ha. destruct Ha as [->| ->]; auto 6.
  - intros x Hx Vx. destruct (NV x Hx Vx) as (q & o & Hn & Vo). exists o. split; [|exact Vo]. rewrite (Hf _ _ Hn).
    destruct Hn as (k & Hk & D). destruct (ENT k _ D) as [(o' & E & _)|(E & _)]; [|discriminate]. injection E as -> ->. reflexivity.
Qed.

(** *** When construction succeeds *)
Definition entry_ok (h : list obj) (p : list string) (P : nat -> Prop) (ins : list nat) (subs : list string) (k : string) (n : irnode) : Prop :=
  (exists o, n = NObj p o /\ P o /\ named h o k) \/
  (n = NModel p k /\ In k subs /\ forall i, In i ins -> ~ named h i k).
Definition entries_ok h p P ins subs (d : dict irnode) : Prop := forall k n, dget d k = Some n -> entry_ok h p P ins subs k n.

Lemma ggn_ok h p P ins subs d x : names_compatible h P ins subs -> entries_ok h p P ins subs d -> P x -> x < length h ->
  exists d' n, get_graph_node h p d x = Ok (d', n) /\ entries_ok h p P ins subs d'.
Proof.
  intros [C1 C2] En Px Lx. unfold get_graph_node. destruct (nth_error h x) as [ob|] eqn:E; [|apply nth_error_None in E; lia].
  assert (NM : named h x (ob_name ob)) by (exists ob; auto).
  destruct (dget d (ob_name ob)) as [m|] eqn:D.
  - destruct (is_op ob) eqn:O; [eauto|]. assert (Vx : variable h x) by (exists ob; auto).
    destruct (En _ _ D) as [(o & -> & Po & No)|(-> & Hs & Hi)].
    + destruct (C1 x o _ Px Po NM No Vx) as (ob' & E' & O'). rewrite E', O'. eauto.
    + destruct (C2 x _ Px Vx NM Hs) as (i & Ii & Ni). exfalso. exact (Hi i Ii Ni).
  - do 2 eexists. split; [reflexivity|]. intros k n H. destruct (String.eqb_spec k (ob_name ob)) as [->|Hne].
    + rewrite dget_dset_same in H. injection H as <-. left. exists x. auto.
    + rewrite dget_dset_other in H by exact Hne. apply En, H.
Qed.

Lemma link_all_ok h p P ins subs fwd me : names_compatible h P ins subs -> forall l w,
  entries_ok h p P ins subs (w_nodes w) -> (forall x, In x l -> P x /\ x < length h) ->
  exists w', link_all h p fwd me w l = Ok w' /\ entries_ok h p P ins subs (w_nodes w').
Proof.
  intros C. induction l as [|x r IH]; intros w En Hl; [exists w; auto|]. cbn.
  destruct (Hl x (or_introl eq_refl)) as [Px Lx]. destruct (ggn_ok C En Px Lx) as (d' & n & G & En').
  unfold link. rewrite G. cbn [bind fst snd].
  destruct (memn x (w_queued w)); cbn [bind]; apply IH; auto; intros y Hy; apply Hl; right; exact Hy.
Qed.

Lemma wloop_ok h p leaves ins subs d0 g0 : no_dangling h -> (forall x, In x leaves -> x < length h) ->
  names_compatible h (scope h ins leaves) ins subs ->
  forall fuel dn w, winv h p leaves d0 g0 dn w -> entries_ok h p (scope h ins leaves) ins subs (w_nodes w) ->
  forall r, wloop h p fuel w = Some r -> is_ok r = true.
Proof.
  intros ND HL C. assert (V : forall x, needed h leaves x -> x < length h).
  { intros x Hx. induction Hx; [auto|eapply ND; left; eassumption|eapply ND; right; eassumption]. }
  induction fuel as [|f IH]; intros dn w I En r H; cbn in H; destruct (w_queue w) as [|x q] eqn:Q; try discriminate.
  - injection H as <-. reflexivity.
  - injection H as <-. reflexivity.
  - assert (Hx : needed h leaves x).
    { apply (wi_reach I). apply (wi_split I). left. rewrite Q. left. reflexivity. }
    destruct (visit h p _ x) as [w1|e] eqn:Vi.
    + destruct (visit_spec Q I Vi) as [I1 _]. refine (IH _ _ I1 _ _ H).
      unfold visit in Vi. cbn [w_nodes w_graph w_queue w_queued] in Vi.
      destruct (ggn_ok C En (or_intror Hx) (V _ Hx)) as (d' & n & G & En'). rewrite G in Vi. cbn [bind fst snd] in Vi.
      destruct (nth_error h x) as [ob|] eqn:E; [|discriminate].
      destruct (link_all h p false n _ (ob_deps ob)) as [w2|] eqn:L1; [|discriminate]. cbn [bind] in Vi.
      assert (HD : forall y, In y (ob_deps ob) -> scope h ins leaves y /\ y < length h).
      { intros y Hy. assert (needed h leaves y) by (eapply needed_dep; [exact Hx|exists ob; auto]). split; [right; assumption|auto]. }
      destruct (@link_all_ok h p _ ins subs false n C (ob_deps ob) (Wst d' (w_graph w) q (w_queued w)) En' HD) as (w2' & L1' & En2).
      rewrite L1 in L1'. injection L1' as <-.
      destruct (is_op ob) eqn:O; [|injection Vi as <-; exact En2].
      assert (HO : forall y, In y (ob_outs ob) -> scope h ins leaves y /\ y < length h).
      { intros y Hy. assert (needed h leaves y) by (eapply needed_out; [exact Hx|exists ob; auto]). split; [right; assumption|auto]. }
      destruct (@link_all_ok h p _ ins subs true n C (ob_outs ob) w2 En2 HO) as (w3 & L2' & En3). rewrite Vi in L2'. injection L2' as <-. exact En3.
    + exfalso. unfold visit in Vi. cbn [w_nodes w_graph w_queue w_queued] in Vi.
      destruct (ggn_ok C En (or_intror Hx) (V _ Hx)) as (d' & n & G & En'). rewrite G in Vi. cbn [bind fst snd] in Vi.
      destruct (nth_error h x) as [ob|] eqn:E; [|apply nth_error_None in E; specialize (V _ Hx); lia].
      assert (HD : forall y, In y (ob_deps ob) -> scope h ins leaves y /\ y < length h).
      { intros y Hy. assert (needed h leaves y) by (eapply needed_dep; [exact Hx|exists ob; auto]). split; [right; assumption|auto]. }
      destruct (@link_all_ok h p _ ins subs false n C (ob_deps ob) (Wst d' (w_graph w) q (w_queued w)) En' HD) as (w2 & L1 & En2).
      rewrite L1 in Vi. cbn [bind] in Vi. destruct (is_op ob) eqn:O; [|discriminate].
      assert (HO : forall y, In y (ob_outs ob) -> scope h ins leaves y /\ y < length h).
      { intros y Hy. assert (needed h leaves y) by (eapply needed_out; [exact Hx|exists ob; auto]). split; [right; assumption|auto]. }
      destruct (@link_all_ok h p _ ins subs true n C (ob_outs ob) w2 En2 HO) as (w3 & L2 & En3). rewrite Vi in L2. discriminate.
Qed.

Lemma subs_pass_ok F p subs : (forall s sm, In (s, sm) subs -> is_ok (F (p ++ [s]) sm) = true) ->
  forall nodes g, exists r, subs_pass F p nodes g subs = Ok r.
Proof.
  induction subs as [|[s sm] r IH]; intros H nodes g; cbn; [eauto|].
  destruct (dmem s nodes); [apply IH; intros; apply H; right; assumption|].
  specialize (H s sm (or_introl eq_refl)) as Hs. destruct (F (p ++ [s]) sm) as [u|]; [|discriminate]. cbn.
  destruct (IH (fun s sm Hi => H s sm (or_intror Hi)) (dset nodes s (NModel p s)) (add_node irnode_eqb g (NModel p s))) as [x E].
  rewrite E. cbn. eauto.
Qed.

Theorem construct_all_ok h : no_dangling h -> forall m, buildable h m -> forall p, exists u, construct_all h p m = Ok u.
Proof.
  intros ND m. induction m as [ins outs decls subs IH] using umodel_ind'. intros B p.
  inversion B as [i o d s HV HC HS]; subst. rewrite construct_all_eq.
  destruct (@subs_pass_ok (construct_all h) p subs) with (nodes := @nil (string * irnode)) (g := @empty_graph irnode) as [[[n1 g1] us] SP].
  { intros s sm Hs. rewrite Forall_forall in IH. destruct (IH _ Hs (HS _ _ Hs) (p ++ [s])) as [u Hu]. cbn [snd] in Hu. rewrite Hu. reflexivity. }
  rewrite SP. cbn [bind]. apply subs_pass_spec in SP. destruct SP as (S1 & S2 & S3 & S4 & S5 & S6 & S7).
  unfold finish. cbn [fst snd].
  set (inp := dict_of (input_entries h p ins)) in *.
  set (d0 := dupdate n1 inp) in *. set (g0 := add_nodes irnode_eqb g1 (map snd inp)) in *.
  assert (W1 : wf g1). { apply S4. split; [intros a b []|constructor|constructor]. }
  destruct (@add_nodes_spec _ irnode_eqb irnode_eqb_spec (map snd inp) g1 W1) as (W0 & _ & _). fold g0 in W0.
  destruct (@construct_spec h p d0 g0 (outs ++ decls) W0) as (r & Er & _). rewrite Er.
  assert (K : is_ok r = true).
  { unfold construct_this_model in Er. refine (wloop_ok (p := p) (d0 := d0) (g0 := g0) ND _ HC _ (winv_init h p _ _ W0) _ Er).
    - intros x Hx. apply HV. apply in_app_iff. right. exact Hx.
    - cbn [w_nodes]. intros k n D. unfold d0 in D. apply dupdate_get in D. destruct D as [D|[D Hk]].
      + unfold inp in D. apply (In_dget _ _ _ (NoDup_dict_of _)) in D. apply dict_of_get in D.
        apply input_entries_spec in D. destruct D as (i & Hi & -> & Hn). left. exists i. split; [reflexivity|]. split; [left; exact Hi|exact Hn].
      + apply S1 in D. destruct D as [D|(_ & Hs & ->)]; [discriminate|]. right. split; [reflexivity|]. split; [exact Hs|].
        intros i Hi Ni. apply Hk. unfold inp. rewrite dict_of_keys. unfold dkeys. apply in_map_iff. exists (k, NObj p i). split; [reflexivity|].
        apply input_entries_spec. exists i. auto. }
  destruct r as [w|]; [eauto|discriminate].
Qed.

(** The graphs of the submodels are built the same way. *)
Lemma sub_graphs h p ins outs decls subs u : construct_all h p (UM ins outs decls subs) = Ok u ->
  (forall s su, In (s, su) (ug_subs u) -> exists sm, In (s, sm) subs /\ construct_all h (p ++ [s]) sm = Ok su) /\
  (forall s, In s (map fst (ug_subs u)) <-> In s (map fst subs)) /\ NoDup (map fst (ug_subs u)).
Proof.
  intros H. rewrite construct_all_eq in H.
  destruct (subs_pass (construct_all h) p [] empty_graph subs) as [[[n1 g1] us]|] eqn:SP; [|discriminate].
  cbn [bind] in H. apply subs_pass_spec in SP. destruct SP as (S1 & S2 & S3 & S4 & S5 & S6 & S7).
  unfold finish in H. cbn [fst snd] in H.
  destruct (construct_this_model h p _ _ _) as [[w|]|]; try discriminate. injection H as <-. cbn [ug_subs].
  split; [exact S5|]. split; [|exact S7]. intros s. rewrite S6. cbn. tauto.
Qed.

(** With distinct names each object is its own node. *)
Theorem graph_of_model_apart h p ins outs decls subs u :
  (forall i, In i ins -> i < length h) ->
  names_apart h (scope h ins (outs ++ decls)) (map fst subs) ->
  construct_all h p (UM ins outs decls subs) = Ok u ->
  (forall x, needed h (outs ++ decls) x -> x < length h) ->
  (forall a b, edge (ug_graph u) a b <-> exists x y,
        a = NObj p x /\ b = NObj p y /\ needed h (outs ++ decls) x /\ needed h (outs ++ decls) y /\ flows h x y) /\
  (forall a, node (ug_graph u) a <-> (exists s, In s (map fst subs) /\ a = NModel p s) \/ (exists i, In i ins /\ a = NObj p i) \/
        (exists x y, a = NObj p x /\ needed h (outs ++ decls) x /\ needed h (outs ++ decls) y /\ (flows h x y \/ flows h y x))).
Proof.
  intros Hins [A1 A2] H HV. destruct (@graph_of_model h p ins outs decls subs u Hins H) as (f & F1 & F2 & F3 & F4 & _ & _).
  assert (FI : forall x, scope h ins (outs ++ decls) x -> f x = NObj p x).
  { intros x Hx. assert (L : x < length h) by (destruct Hx; auto).
    destruct (nth_error h x) as [ob|] eqn:E; [|apply nth_error_None in E; lia].
    assert (NM : named h x (ob_name ob)) by (exists ob; auto).
    destruct (F1 x Hx) as [(o & Eo & Ho & Hn)|(s & Es & Hs & Hn)].
    - rewrite Eo. f_equal. symmetry. apply (A1 x o (ob_name ob)); auto. apply Hn, NM.
    - exfalso. exact (A2 x s Hx Hn Hs). }
  split.
  - intros a b. rewrite F3. split.
    + intros (x & y & Hx & Hy & Hf & -> & ->). exists x, y. rewrite (FI x (or_intror Hx)), (FI y (or_intror Hy)). auto.
    + intros (x & y & -> & -> & Hx & Hy & Hf). exists x, y. rewrite (FI x (or_intror Hx)), (FI y (or_intror Hy)). auto.
  - intros a. rewrite F4. apply or_iff_compat_l. split.
    + intros [(i & Hi & ->)|(x & y & Hx & Hy & Hf & Ha)].
      * left. exists i. split; [exact Hi|apply FI; left; exact Hi].
      * right. rewrite (FI x (or_intror Hx)), (FI y (or_intror Hy)) in Ha. destruct Ha as [->| ->]; [exists x, y|exists y, x]; auto.
    + intros [(i & Hi & ->)|(x & y & -> & Hx & Hy & [Hf|Hf])].
      * left. exists i. split; [exact Hi|]. symmetry. apply FI. left. exact Hi.
      * right. exists x, y. rewrite (FI x (or_intror Hx)). auto.
      * right. exists y, x. rewrite (FI x (or_intror Hx)). auto.
Qed.

(** What the outputs need, when declared variables depend on nothing and outputs on something. *)
Lemma needed_outs h outs decls x : (forall d y, In d decls -> ~ reads h d y) -> (forall d, In d decls -> ~ operation h d) ->
  needed h (outs ++ decls) x -> needed h outs x \/ In x decls.
Proof.
  intros D1 D2 Hx. induction Hx as [x Hx|x y _ IH Hr|x y _ IH Hw].
  - apply in_app_iff in Hx. destruct Hx; [left; apply needed_leaf; assumption|auto].
  - destruct IH as [IH|IH]; [left; eapply needed_dep; eassumption|exfalso; exact (D1 _ _ IH Hr)].
  - destruct IH as [IH|IH]; [left; eapply needed_out; eassumption|exfalso]. apply (D2 _ IH). destruct Hw as (ob & E & O & _). exists ob. auto.
Qed.
Lemma needed_mono h l l' x : (forall y, In y l -> In y l') -> needed h l x -> needed h l' x.
Proof. intros M Hx. induction Hx; [apply needed_leaf; auto|eapply needed_dep; eassumption|eapply needed_out; eassumption]. Qed.

Theorem graph_contents h p ins outs decls subs u :
  (forall i, In i ins -> i < length h) ->
  names_apart h (scope h ins (outs ++ decls)) (map fst subs) ->
  (forall x, needed h (outs ++ decls) x -> x < length h) ->
  (forall d y, In d decls -> ~ reads h d y) -> (forall d, In d decls -> ~ operation h d) ->
  (forall d y, In d decls -> ~ writes h y d) ->
  (forall o, In o outs -> exists y, reads h o y) ->
  construct_all h p (UM ins outs decls subs) = Ok u ->
  (forall a b, edge (ug_graph u) a b <-> exists x y,
        a = NObj p x /\ b = NObj p y /\ needed h outs x /\ needed h outs y /\ flows h x y) /\
  (forall a, node (ug_graph u) a <-> (exists s, In s (map fst subs) /\ a = NModel p s) \/
        (exists x, a = NObj p x /\ (In x ins \/ needed h outs x))).
Proof.
  intros Hins NA HV D1 D2 D3 HO H. destruct (@graph_of_model_apart h p ins outs decls subs u Hins NA H HV) as [E N].
  assert (UP : forall x, needed h outs x -> needed h (outs ++ decls) x).
  { intros x. apply needed_mono. intros y Hy. apply in_app_iff. auto. }
  assert (FL : forall x y, needed h (outs ++ decls) x -> needed h (outs ++ decls) y -> flows h x y ->
      needed h outs x /\ needed h outs y).
  { intros x y Hx Hy Hf.
    apply needed_outs in Hx; auto. apply needed_outs in Hy; auto.
    destruct Hf as [Hf|Hf].
    - destruct Hy as [Hy|Hy]; [|exfalso; exact (D1 _ _ Hy Hf)]. split; [eapply needed_dep; eassumption|exact Hy].
    - destruct Hx as [Hx|Hx].
      + split; [exact Hx|eapply needed_out; eassumption].
      + exfalso. apply (D2 _ Hx). destruct Hf as (ob & Eo & O & _). exists ob. auto. }
  split.
  - intros a b. rewrite E. split; intros (x & y & -> & -> & Hx & Hy & Hf).
    + destruct (FL x y Hx Hy Hf). exists x, y. auto.
    + exists x, y. auto 6.
  - intros a. rewrite N. apply or_iff_compat_l. split.
    + intros [(i & Hi & ->)|(x & y & -> & Hx & Hy & [Hf|Hf])].
      * exists i. auto.
      * exists x. destruct (FL _ _ Hx Hy Hf). auto.
      * exists x. destruct (FL _ _ Hy Hx Hf). auto.
    + intros (x & -> & [Hx|Hx]); [left; eauto|]. right.
      destruct Hx as [x Hx|z x Hz Hr|z x Hz Hw].
      * destruct (HO x Hx) as [y Hy]. exists x, y. split; [reflexivity|]. split; [apply UP, needed_leaf, Hx|].
        split; [apply UP; eapply needed_dep; [apply needed_leaf, Hx|exact Hy]|]. right. left. exact Hy.
      * exists x, z. split; [reflexivity|]. split; [apply UP; eapply needed_dep; eassumption|]. split; [apply UP, Hz|]. left. left. exact Hr.
      * exists x, z. split; [reflexivity|]. split; [apply UP; eapply needed_out; eassumption|]. split; [apply UP, Hz|]. right. right. exact Hw.
Qed.
