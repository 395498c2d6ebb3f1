From Verif Require Import PyBase NamesModel Digraph FlatModel FlatSpec FlatProofs.
Set Implicit Arguments.

Lemma inv_bind' {A B} (x : res A) (f : A -> res B) b : bind x f = Ok b -> exists a, x = Ok a /\ f a = Ok b.
Proof. destruct x; cbn; [eauto|discriminate]. Qed.

Section Conn.
  Context {A : Type} (eqb : A -> A -> bool) (eqb_spec : forall x y, eqb x y = true <-> x = y) (attr : A -> nattr).
  Context (g : digraph A) (W : wf g) (p2u : dict (list string)) (u2p : dict string).
  Notation scan := (scan_nodes eqb attr g p2u u2p).
  Definition nv (x : A) v names := attr x = NVar v /\ va_auto v = false /\ dget p2u (va_pname v) = Some names.

  Lemma scan_unpromoted_ok names (x : A) u2n u2n' : scan_unpromoted names u2p x u2n = Ok u2n' ->
    (forall un y, dget u2n' un = Some y <-> dget u2n un = Some y \/ (In un names /\ y = x)) /\
    (forall un, In un names -> dget u2n un = None).
  Proof.
    revert u2n. induction names as [|un names IH]; intros u2n E; cbn [scan_unpromoted] in E.
    - injection E as <-. split; [intros un y; cbn; tauto|intros un []].
    - destruct (dmem un u2n) eqn:Em; [discriminate|]. destruct (dmem un u2p); cbn [negb] in E; [|discriminate].
      apply dmem_false, dget_None in Em. destruct (IH _ E) as [H1 H2].
      assert (Nin : ~ In un names). { intros H. apply H2 in H. rewrite dget_dset_same in H. discriminate. }
      split.
      + intros k y. rewrite H1. destruct (string_dec k un) as [->|Hk].
        * rewrite dget_dset_same, Em. cbn. split; [intros [H|[H _]]; [injection H as <-; auto|contradiction]|].
          intros [H|[_ ->]]; [discriminate|auto].
        * rewrite dget_dset_other by exact Hk. cbn. intuition congruence.
      + intros k [<-|Hk]; [exact Em|]. pose proof (H2 _ Hk) as H. destruct (string_dec k un) as [->|Hne]; [contradiction|].
        rewrite dget_dset_other in H by exact Hne. exact H.
  Qed.

  Lemma scan_ok l : forall p2n u2n p2n' u2n', scan l p2n u2n = Ok (p2n', u2n') ->
    (forall k x, dget p2n' k = Some x -> dget p2n k = Some x \/ (In x l /\ exists v names, nv x v names /\ va_pname v = k)) /\
    (forall un x, dget u2n' un = Some x -> dget u2n un = Some x \/ (In x l /\ exists v names, nv x v names /\ In un names)) /\
    (forall k, dget p2n k <> None -> dget p2n' k <> None) /\
    (forall un x, dget u2n un = Some x -> dget u2n' un = Some x) /\
    (forall x v names, In x l -> nv x v names -> dget p2n' (va_pname v) <> None /\ forall un, In un names -> dget u2n' un = Some x) /\
    (forall x v, In x l -> attr x = NVar v -> length (preds eqb g x) <= 1).
  Proof.
    induction l as [|x l IH]; intros p2n u2n p2n' u2n' E; cbn [scan_nodes] in E.
    - injection E as <- <-. split; [auto|]. split; [auto|]. split; [auto|]. split; [auto|]. split; [intros x v names []|intros x v []].
    - assert (Skip : scan l p2n u2n = Ok (p2n', u2n') -> (forall v names, ~ nv x v names) ->
         (forall v, attr x = NVar v -> length (preds eqb g x) <= 1) ->
    (forall k y, dget p2n' k = Some y -> dget p2n k = Some y \/ (In y (x :: l) /\ exists v names, nv y v names /\ va_pname v = k)) /\
    (forall un y, dget u2n' un = Some y -> dget u2n un = Some y \/ (In y (x :: l) /\ exists v names, nv y v names /\ In un names)) /\
    (forall k, dget p2n k <> None -> dget p2n' k <> None) /\
    (forall un y, dget u2n un = Some y -> dget u2n' un = Some y) /\
    (forall y v names, In y (x :: l) -> nv y v names -> dget p2n' (va_pname v) <> None /\ forall un, In un names -> dget u2n' un = Some y) /\
    (forall y v, In y (x :: l) -> attr y = NVar v -> length (preds eqb g y) <= 1)) by
       (intros Es Hx Hp; destruct (IH _ _ _ _ Es) as (H1 & H2 & H3 & H4 & H5 & H6);
        refine (conj (fun k y H => _) (conj (fun k y H => _) (conj H3 (conj H4 (conj (fun y v names Hi Hn => _) (fun y v Hi Hn => _))))));
        [destruct (H1 _ _ H) as [H'|[H' H'']]; [left; exact H'|right; split; [right; exact H'|exact H'']]
        |destruct (H2 _ _ H) as [H'|[H' H'']]; [left; exact H'|right; split; [right; exact H'|exact H'']]
        |destruct Hi as [->|Hi]; [exfalso; eapply Hx; exact Hn|eapply H5; eassumption]
        |destruct Hi as [->|Hi]; [eapply Hp; exact Hn|eapply H6; eassumption]]).
      destruct (attr x) as [v|c] eqn:Ex.
      2: { apply Skip; [exact E|intros v names (H & _); congruence|congruence]. }
      destruct (Nat.ltb_spec 1 (length (preds eqb g x))) as [Hlt|Hle]; [discriminate|].
      destruct (va_auto v) eqn:Ea.
      { apply Skip; [exact E|intros v' names (H & H' & _); congruence|intros; exact Hle]. }
      destruct (dget p2u (va_pname v)) as [names|] eqn:Ep.
      2: { destruct (preds eqb g x) as [|p ps] eqn:Epr; [discriminate|]. destruct (attr p) as [pv|[|]]; try discriminate.
           apply Skip; [exact E|intros v' names (H & _ & H'); congruence|intros; cbn in *; lia]. }
      clear Skip. apply inv_bind' in E. destruct E as (u2n1 & E1 & E). destruct (scan_unpromoted_ok _ _ _ E1) as [S1 S2].
      destruct (IH _ _ _ _ E) as (H1 & H2 & H3 & H4 & H5 & H6). assert (Hx : nv x v names) by (unfold nv; auto).
      split; [|split; [|split; [|split; [|split]]]].
      + intros k y H. destruct (H1 _ _ H) as [H'|[H' H'']]; [|right; split; [right; exact H'|exact H'']].
        destruct (string_dec k (va_pname v)) as [->|Hk].
        * rewrite dget_dset_same in H'. injection H' as <-. right. split; [left; reflexivity|]. eauto.
        * rewrite dget_dset_other in H' by exact Hk. auto.
      + intros k y H. destruct (H2 _ _ H) as [H'|[H' H'']]; [|right; split; [right; exact H'|exact H'']].
        apply S1 in H'. destruct H' as [H'|[H' ->]]; [auto|]. right. split; [left; reflexivity|]. eauto.
      + intros k H. apply H3. destruct (string_dec k (va_pname v)) as [->|Hk]; [rewrite dget_dset_same; discriminate|].
        rewrite dget_dset_other by exact Hk. exact H.
      + intros k y H. apply H4, S1. auto.
      + intros y w ns [<-|Hi] Hn; [|eapply H5; eassumption]. destruct Hx as (X1 & X2 & X3). destruct Hn as (Y1 & Y2 & Y3).
        assert (w = v) by congruence. subst w. assert (ns = names) by congruence. subst ns. split.
        * apply H3. rewrite dget_dset_same. discriminate.
        * intros un Hu. apply H4, S1. auto.
      + intros y w [<-|Hi] Hw; [exact Hle|eapply H6; eassumption].
  Qed.

  Context (p2n u2n : dict A) (HS : scan (g_nodes g) [] [] = Ok (p2n, u2n)).

  Lemma find_ok name ns x : find_unique_node p2n u2n name ns = Ok x -> denotes attr g p2u (prepend_namespace ns name) x.
  Proof.
    destruct (scan_ok _ _ _ HS) as (H1 & H2 & _ & _ & H5 & _). unfold find_unique_node.
    destruct (dget p2n (prepend_namespace ns name)) as [y|] eqn:E1.
    - intros E. injection E as ->. destruct (H1 _ _ E1) as [H|(Hi & v & names & (N1 & N2 & N3) & Hk)]; [discriminate|].
      exists v, names. split; [unfold named_node; auto|]. left. exact Hk.
    - destruct (dget u2n (prepend_namespace ns name)) as [y|] eqn:E2; [|discriminate]. intros E. injection E as ->.
      destruct (H2 _ _ E2) as [H|(Hi & v & names & (N1 & N2 & N3) & Hk)]; [discriminate|].
      exists v, names. split; [unfold named_node; auto|]. right. split; [exact Hk|]. intros y w l (M1 & M2 & M3 & M4) Hw.
      destruct (H5 y w l M1) as [H _]; [unfold nv; auto|]. rewrite Hw in H. congruence.
  Qed.

  (** Two named nodes with the same promoted name, or sharing an unpromoted name, are equal. *)
  Lemma named_unique x y v w ns ns' : named_node attr g p2u x v ns -> named_node attr g p2u y w ns' ->
    (exists un, In un ns /\ In un ns') -> x = y.
  Proof.
    destruct (scan_ok _ _ _ HS) as (_ & _ & _ & _ & H5 & _). intros (N1 & N2 & N3 & N4) (M1 & M2 & M3 & M4) (un & U1 & U2).
    destruct (H5 x v ns N1) as [_ Hx]; [unfold nv; auto|]. destruct (H5 y w ns' M1) as [_ Hy]; [unfold nv; auto|].
    specialize (Hx _ U1). specialize (Hy _ U2). congruence.
  Qed.

  (** Every dotted name that denotes something is found. *)
  Lemma find_complete name ns x : (forall pn names, dget p2u pn = Some names -> names <> []) ->
    denotes attr g p2u (prepend_namespace ns name) x -> find_unique_node p2n u2n name ns = Ok x.
  Proof.
    intros NE (v & names & (N1 & N2 & N3 & N4) & HD). destruct (scan_ok _ _ _ HS) as (H1 & H2 & _ & _ & H5 & _).
    assert (Hn : named_node attr g p2u x v names) by (unfold named_node; auto).
    destruct (H5 x v names N1) as [Hp Hu]; [unfold nv; auto|]. unfold find_unique_node. destruct HD as [HD|[HD HD']].
    - rewrite <- HD. destruct (dget p2n (va_pname v)) as [y|] eqn:E; [|congruence]. f_equal.
      destruct (H1 _ _ E) as [H|(Hi & w & ns' & (M1 & M2 & M3) & Hk)]; [discriminate|].
      assert (Hy : named_node attr g p2u y w ns') by (unfold named_node; auto).
      rewrite Hk, N4 in M3. injection M3 as <-. specialize (NE _ _ N4).
      destruct names as [|un names]; [congruence|]. eapply named_unique; [exact Hy|exact Hn|]. exists un. split; left; reflexivity.
    - destruct (dget p2n (prepend_namespace ns name)) as [y|] eqn:E.
      + exfalso. destruct (H1 _ _ E) as [H|(Hi & w & ns' & (M1 & M2 & M3) & Hk)]; [discriminate|].
        exact (HD' y w ns' (conj Hi (conj M1 (conj M2 M3))) Hk).
      + rewrite (Hu _ HD). reflexivity.
  Qed.

  (** *** The loop *)
  Lemma add_edge_keeps h a b c d : edge h c d -> edge (add_edge eqb h a b) c d.
  Proof. intros H. apply (edge_add_edge eqb eqb_spec). auto. Qed.
  Lemma contract_keeps h u v h' a b : contract eqb h u v = Ok h' -> edge h a b -> a <> v -> b <> v -> edge h' a b.
  Proof.
    unfold contract. destruct (has_node eqb h v); cbn [negb]; [|discriminate].
    match goal with |- context [fold_left ?f ?k ?g0] => set (F := f); set (K := k); set (G := g0) end.
    destruct (has_node eqb (fold_left F K G) u); [|discriminate]. intros E. injection E as <-. intros H Ha Hb.
    assert (HG : edge G a b) by (apply (edge_remove eqb eqb_spec); auto). revert HG. generalize G. clear - eqb_spec.
    induction K as [|e K IH]; intros G H; [exact H|]. cbn. apply IH. apply add_edge_keeps, H.
  Qed.

  Lemma cget_None m t : cget eqb m t = None <-> ~ In t (map fst m).
  Proof.
    unfold cget. destruct (find (fun e => eqb t (fst e)) m) as [[a b]|] eqn:E; cbn; split; intros H; try discriminate; try reflexivity.
    - apply find_some in E. destruct E as [E1 E2]. cbn in E2. apply eqb_spec in E2. subst a. exfalso. apply H. apply (in_map fst) in E1. exact E1.
    - intros Hi. apply in_map_iff in Hi. destruct Hi as ([a b] & Ea & Hi). cbn in Ea. subst a.
      pose proof (find_none _ _ E _ Hi) as Hf. cbn in Hf. rewrite (eqb_refl eqb eqb_spec) in Hf. discriminate.
  Qed.

  (** What one accepted connection went through. *)
  Lemma step_ok c st st' : connect_step eqb attr p2n u2n c st = Ok st' ->
    exists sn tn, find_unique_node p2n u2n (fst (fst c)) (snd c) = Ok sn /\ find_unique_node p2n u2n (snd (fst c)) (snd c) = Ok tn /\
      ~ In tn (map fst (snd st)) /\ is_src attr sn = true /\ preds eqb (fst st) tn = [] /\
      prod (va_shape (vat attr sn)) = prod (va_shape (vat attr tn)) /\
      contract eqb (fst st) sn tn = Ok (fst st') /\ snd st' = snd st ++ [(tn, sn)].
  Proof.
    destruct c as [[s t] ns]. cbn [connect_step fst snd]. intros E. apply inv_bind' in E. destruct E as (sn & E1 & E).
    apply inv_bind' in E. destruct E as (tn & E2 & E). exists sn, tn. split; [exact E1|]. split; [exact E2|].
    unfold raise_if in E. destruct (cget eqb (snd st) tn) eqn:Ec; [discriminate|]. apply cget_None in Ec. split; [exact Ec|].
    destruct (is_src attr sn); cbn [negb] in E; [|discriminate]. split; [reflexivity|].
    destruct (Nat.eqb_spec (length (preds eqb (fst st) tn)) 0) as [Hp|Hp]; cbn [negb] in E; [|discriminate].
    apply length_zero_iff_nil in Hp. split; [exact Hp|].
    destruct (negb (shape_eqb _ _) && negb (Nat.eqb _ _)) eqn:Es; [discriminate|]. split.
    { apply andb_false_iff in Es. destruct Es as [Es|Es]; apply negb_false_iff in Es.
      - apply shape_eqb_spec in Es. congruence.
      - apply Nat.eqb_eq, Es. }
    apply inv_bind' in E. destruct E as (g' & E3 & E). injection E as <-. auto.
  Qed.

  (** Nodes found are user variables. *)
  Lemma find_var name ns x : find_unique_node p2n u2n name ns = Ok x -> is_var attr x = true /\ node g x.
  Proof.
    intros H. apply find_ok in H. destruct H as (v & names & (N1 & N2 & _) & _). unfold is_var. rewrite N2. auto.
  Qed.

  Context (HB : no_var_var_edge attr g).

  Lemma edge_from_op p x : edge g p x -> is_var attr x = true -> is_var attr p = false.
  Proof.
    intros He Hx. destruct (is_var attr p) eqn:Ep; [|reflexivity]. apply is_var_spec in Ep, Hx. destruct Ep, Hx.
    exfalso. eapply HB; eassumption.
  Qed.

  Lemma loop_ok cs : forall st st', connect_loop eqb attr p2n u2n cs st = Ok st' ->
    NoDup (map fst (snd st)) -> (forall t, In t (map fst (snd st)) -> is_var attr t = true) ->
    (forall p x, edge g p x -> is_var attr x = true -> ~ In x (map fst (snd st)) -> edge (fst st) p x) ->
    exists new, snd st' = snd st ++ new /\ NoDup (map fst (snd st')) /\
      Forall2 (fun c ts => denotes attr g p2u (prepend_namespace (snd c) (fst (fst c))) (snd ts) /\
                           denotes attr g p2u (prepend_namespace (snd c) (snd (fst c))) (fst ts)) cs new /\
      (forall t s, In (t, s) new -> admissible attr g t s).
  Proof.
    induction cs as [|c cs IH]; intros st st' E ND HV HE; cbn [connect_loop] in E.
    - injection E as <-. exists []. rewrite app_nil_r. split; [reflexivity|]. split; [exact ND|]. split; [constructor|intros t s []].
    - apply inv_bind' in E. destruct E as (st1 & E1 & E). destruct (step_ok _ _ E1) as (sn & tn & F1 & F2 & Hc & Hs & Hp & Hsh & Hk & Hsnd).
      destruct (find_var _ _ F1) as [V1 N1]. destruct (find_var _ _ F2) as [V2 N2].
      destruct (IH st1 st' E) as (new & R1 & R2 & R3 & R4).
      + rewrite Hsnd, map_app. cbn. apply NoDup_app_single; assumption.
      + rewrite Hsnd, map_app. cbn. intros t Ht. apply in_app_iff in Ht. destruct Ht as [Ht|[<-|[]]]; auto.
      + rewrite Hsnd, map_app. cbn. intros p x He Hx Hi. rewrite in_app_iff in Hi. cbn in Hi.
        eapply contract_keeps; [exact Hk|apply HE; tauto| |intros ->; tauto].
        intros ->. pose proof (edge_from_op _ _ He Hx). congruence.
      + exists ((tn, sn) :: new). rewrite R1, Hsnd, <- app_assoc. split; [reflexivity|].
        rewrite R1, Hsnd, <- app_assoc in R2. split; [exact R2|]. split.
        * constructor; [|exact R3]. cbn. split; [apply (find_ok _ _ F1)|apply (find_ok _ _ F2)].
        * intros t s [H|H]; [|auto]. injection H as <- <-. split.
          -- apply is_src_spec in Hs. destruct Hs as [sv Hs]. exists sv. split; [exact Hs|]. apply is_var_spec in V2. destruct V2 as [tv V2].
             exists tv. split; [exact V2|]. unfold vat in Hsh. destruct Hs as [Hs _]. rewrite Hs, V2 in Hsh. exact Hsh.
          -- intros p He. assert (He' : edge (fst st) p tn) by (apply HE; assumption). apply (In_preds eqb eqb_spec) in He'.
             rewrite Hp in He'. exact He'.
  Qed.

  (** With declared variables as targets the loop is a sequence of proper contractions. *)
  Lemma loop_contracts cs : forall h m st', connect_loop eqb attr p2n u2n cs (h, m) = Ok st' ->
    exists new, snd st' = m ++ new /\ contract_all eqb h (map (fun ts => (snd ts, fst ts)) new) = Ok (fst st').
  Proof.
    induction cs as [|c cs IH]; intros h m st' E; cbn [connect_loop] in E.
    - injection E as <-. exists []. rewrite app_nil_r. split; reflexivity.
    - apply inv_bind' in E. destruct E as (st1 & E1 & E). destruct (step_ok _ _ E1) as (sn & tn & F1 & F2 & Hc & Hs & Hp & Hsh & Hk & Hsnd).
      destruct st1 as [h1 m1]. cbn [fst snd] in *. destruct (IH h1 m1 st' E) as (new & R1 & R2). exists ((tn, sn) :: new). rewrite R1, Hsnd, <- app_assoc.
      split; [reflexivity|]. cbn. rewrite Hk. exact R2.
  Qed.

  (** Completeness of the loop. *)
  Lemma step_complete c st sn tn g' :
    find_unique_node p2n u2n (fst (fst c)) (snd c) = Ok sn -> find_unique_node p2n u2n (snd (fst c)) (snd c) = Ok tn ->
    ~ In tn (map fst (snd st)) -> is_src attr sn = true -> preds eqb (fst st) tn = [] ->
    prod (va_shape (vat attr sn)) = prod (va_shape (vat attr tn)) -> contract eqb (fst st) sn tn = Ok g' ->
    connect_step eqb attr p2n u2n c st = Ok (g', snd st ++ [(tn, sn)]).
  Proof.
    intros F1 F2 Hc Hs Hp Hsh Hk. destruct c as [[s t] ns]. cbn [connect_step fst snd] in *. rewrite F1, F2. cbn [bind].
    apply cget_None in Hc. rewrite Hc, Hs, Hp. cbn [length Nat.eqb negb raise_if]. rewrite Hsh, Nat.eqb_refl, andb_false_r, Hk. reflexivity.
  Qed.
End Conn.

Section Conn2.
  Context {A : Type} (eqb : A -> A -> bool) (eqb_spec : forall x y, eqb x y = true <-> x = y) (attr : A -> nattr).

  (** C19 *)
  Lemma connections_sound g cs p2u u2p g' p2n u2n conns :
    wf g -> no_var_var_edge attr g -> merge_connections eqb attr g cs p2u u2p = Ok (g', p2n, u2n, conns) ->
    Forall2 (fun c ts => denotes attr g p2u (prepend_namespace (snd c) (fst (fst c))) (snd ts) /\
                         denotes attr g p2u (prepend_namespace (snd c) (snd (fst c))) (fst ts)) cs conns /\
    NoDup (map fst conns) /\ (forall t s, In (t, s) conns -> admissible attr g t s).
  Proof.
    intros W HB E. unfold merge_connections in E. apply inv_bind' in E. destruct E as ([p u] & ES & E). apply inv_bind' in E.
    destruct E as ([h m] & EL & E). cbn [fst snd] in *. injection E as -> -> -> ->.
    destruct (@loop_ok A eqb eqb_spec attr g p2u u2p p2n u2n ES HB _ _ _ EL) as (new & R1 & R2 & R3 & R4); cbn [fst snd]; [constructor|intros t []|auto|].
    cbn in R1. subst new. auto.
  Qed.

  (** C21: all targets are declared variables *)
  Lemma connections_redirect g cs p2u u2p g' p2n u2n conns :
    wf g -> no_var_var_edge attr g -> merge_connections eqb attr g cs p2u u2p = Ok (g', p2n, u2n, conns) ->
    (forall t s, In (t, s) conns -> exists v, target_node attr t v) ->
    exists rep, wf g' /\ quotient g g' rep /\ (forall t s, In (t, s) conns -> rep t = s /\ rep s = s /\ t <> s) /\
      (forall x, ~ In x (map fst conns) -> rep x = x).
  Proof.
    intros W HB E HT. pose proof (@connections_sound _ _ _ _ _ _ _ _ W HB E) as (F & ND & AD).
    assert (HNode : forall t s, In (t, s) conns -> node g t /\ node g s).
    { intros t s Hi. clear - F Hi. induction F as [|c [t' s'] cs l [(v1 & n1 & N1 & _) (v2 & n2 & N2 & _)] F IH]; [destruct Hi|].
      destruct Hi as [Hi|Hi]; [|auto]. injection Hi as -> ->. split; [apply N2|apply N1]. }
    unfold merge_connections in E. apply inv_bind' in E. destruct E as ([p u] & ES & E). apply inv_bind' in E.
    destruct E as ([h m] & EL & E). cbn [fst snd] in *. injection E as -> -> -> ->.
    destruct (@loop_contracts A eqb eqb_spec attr p2n u2n _ _ _ _ EL) as (new & R1 & R2). cbn in R1, R2. subst new.
    set (steps := map (fun ts : A * A => (snd ts, fst ts)) conns) in *.
    assert (Esnd : map snd steps = map fst conns). { unfold steps. rewrite map_map. reflexivity. }
    assert (HSi : forall s t, In (s, t) steps <-> In (t, s) conns).
    { intros s t. unfold steps. rewrite in_map_iff. split; [intros ([t' s'] & E & H); cbn in E; injection E as -> ->; exact H|].
      intros H. exists (t, s). auto. }
    assert (Hne : forall t s t' s', In (t, s) conns -> In (t', s') conns -> s' <> t).
    { intros t s t' s' H H' ->. destruct (HT _ _ H) as [v [V1 V2]]. destruct (AD _ _ H') as [(sv & [S1 [S2|S2]] & _) _]; congruence. }
    assert (SO : steps_ok steps).
    { apply steps_ok_disjoint; [rewrite Esnd; exact ND|]. intros s t s' t' H H'. apply HSi in H, H'. eapply Hne; eassumption. }
    destruct (@contract_all_ok A eqb eqb_spec (is_var attr) steps g W SO) as (g1 & E1 & W1 & HN1 & HE1).
    { intros s t H. apply HSi in H. destruct (HNode _ _ H) as [N1 N2]. destruct (AD _ _ H) as [(sv & [S1 _] & tv & T1 & _) _].
      repeat split; auto; apply is_var_spec; eauto. }
    { intros a b He Ha Hb. apply is_var_spec in Ha, Hb. destruct Ha, Hb. eapply HB; eassumption. }
    assert (g1 = g') by congruence. subst g1. exists (repl eqb steps). split; [exact W1|].
    assert (Hrep : forall t s, In (t, s) conns -> repl eqb steps t = s).
    { intros t s H. apply HSi in H. apply in_split in H. destruct H as (l1 & l2 & Es).
      assert (N : NoDup (map snd steps)) by (rewrite Esnd; exact ND). rewrite Es in N |- *. erewrite (@repl_in _ eqb eqb_spec) by exact N.
      apply (@repl_not_in _ eqb eqb_spec). intros Hi. apply in_map_iff in Hi. destruct Hi as ([s' t'] & Et & Hi). cbn in Et. subst t'.
      assert (H1 : In (s', s) steps) by (rewrite Es; apply in_app_iff; right; right; exact Hi).
      assert (H2 : In (s, t) steps) by (rewrite Es; apply in_app_iff; right; left; reflexivity).
      apply HSi in H1, H2. exact (Hne _ _ _ _ H1 H2 eq_refl). }
    assert (Hout : forall x, ~ In x (map fst conns) -> repl eqb steps x = x).
    { intros x Hx. apply (@repl_not_in _ eqb eqb_spec). rewrite Esnd. exact Hx. }
    assert (Hsrc : forall t s, In (t, s) conns -> ~ In s (map fst conns)).
    { intros t s H Hi. apply in_map_iff in Hi. destruct Hi as ([t' s'] & Et & Hi). cbn in Et. subst t'. exact (Hne _ _ _ _ Hi H eq_refl). }
    split; [split|split].
    - intros x. rewrite HN1, Esnd. split; [intros [H1 H2]; auto|]. intros [H1 H2]. split; [exact H1|]. intros Hi.
      apply in_map_iff in Hi. destruct Hi as ([t s] & Et & Hi). cbn in Et. subst t. rewrite (Hrep _ _ Hi) in H2. subst s.
      exact (Hne _ _ _ _ Hi Hi eq_refl).
    - exact HE1.
    - intros t s H. split; [apply Hrep, H|]. split; [apply Hout; eapply Hsrc; exact H|]. intros ->. exact (Hne _ _ _ _ H H eq_refl).
    - exact Hout.
  Qed.

  (** Admissible connections to distinct declared variables are accepted. *)
  Lemma connections_complete g cs p2u u2p maps conns :
    wf g -> no_var_var_edge attr g -> (forall pn names, dget p2u pn = Some names -> names <> []) ->
    scan_nodes eqb attr g p2u u2p (g_nodes g) [] [] = Ok maps ->
    Forall2 (fun c ts => denotes attr g p2u (prepend_namespace (snd c) (fst (fst c))) (snd ts) /\
                         denotes attr g p2u (prepend_namespace (snd c) (snd (fst c))) (fst ts)) cs conns ->
    NoDup (map fst conns) -> (forall t s, In (t, s) conns -> admissible attr g t s /\ exists v, target_node attr t v) ->
    exists g', merge_connections eqb attr g cs p2u u2p = Ok (g', fst maps, snd maps, conns).
  Proof.
    intros W HB NE ES F ND AD. unfold merge_connections. rewrite ES. cbn [bind]. destruct maps as [p2n u2n]. cbn [fst snd] in *.
    assert (L : forall cs new, Forall2 (fun c ts => denotes attr g p2u (prepend_namespace (snd c) (fst (fst c))) (snd ts) /\
                         denotes attr g p2u (prepend_namespace (snd c) (snd (fst c))) (fst ts)) cs new ->
       forall h m, wf h -> incl (m ++ new) conns -> NoDup (map fst (m ++ new)) ->
         (forall x, node g x -> ~ In x (map fst m) -> node h x) ->
         (forall a b, edge h a b -> is_var attr a = true -> is_var attr b = true -> False) ->
         (forall a b, edge h a b -> is_var attr b = true -> (exists p, edge g p b)) ->
         exists h', connect_loop eqb attr p2n u2n cs (h, m) = Ok (h', m ++ new)).
    { clear cs F. intros cs new F. induction F as [|c [tn sn] cs new [D1 D2] F IH]; intros h m Wh HI HN Hh HV HP.
      - exists h. rewrite app_nil_r. reflexivity.
      - assert (Hin : In (tn, sn) conns) by (apply HI, in_app_iff; right; left; reflexivity).
        destruct (AD _ _ Hin) as [[(sv & S1 & tv & T1 & Sz) NoIn] (v & V1 & V2)].
        assert (Hsrc : ~ In sn (map fst (m ++ (tn, sn) :: new))).
        { intros Hi. apply in_map_iff in Hi. destruct Hi as ([t s] & Et & Hi). cbn in Et. subst t. apply HI in Hi.
          destruct (AD _ _ Hi) as [_ (v' & V1' & V2')]. destruct S1 as [S1 [S2|S2]]; congruence. }
        assert (Htn : ~ In tn (map fst m)).
        { rewrite map_app in HN. apply NoDup_app_iff in HN. destruct HN as (_ & _ & Hd). intros Hi. apply (Hd _ Hi). left. reflexivity. }
        assert (Nsn : node g sn). { destruct D1 as (v1 & n1 & N1 & _). apply N1. }
        assert (Ntn : node g tn). { destruct D2 as (v1 & n1 & N1 & _). apply N1. }
        assert (Hsm : ~ In sn (map fst m)). { intros Hi. apply Hsrc. rewrite map_app. apply in_app_iff. auto. }
        assert (Vs : is_var attr sn = true) by (apply is_var_spec; destruct S1 as [S1 _]; unfold var_node; eauto).
        assert (Vt : is_var attr tn = true) by (apply is_var_spec; unfold var_node; eauto).
        assert (Hst : sn <> tn). { intros ->. apply Hsrc. rewrite map_app. apply in_app_iff. right. left. reflexivity. }
        destruct (contract_spec eqb eqb_spec h sn tn Wh Hst (Hh _ Nsn Hsm) (Hh _ Ntn Htn)) as (h1 & E1 & W1 & HN1 & HE1).
        { intros He. eapply HV; eassumption. }
        { intros He. eapply HV; eassumption. }
        assert (HVs : forall x, is_var attr (subst eqb tn sn x) = is_var attr x).
        { intros x. unfold subst. destruct (eqb tn x) eqn:E; [|reflexivity]. apply eqb_spec in E. congruence. }
        assert (Hpred : preds eqb h tn = []).
        { destruct (preds eqb h tn) as [|p ps] eqn:Ep; [reflexivity|]. exfalso.
          assert (Hi : In p (preds eqb h tn)) by (rewrite Ep; left; reflexivity). apply (In_preds eqb eqb_spec) in Hi.
          destruct (HP _ _ Hi Vt) as (q & Hq). eapply NoIn, Hq. }
        destruct (IH h1 (m ++ [(tn, sn)])) as (h' & EL).
        + exact W1.
        + rewrite <- app_assoc. exact HI.
        + rewrite <- app_assoc. exact HN.
        + intros x Hx Hnx. rewrite map_app, in_app_iff in Hnx. cbn in Hnx. apply HN1. split; [apply Hh; tauto|intros ->; tauto].
        + intros a b He Ha Hb. apply HE1 in He. destruct He as (a' & b' & He & <- & <-). rewrite HVs in *. eapply HV; eassumption.
        + intros a b He Hb. apply HE1 in He. destruct He as (a' & b' & He & <- & <-). rewrite HVs in Hb.
          destruct (HP _ _ He Hb) as (q & Hq). unfold subst. destruct (eqb tn b') eqn:Eb; [|eauto].
          apply eqb_spec in Eb. subst b'. exfalso. eapply NoIn, Hq.
        + rewrite <- app_assoc in EL. exists h'. cbn [connect_loop].
          erewrite (@step_complete A eqb eqb_spec attr p2n u2n c (h, m) sn tn h1).
          * cbn [bind]. exact EL.
          * exact (@find_complete A eqb attr g p2u u2p p2n u2n ES _ _ _ NE D1).
          * exact (@find_complete A eqb attr g p2u u2p p2n u2n ES _ _ _ NE D2).
          * exact Htn.
          * apply is_src_spec. eauto.
          * exact Hpred.
          * unfold vat. destruct S1 as [S1 _]. unfold var_node in T1. rewrite S1, T1. exact Sz.
          * exact E1. }
    destruct (L cs conns F g []) as (h' & EL); auto.
    - apply incl_refl.
    - intros a b He Ha Hb. apply is_var_spec in Ha, Hb. destruct Ha, Hb. eapply HB; eassumption.
    - intros a b He _. eauto.
    - rewrite EL. cbn. exists h'. reflexivity.
  Qed.
End Conn2.

Lemma names_unambiguous : forall A (eqb : A -> A -> bool) attr g cs p2u u2p r x y v w ns ns',
  (forall x y, eqb x y = true <-> x = y) -> merge_connections eqb attr g cs p2u u2p = Ok r ->
  named_node attr g p2u x v ns -> named_node attr g p2u y w ns' -> (exists un, In un ns /\ In un ns') -> x = y.
Proof.
  intros A eqb attr g cs p2u u2p r x y v w ns ns' D E. unfold merge_connections in E. apply inv_bind' in E.
  destruct E as ([p u] & ES & _). exact (@named_unique A eqb attr g p2u u2p p u ES x y v w ns ns').
Qed.
Lemma computed_target_rejected : forall A (eqb : A -> A -> bool) attr g cs p2u u2p g' p2n u2n conns,
  (forall x y, eqb x y = true <-> x = y) -> wf g -> no_var_var_edge attr g ->
  merge_connections eqb attr g cs p2u u2p = Ok (g', p2n, u2n, conns) -> forall t s op, In (t, s) conns -> ~ edge g op t.
Proof.
  intros A eqb attr g cs p2u u2p g' p2n u2n conns D W HB E t s op Hi.
  destruct (@connections_sound A eqb D attr g cs p2u u2p g' p2n u2n conns W HB E) as (_ & _ & H). apply (H _ _ Hi).
Qed.
