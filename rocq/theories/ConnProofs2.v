From Verif Require Import PyBase NamesModel Digraph FlatModel FlatSpec FlatProofs ConnProofs.

Section Maps.
  Context {A : Type} (eqb : A -> A -> bool) (eqb_spec : forall x y, eqb x y = true <-> x = y) (attr : A -> nattr).

  Lemma maps_exact g cs p2u u2p g' p2n u2n conns :
    (forall pn names, dget p2u pn = Some names -> names <> []) ->
    merge_connections eqb attr g cs p2u u2p = Ok (g', p2n, u2n, conns) ->
    (forall pn x, dget p2n pn = Some x <-> exists v names, named_node attr g p2u x v names /\ va_pname v = pn) /\
    (forall un x, dget u2n un = Some x <-> exists v names, named_node attr g p2u x v names /\ In un names).
  Proof.
    intros NE E. unfold merge_connections in E. apply inv_bind' in E. destruct E as ([p u] & ES & E).
    apply inv_bind' in E. destruct E as (st & _ & E). cbn [fst snd] in E. injection E as _ <- <- _.
    pose proof (@scan_ok A eqb attr g p2u u2p _ _ _ _ _ ES) as (H1 & H2 & _ & _ & H5 & _).
    split; intros n x; split.
    - intros H. destruct (H1 _ _ H) as [H'|(Hi & v & names & (N1 & N2 & N3) & Hk)]; [discriminate|].
      exists v, names. split; [unfold named_node; auto|exact Hk].
    - intros (v & names & (N1 & N2 & N3 & N4) & <-). destruct (H5 x v names N1) as [Hp Hu]; [unfold nv; auto|].
      destruct (dget p (va_pname v)) as [y|] eqn:Ey; [|congruence]. f_equal.
      destruct (H1 _ _ Ey) as [H|(Hi & w & ns' & (M1 & M2 & M3) & Hk)]; [discriminate|].
      rewrite Hk, N4 in M3. injection M3 as <-. specialize (NE _ _ N4). destruct names as [|un names]; [congruence|].
      apply (@named_unique A eqb attr g p2u u2p p u ES y x w v (un :: names) (un :: names)).
      + unfold named_node. rewrite Hk. auto.
      + unfold named_node. auto.
      + exists un. split; left; reflexivity.
    - intros H. destruct (H2 _ _ H) as [H'|(Hi & v & names & (N1 & N2 & N3) & Hk)]; [discriminate|].
      exists v, names. split; [unfold named_node; auto|exact Hk].
    - intros (v & names & (N1 & N2 & N3 & N4) & Hu). destruct (H5 x v names N1) as [_ G]; [unfold nv; auto|]. apply G, Hu.
  Qed.

  Lemma scan_unpromoted_accepts names u2p (x : A) u2n : NoDup names -> (forall un, In un names -> In un (dkeys u2p) /\ ~ In un (dkeys u2n)) ->
    exists u2n', scan_unpromoted names u2p x u2n = Ok u2n'.
  Proof.
    intros HN. revert u2n. induction HN as [|un names Hni HN IH]; intros u2n H; cbn [scan_unpromoted]; [eauto|].
    destruct (H un (or_introl eq_refl)) as [H1 H2]. rewrite (proj2 (dmem_false _ _) H2), (proj2 (dmem_spec _ _) H1). cbn [negb].
    apply IH. intros k Hk. destruct (H k (or_intror Hk)) as [K1 K2]. split; [exact K1|]. intros Hi. apply In_dkeys_dset in Hi.
    destruct Hi as [->|Hi]; contradiction.
  Qed.

  Lemma scan_accepts g p2u u2p : wf g -> names_consistent attr g p2u u2p ->
    exists maps, scan_nodes eqb attr g p2u u2p (g_nodes g) [] [] = Ok maps.
  Proof.
    intros W [C1 C2].
    assert (G : forall l p2n u2n, NoDup l -> (forall x, In x l -> node g x) ->
       (forall x v names un, In x l -> named_node attr g p2u x v names -> In un names -> ~ In un (dkeys u2n)) ->
       exists maps, scan_nodes eqb attr g p2u u2p l p2n u2n = Ok maps).
    { induction l as [|x l IH]; intros p2n u2n HN HL HD; cbn [scan_nodes]; [eauto|].
      inversion HN as [|? ? Hni HN']; subst.
      assert (Go : exists maps, scan_nodes eqb attr g p2u u2p l p2n u2n = Ok maps).
      { apply IH; [exact HN'|intros y Hy; apply HL; right; exact Hy|]. intros y v names un Hy. apply HD. right; exact Hy. }
      destruct (attr x) as [v|c] eqn:Ex; [|exact Go].
      destruct (C1 x v (HL _ (or_introl eq_refl)) Ex) as [P1 P2].
      assert (Lp : length (preds eqb g x) <= 1).
      { pose proof (@NoDup_preds A eqb eqb_spec g x W) as Np.
        destruct (preds eqb g x) as [|a [|b r]] eqn:Ep; cbn; try lia. exfalso.
        assert (In a (preds eqb g x)) as Ia by (rewrite Ep; left; reflexivity).
        assert (In b (preds eqb g x)) as Ib by (rewrite Ep; right; left; reflexivity).
        apply (@In_preds _ eqb eqb_spec) in Ia, Ib. rewrite (P1 _ _ Ia Ib) in Np. inversion Np as [|? ? Hn _]. apply Hn. left; reflexivity. }
      destruct (Nat.ltb_spec 1 (length (preds eqb g x))); [lia|].
      destruct (va_auto v) eqn:Ea; [exact Go|]. specialize (P2 eq_refl).
      destruct (dget p2u (va_pname v)) as [names|] eqn:Ep.
      - destruct P2 as [Q1 Q2]. destruct (scan_unpromoted_accepts names u2p x u2n Q1) as [u2n' Eu].
        { intros un Hu. split; [apply Q2, Hu|]. eapply HD; [left; reflexivity| |exact Hu]. unfold named_node. split; [apply HL; left; reflexivity|]. eauto. }
        rewrite Eu. cbn [bind]. apply IH; [exact HN'|intros y Hy; apply HL; right; exact Hy|].
        intros y w ns un Hy Hn Hu Hi. apply In_key_dget in Hi. destruct Hi as [z Hz].
        destruct (@scan_unpromoted_ok A attr u2p names x u2n u2n' Eu) as [S1 _]. apply S1 in Hz. destruct Hz as [Hz|[Hz ->]].
        + eapply HD; [right; exact Hy|exact Hn|exact Hu|]. eapply dget_Some_key, Hz.
        + assert (y = x); [|subst; contradiction]. eapply C2; [exact Hn| |exact Hu|exact Hz].
          unfold named_node. split; [apply HL; left; reflexivity|]. eauto.
      - destruct P2 as (p & Hp & Hc). apply (@In_preds _ eqb eqb_spec) in Hp. destruct (preds eqb g x) as [|q [|? ?]]; [destruct Hp| |cbn in Lp; lia].
        destruct Hp as [->|[]]. rewrite Hc. exact Go. }
    apply G; [apply W|auto|]. intros x v names un _ _ _ [].
  Qed.
End Maps.
