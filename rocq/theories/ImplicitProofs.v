(** Proofs about implicit operations. *)
From Verif Require Import PyBase NamesModel PromotionsModel ExprModel ApiModel ImplicitModel ImplicitSpec.

Lemma nmem_spec x l : nmem x l = true <-> In x l.
Proof.
  unfold nmem. rewrite existsb_exists. split.
  - intros (y & Hy & E). apply Nat.eqb_eq in E. now subst.
  - intros H. exists x. split; [exact H|apply Nat.eqb_refl].
Qed.
Lemma nmem_false x l : nmem x l = false <-> ~ In x l.
Proof. rewrite <- nmem_spec. destruct (nmem x l); split; congruence. Qed.
Lemma In_nadd l x y : In y (nadd l x) <-> In y l \/ y = x.
Proof.
  unfold nadd. destruct (nmem x l) eqn:E.
  - apply nmem_spec in E. split; [auto|intros [H| ->]; auto].
  - rewrite in_app_iff. cbn. firstorder.
Qed.
Lemma NoDup_nadd l x : NoDup l -> NoDup (nadd l x).
Proof.
  intros H. unfold nadd. destruct (nmem x l) eqn:E; [exact H|]. apply nmem_false in E.
  apply NoDup_app_single; assumption.
Qed.

Section Collect.
  Context (h : list obj) (rn : string).
  Definition succs (v : nat) : list nat := flat_map (deps_of h) (deps_of h v).
  Lemma step_succs x y : step h x y <-> In y (succs x).
  Proof. unfold step, succs. rewrite in_flat_map. reflexivity. Qed.
  Definition visit (n : nat) (acc : option (list nat * list nat)) (u : nat) : option (list nat * list nat) :=
    match acc with
    | None => None
    | Some (ts, vis) =>
      if nmem u vis then Some (ts, vis)
      else if String.eqb (name_of h u) rn then Some (ts, u :: vis)
      else collect n h rn u (if isterminal h u then nadd ts u else ts, u :: vis)
    end.
  Lemma fold_flat_map {A B C} (f : A -> C -> A) (g : B -> list C) l a :
    fold_left (fun acc x => fold_left f (g x) acc) l a = fold_left f (flat_map g l) a.
  Proof. revert a. induction l as [|x l IH]; intros a; cbn; [reflexivity|]. now rewrite fold_left_app, IH. Qed.
  Lemma collect_S n v tv : collect (S n) h rn v tv = fold_left (visit n) (succs v) (Some tv).
  Proof. unfold succs. rewrite <- fold_flat_map. reflexivity. Qed.

  (* everything reachable from a list of variables, not passing through the name rn *)
  Inductive from (us : list nat) : nat -> Prop :=
  | from_here u : In u us -> from us u
  | from_next w u : from us w -> name_of h w <> rn -> In u (succs w) -> from us u.
  Lemma from_trans us w u : from us w -> name_of h w <> rn -> from (succs w) u -> from us u.
  Proof. intros H Hn K. induction K as [u Hu|x u Hx IH Hxn Hu]; [now apply from_next with w|]. now apply from_next with x. Qed.
  Lemma from_incl us us' u : incl us us' -> from us u -> from us' u.
  Proof. intros I H. induction H as [u Hu|x u Hx IH Hxn Hu]; [apply from_here; auto|now apply from_next with x]. Qed.

  Record post (us : list nat) (tv tv' : list nat * list nat) : Prop := {
    p_all : incl us (snd tv');
    p_vis : incl (snd tv) (snd tv');
    p_from : forall u, In u (snd tv') -> In u (snd tv) \/ from us u;
    p_closed : forall u, In u (snd tv') -> ~ In u (snd tv) -> name_of h u <> rn -> incl (succs u) (snd tv');
    p_terms : forall u, In u (fst tv') <-> In u (fst tv) \/ (In u (snd tv') /\ ~ In u (snd tv) /\ name_of h u <> rn /\ isterminal h u = true);
    p_nodup : NoDup (fst tv) -> NoDup (fst tv')
  }.

  (* unvisited objects *)
  Definition left (vis : list nat) : nat := length (filter (fun i => negb (nmem i vis)) (seq 0 (length h))).
  Lemma filter_le {A} (f g : A -> bool) l : (forall x, f x = true -> g x = true) -> length (filter f l) <= length (filter g l).
  Proof.
    intros H. induction l as [|x l IH]; cbn; [lia|]. destruct (f x) eqn:F; [rewrite (H x F); cbn; lia|]. destruct (g x); cbn; lia.
  Qed.
  Lemma left_mono vis vis' : incl vis vis' -> left vis' <= left vis.
  Proof.
    intros H. apply filter_le. intros x. rewrite !negb_true_iff, !nmem_false. auto.
  Qed.
  Lemma left_cons u vis : u < length h -> ~ In u vis -> left (u :: vis) < left vis.
  Proof.
    intros L Nv. unfold left. assert (Hu : In u (seq 0 (length h))) by (apply in_seq; lia). revert Hu. generalize (seq 0 (length h)).
    induction l as [|x l IH]; intros [].
    - subst x. cbn [filter]. assert (E : nmem u (u :: vis) = true) by (apply nmem_spec; now left). rewrite E. cbn [negb].
      apply nmem_false in Nv. rewrite Nv. cbn [negb length]. apply Nat.lt_succ_r. apply filter_le.
      intros x. rewrite !negb_true_iff. intros K. apply nmem_false in K. apply nmem_false. cbn in K. tauto.
    - specialize (IH H). cbn [filter]. destruct (negb (nmem x (u :: vis))) eqn:E.
      + assert (E' : negb (nmem x vis) = true). { rewrite negb_true_iff in *. apply nmem_false in E. apply nmem_false. cbn in E. tauto. }
        rewrite E'. cbn [length]. lia.
      + destruct (negb (nmem x vis)); cbn [length]; lia.
  Qed.
  Lemma left_out u vis : length h <= u -> left (u :: vis) = left vis.
  Proof.
    intros L. unfold left. f_equal. apply filter_ext_in. intros x Hx. apply in_seq in Hx. f_equal. cbn.
    destruct (Nat.eqb_spec x u); [lia|reflexivity].
  Qed.
  Lemma succs_out u : length h <= u -> succs u = [].
  Proof. intros L. unfold succs, deps_of. assert (E : nth_error h u = None) by now apply nth_error_None. now rewrite E. Qed.

  Lemma post_refl us tv : incl us (snd tv) -> post us tv tv.
  Proof.
    intros H. constructor.
    - exact H.
    - apply incl_refl.
    - auto.
    - intros; contradiction.
    - intros u. split; [auto|]. intros [K|[K [K' _]]]; [exact K|contradiction].
    - auto.
  Qed.
  Lemma post_trans us us' a b c : post us a b -> post us' b c -> post (us ++ us') a c.
  Proof.
    intros [A1 A2 A3 A4 A5 A6] [B1 B2 B3 B4 B5 B6]. constructor.
    - apply incl_app; [eapply incl_tran; eassumption|exact B1].
    - eapply incl_tran; eassumption.
    - intros u Hu. destruct (B3 u Hu) as [K|K].
      + destruct (A3 u K) as [K'|K']; [auto|right]. eapply from_incl; [|exact K']. apply incl_appl, incl_refl.
      + right. eapply from_incl; [|exact K]. apply incl_appr, incl_refl.
    - intros u Hu Hna Hn. destruct (nmem u (snd b)) eqn:E.
      + apply nmem_spec in E. eapply incl_tran; [apply A4; auto|exact B2].
      + apply nmem_false in E. now apply B4.
    - intros u. rewrite B5, A5. split.
      + intros [[K|(K1 & K2 & K3)]|(K1 & K2 & K3)].
        * auto.
        * right. split; [now apply B2|auto].
        * right. split; [exact K1|]. split; [|exact K3]. intros Hin. apply K2. now apply A2.
      + intros [K|(K1 & K2 & K3)]; [auto|]. destruct (nmem u (snd b)) eqn:E.
        * apply nmem_spec in E. left. right. auto.
        * apply nmem_false in E. right. auto.
    - auto.
  Qed.
  Lemma fold_visit_ok n : (forall v tv, left (snd tv) + 2 <= n -> exists tv', collect n h rn v tv = Some tv' /\ post (succs v) tv tv') ->
    forall us tv, left (snd tv) + 2 <= S n -> exists tv', fold_left (visit n) us (Some tv) = Some tv' /\ post us tv tv'.
  Proof.
    intros IH. induction us as [|u us IHu]; intros tv L; cbn [fold_left].
    - exists tv. split; [reflexivity|]. apply post_refl. intros ? [].
    - assert (V : exists tv1, visit n (Some tv) u = Some tv1 /\ post [u] tv tv1).
      { destruct tv as [ts vis]. cbn [visit]. destruct (nmem u vis) eqn:E.
        - apply nmem_spec in E. eexists. split; [reflexivity|]. apply post_refl. intros ? [<-|[]]. exact E.
        - apply nmem_false in E. destruct (String.eqb_spec (name_of h u) rn) as [En|En].
          + eexists. split; [reflexivity|]. constructor; cbn [fst snd] in *.
            * intros ? [<-|[]]. now left.
            * intros x Hx. now right.
            * intros x [<-|Hx]; [right; apply from_here; now left|auto].
            * intros x [<-|Hx] Hn Hm; [contradiction|contradiction].
            * intros x. split; [auto|]. intros [K|(K1 & K2 & K3 & _)]; [exact K|]. destruct K1 as [<-|K1]; [congruence|contradiction].
            * auto.
          + assert (CP : exists tv', collect n h rn u (if isterminal h u then nadd ts u else ts, u :: vis) = Some tv' /\ post (succs u) (if isterminal h u then nadd ts u else ts, u :: vis) tv').
            { cbn [snd] in *. destruct (Nat.lt_ge_cases u (length h)) as [Lu|Lu].
              - apply IH. cbn [snd]. pose proof (left_cons u vis Lu E). lia.
              - destruct n as [|n]; [lia|]. rewrite collect_S, succs_out by exact Lu. eexists. split; [reflexivity|]. apply post_refl. intros ? []. }
            destruct CP as (tv' & C & P).
            exists tv'. split; [exact C|]. destruct P as [A1 A2 A3 A4 A5 A6]. cbn [fst snd] in *. constructor; cbn [fst snd].
            * intros ? [<-|[]]. apply A2. now left.
            * intros x Hx. apply A2. now right.
            * intros x Hx. destruct (A3 x Hx) as [[<-|K]|K]; [right; apply from_here; now left|auto|].
              right. apply from_trans with u; [apply from_here; now left|exact En|exact K].
            * intros x Hx Hn Hm. destruct (Nat.eq_dec x u) as [->|Ne]; [exact A1|]. apply A4; [exact Hx| |exact Hm]. intros [K|K]; congruence || contradiction.
            * intros x. rewrite A5. assert (T : In x (if isterminal h u then nadd ts u else ts) <-> In x ts \/ (x = u /\ isterminal h u = true)).
              { destruct (isterminal h u); [rewrite In_nadd; tauto|]. split; [auto|]. intros [K|[_ K]]; [exact K|discriminate]. }
              rewrite T. split.
              { intros [[K|[-> K]]|(K1 & K2 & K3)]; [auto| |].
                - right. split; [apply A2; now left|auto].
                - right. split; [exact K1|]. split; [|exact K3]. intros K. apply K2. now right. }
              { intros [K|(K1 & K2 & K3 & K4)]; [auto|]. destruct (Nat.eq_dec x u) as [->|Ne]; [auto|]. right. split; [exact K1|]. split; [|auto]. intros [K|K]; congruence || contradiction. }
            * intros ND. apply A6. destruct (isterminal h u); [now apply NoDup_nadd|exact ND]. }
      destruct V as (tv1 & V & P1). rewrite V.
      destruct (IHu tv1) as (tv2 & F & P2). { pose proof (left_mono _ _ (p_vis _ _ _ P1)). lia. }
      exists tv2. split; [exact F|]. exact (post_trans [u] us _ _ _ P1 P2).
  Qed.
  Lemma collect_ok n : forall v tv, left (snd tv) + 2 <= n -> exists tv', collect n h rn v tv = Some tv' /\ post (succs v) tv tv'.
  Proof.
    induction n as [|n IH]; intros v tv L; [lia|]. rewrite collect_S. apply fold_visit_ok; [exact IH|lia].
  Qed.
  Lemma filter_true {A} (f : A -> bool) l : (forall x, f x = true) -> filter f l = l.
  Proof. intros H. induction l as [|x l IH]; cbn; [reflexivity|]. now rewrite H, IH. Qed.
  Lemma left_nil : left [] = length h.
  Proof. unfold left. rewrite filter_true by reflexivity. apply seq_length. Qed.
  Lemma collect_top v : exists ts vis, collect (S (S (length h))) h rn v ([], []) = Some (ts, vis) /\ NoDup ts /\
    forall u, In u ts <-> from (succs v) u /\ name_of h u <> rn /\ isterminal h u = true.
  Proof.
    destruct (collect_ok (S (S (length h))) v ([], [])) as ([ts vis] & C & [A1 A2 A3 A4 A5 A6]).
    { cbn [snd]. rewrite left_nil. lia. }
    exists ts, vis. split; [exact C|]. cbn [fst snd] in *. split; [apply A6; constructor|].
    assert (V : forall u, In u vis <-> from (succs v) u).
    { intros u. split; [intros Hu; destruct (A3 u Hu) as [[]|K]; exact K|]. intros H. induction H as [u Hu|w u Hw IHw Hn Hu]; [now apply A1|].
      apply (A4 w); [exact IHw|intros []|exact Hn|exact Hu]. }
    intros u. rewrite A5, V. cbn. tauto.
  Qed.
End Collect.

Lemma uses_from h rn v u : uses h rn v u <-> from h rn (succs h v) u /\ name_of h u <> rn.
Proof.
  split.
  - intros H. induction H as [x y S Hn|x y z H [IH1 IH2] S Hn].
    + split; [apply from_here; now apply step_succs|exact Hn].
    + split; [|exact Hn]. apply from_next with y; [exact IH1|exact IH2|now apply step_succs].
  - intros [H Hn]. revert Hn. induction H as [u Hu|w u Hw IHw Hn Hu]; intros Hm.
    + apply uses_one; [now apply step_succs|exact Hm].
    + apply uses_more with w; [now apply IHw|now apply step_succs|exact Hm].
Qed.
Lemma isterminal_spec h v : isterminal h v = true <-> leaf h v.
Proof. unfold isterminal, leaf. destruct (deps_of h v); split; congruence. Qed.

Lemma terminals_exact h r : exists ts, collect_terminals h r = Some ts /\ NoDup ts /\ forall v, In v ts <-> inputs_of h r v.
Proof.
  destruct (collect_top h (name_of h r) r) as (ts & vis & C & ND & T). exists ts. unfold collect_terminals. rewrite C. split; [reflexivity|].
  split; [exact ND|]. intros v. rewrite T. unfold inputs_of. rewrite uses_from, isterminal_spec. tauto.
Qed.

