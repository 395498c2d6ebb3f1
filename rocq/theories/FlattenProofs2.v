(** The flat graph of a model hierarchy. *)
From Verif Require Import PyBase NamesModel NamesProofs PromotionsModel PromotionsSpec PromotionsProofs PromotionsProofs2 HierSpec HierProofs Digraph
  ExprModel UnflatModel UnflatSpec UnflatProofs UnflatProofs2 FlatModel FlatSpec FlatProofs FlattenModel FlattenSpec FlattenProofs.
Set Implicit Arguments.

Lemma graph_at_here u : graph_at u [] (ug_graph u).
Proof. destruct u. constructor. Qed.
Lemma graph_at_split u p g : graph_at u p g <-> (p = [] /\ g = ug_graph u) \/ below (ug_subs u) p g.
Proof.
  split.
  - intros H. inversion H; subst; [left; auto|]. right. do 3 eexists. cbn. eauto.
  - intros [[-> ->]|(s & su & q & -> & Hs & G)]; [apply graph_at_here|]. destruct u. econstructor; eassumption.
Qed.

Section Flat.
  Context (h : list obj) (p2u : dict (list string)) (u2p : dict string).

  Lemma main_log_spec l x v : In (x, v) (flat_map (main_assign h p2u u2p) l) ->
    In x l /\ exists p o ob, x = NObj p o /\ nth_error h o = Some ob /\ v = (nspart_of p2u u2p EmptyString (ob_name ob), EmptyString).
  Proof.
    intros H. apply in_flat_map in H. destruct H as (y & Hy & H). unfold main_assign in H. destruct y as [q s|q o]; [destruct H|].
    destruct (nth_error h o) as [ob|] eqn:E; [|destruct H]. unfold nspart_of.
    destruct (dmem (prepend_namespace EmptyString (ob_name ob)) p2u) eqn:D.
    - destruct H as [H|[]]. injection H as <- <-. split; [exact Hy|]. exists q, o, ob. rewrite D. auto.
    - destruct (dget u2p (prepend_namespace EmptyString (ob_name ob))) as [pn|] eqn:G; [|destruct H]. destruct H as [H|[]].
      injection H as <- <-. split; [exact Hy|]. exists q, o, ob. rewrite D, G. auto.
  Qed.
  Lemma main_spaces l x : NoDup l -> (forall y, In y l -> is_var_node h y = true) -> In x l -> forall p o ob, x = NObj p o -> nth_error h o = Some ob ->
    spaces (flat_map (main_assign h p2u u2p) l) x = (nspart_of p2u u2p EmptyString (ob_name ob), EmptyString).
  Proof.
    intros ND HV Hx p o ob -> E.
    assert (NDL : NoDup (map fst (flat_map (main_assign h p2u u2p) l))).
    { clear Hx HV. induction l as [|y r IH]; [constructor|]. inversion ND as [|? ? Ny ND']; subst. cbn. rewrite map_app. apply NoDup_app_iff. split; [|split].
      - unfold main_assign. destruct y as [q s|q o']; [constructor|]. destruct (nth_error h o') as [ob'|]; [|constructor].
        destruct (dmem _ p2u); [repeat constructor; auto|]. destruct (dget u2p _); repeat constructor; auto.
      - apply IH, ND'.
      - intros z Hz Hr. apply in_map_iff in Hr. destruct Hr as ([z' v] & <- & Hr). apply main_log_spec in Hr. destruct Hr as [Hr _]. cbn in Hz.
        assert (z' = y). { unfold main_assign in Hz. destruct y as [q s|q o']; [destruct Hz|]. destruct (nth_error h o') as [ob'|]; [|destruct Hz].
          destruct (dmem _ p2u); [destruct Hz as [<-|[]]; reflexivity|]. destruct (dget u2p _); [destruct Hz as [<-|[]]; reflexivity|destruct Hz]. }
        subst. contradiction. }
    destruct (in_dec (fun a b => match irnode_eqb a b as e return irnode_eqb a b = e -> _ with
        | true => fun H => left (proj1 (irnode_eqb_spec a b) H)
        | false => fun H => right (fun K => eq_ind true (fun e => if e then True else False) I false (eq_trans (eq_sym (proj2 (irnode_eqb_spec a b) K)) H))
        end eq_refl) (NObj p o) (map fst (flat_map (main_assign h p2u u2p) l))) as [Hi|Hi].
    - apply in_map_iff in Hi. destruct Hi as ([z v] & Ez & Hi). cbn in Ez. subst z. change (flat_map (main_assign h p2u u2p) l) with ([] ++ flat_map (main_assign h p2u u2p) l).
      rewrite (spaces_in _ _ _ _ NDL Hi). apply main_log_spec in Hi. destruct Hi as (_ & p' & o' & ob' & Ex & E' & ->). injection Ex as <- <-. congruence.
    - rewrite spaces_fresh by exact Hi. f_equal. unfold nspart_of. cbv zeta.
      destruct (dmem (prepend_namespace EmptyString (ob_name ob)) p2u) eqn:D; [reflexivity|].
      destruct (dget u2p (prepend_namespace EmptyString (ob_name ob))) as [pn|] eqn:G; [|reflexivity]. exfalso. apply Hi. apply in_map_iff.
      exists (NObj p o, (namespace_part pn, EmptyString)). split; [reflexivity|]. apply in_flat_map. exists (NObj p o). split; [exact Hx|].
      unfold main_assign. rewrite E. cbv zeta. rewrite D, G. left. reflexivity.
  Qed.

  Theorem flatten_spec u g log : ug_ok [] u -> flatten h p2u u2p u = Ok (g, log) ->
    wf g /\
    (forall x, node g x <-> ~ model_node x /\ exists p gp, graph_at u p gp /\ node gp x) /\
    (forall a b, edge g a b <-> ~ model_node a /\ ~ model_node b /\ exists p gp, graph_at u p gp /\ edge gp a b) /\
    (forall p o ob gp, graph_at u p gp -> node gp (NObj p o) -> nth_error h o = Some ob -> is_op ob = false ->
       spaces log (NObj p o) = (nspart_of p2u u2p (ns_path EmptyString p) (ob_name ob), ns_path EmptyString p)) /\
    (forall p gp x, p <> [] -> graph_at u p gp -> node gp x -> is_varnode h x -> passes h p2u u2p gp (ns_path EmptyString p) x).
  Proof.
    intros K H. unfold flatten in H. assert (Wu : wf (ug_graph u)) by (inversion K; assumption).
    assert (Pu : forall x, node (ug_graph u) x -> path_of x = []).
    { intros x Hx. apply (@graph_at_path u [] [] (ug_graph u) x K (graph_at_here u) Hx). }
    set (ml := flat_map _ _) in H.
    assert (PR : pre [] (ug_subs u) (ug_graph u, ml)).
    { split; [exact Wu|]. cbn [fst snd]. intros s x _ (t & Et). split.
      - intros Hx. apply Pu in Hx. rewrite Hx in Et. discriminate.
      - intros Hi. apply in_map_iff in Hi. destruct Hi as ([z v] & <- & Hi). apply main_log_spec in Hi. destruct Hi as [Hi _].
        apply filter_In in Hi. destruct Hi as [Hi _]. apply Pu in Hi. cbn in Et. rewrite Hi in Et. discriminate. }
    pose proof (@merge_graphs_spec h p2u u2p u [] EmptyString _ _ K PR H) as EF. destruct EF as [W' HN HE HL HP]. cbn [fst snd] in *.
    assert (MN : forall x, node (ug_graph u) x -> (model_node x <-> exists s, In s (map fst (ug_subs u)) /\ x = NModel [] s)).
    { intros x Hx. split; [|intros (s & _ & ->); exists [], s; reflexivity]. intros (q & s & ->). inversion K as [p' g0 subs' _ Hn _ _]; subst. cbn in Hx.
      destruct (Hn _ Hx) as [[o E]|(s' & E & Hs)]; [discriminate|]. injection E as -> ->. exists s'. auto. }
    split; [exact W'|]. split; [|split; [|split]].
    - intros x. rewrite HN. split.
      + intros [[Hx Hr]|(Nm & q & gq & B & Hx)].
        * split; [rewrite (MN x Hx); exact Hr|]. exists [], (ug_graph u). split; [apply graph_at_here|exact Hx].
        * split; [exact Nm|]. exists q, gq. split; [apply graph_at_split; auto|exact Hx].
      + intros (Nm & p & gp & G & Hx). apply graph_at_split in G. destruct G as [[-> ->]|B].
        * left. split; [exact Hx|]. rewrite <- (MN x Hx). exact Nm.
        * right. eauto.
    - intros a b. rewrite HE. split.
      + intros [[Hx Hr]|(Na & Nb & q & gq & B & Hx)].
        * destruct (@wf_ends _ _ Wu _ _ Hx) as [Xa Xb]. rewrite (MN a Xa), (MN b Xb). split; [apply Hr|]. split; [apply Hr|].
          exists [], (ug_graph u). split; [apply graph_at_here|exact Hx].
        * split; [exact Na|]. split; [exact Nb|]. exists q, gq. split; [apply graph_at_split; auto|exact Hx].
      + intros (Na & Nb & p & gp & G & Hx). apply graph_at_split in G. destruct G as [[-> ->]|B].
        * destruct (@wf_ends _ _ Wu _ _ Hx) as [Xa Xb]. left. split; [exact Hx|]. rewrite <- (MN a Xa), <- (MN b Xb). auto.
        * right. eauto 6.
    - intros p o ob gp G Hx E O. destruct HL as (ex & -> & ND & HI & HS).
      assert (V : is_varnode h (NObj p o)) by (exists p, o; split; [reflexivity|exists ob; auto]).
      apply graph_at_split in G. destruct G as [[-> ->]|B].
      + rewrite spaces_app.
        * apply main_spaces with (p := @nil string) (o := o); [apply NoDup_filter, (@wf_nodes _ _ Wu)| | |reflexivity|exact E].
          -- intros y Hy. apply filter_In in Hy. apply Hy.
          -- apply filter_In. split; [exact Hx|]. apply is_var_node_spec, V.
        * intros Hi. apply HI in Hi. destruct Hi as (_ & q & gq & B & Hi).
          assert (Ks : forall s su, In (s, su) (ug_subs u) -> ug_ok ([] ++ [s]) su) by (inversion K; assumption).
          destruct (@below_within _ _ _ _ _ Ks B Hi) as [Eq _]. cbn in Eq. destruct B as (? & ? & ? & -> & _). discriminate.
      + assert (Hi : In (NObj p o) (map fst ex)) by (apply HI; eauto).
        apply in_map_iff in Hi. destruct Hi as ([z v] & Ez & Hi). cbn in Ez. subst z.
        rewrite (spaces_in _ _ _ _ ND Hi). destruct (HS _ _ Hi) as (q & gq & o' & ob' & _ & _ & Ex & E' & ->). cbn in Ex. injection Ex as <- <-. congruence.
    - intros p gp x Hp G Hx V. apply graph_at_split in G. destruct G as [[-> _]|B]; [congruence|]. exact (HP p gp x B Hx V).
  Qed.
End Flat.
