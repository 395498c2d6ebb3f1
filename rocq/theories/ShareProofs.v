(** A model object in several places. *)
From Verif Require Import PyBase NamesModel PromotionsModel PromotionsSpec ExprModel UnflatModel FlattenSpec WorldModel WorldSpec WorldSpec2 WorldProofs5.
From Coq Require Import Lia.
Local Open Scope list_scope.

Lemma all_some_mono {A B} (g g' : A -> option B) l : (forall a b, In a l -> g a = Some b -> g' a = Some b) -> forall x, all_some (map g l) = Some x -> all_some (map g' l) = Some x.
Proof.
  induction l as [|a l IH]; intros H x E; cbn in *; [exact E|]. destruct (g a) as [b|] eqn:G; [|discriminate]. rewrite (H a b (or_introl eq_refl) G).
  destruct (all_some (map g l)) as [y|]; [|discriminate]. rewrite (IH (fun a b Hi => H a b (or_intror Hi)) y eq_refl). exact E.
Qed.
Lemma tree_mono w shp : forall f f' k x, f <= f' -> tree f w shp k = Some x -> tree f' w shp k = Some x.
Proof.
  induction f as [|f IH]; intros [|f'] k x L T; try discriminate; [lia|]. cbn [tree] in *. destruct (nth_error (w_models w) k) as [m|]; [|discriminate].
  destruct (all_some (map (fun t => tree f w shp (snd t)) (wm_subs m))) as [y|] eqn:E; [|discriminate].
  rewrite (all_some_mono _ (fun t => tree f' w shp (snd t)) _ (fun a b _ H => IH f' _ _ (le_S_n _ _ L) H) y E). exact T.
Qed.
Lemma tree_fuel w shp f f' k x y : tree f w shp k = Some x -> tree f' w shp k = Some y -> x = y.
Proof.
  intros T T'. destruct (Nat.le_ge_cases f f') as [L|L]; [apply (tree_mono w shp f f' k x L) in T|apply (tree_mono w shp f' f k y L) in T']; congruence.
Qed.
Lemma all_some_at {A B} (g : A -> option B) l x a : all_some (map g l) = Some x -> In a l -> exists b, g a = Some b /\ In (a, b) (combine l x).
Proof.
  revert x. induction l as [|c l IH]; intros x E Hi; [destruct Hi|]. cbn in E. destruct (g c) as [b|] eqn:G; [|discriminate]. destruct (all_some (map g l)) as [y|] eqn:Y; [|discriminate]. injection E as <-.
  destruct Hi as [->|Hi]; [exists b; cbn; auto|]. destruct (IH y eq_refl Hi) as (b' & G' & Hb). exists b'. cbn. auto.
Qed.
Lemma combine_map_in {A B C D} (f : A -> C) (g : B -> D) l : forall x a b, In (a, b) (combine l x) -> In (f a, g b) (combine (map f l) (map g x)).
Proof. induction l as [|c l IH]; intros [|d x] a b Hi; cbn in *; try contradiction. destruct Hi as [E|Hi]; [injection E as -> ->; auto|right; apply IH, Hi]. Qed.
Lemma leads_at w shp k p j : leads w k p j -> forall f f' um m sum sm, tree f w shp k = Some (um, m) -> tree f' w shp j = Some (sum, sm) -> um_at um p sum /\ sub_at m p sm.
Proof.
  induction 1 as [k|k wm n pr c p j E Hs L IH]; intros f f' um m sum sm T T'.
  - pose proof (tree_fuel w shp f f' k _ _ T T') as Q. injection Q as -> ->. split; constructor.
  - apply tree_inv in T. destruct T as (f1 & wm' & x & -> & E' & AL & _ & -> & ->). rewrite E in E'. injection E' as <-.
    destruct (all_some_at _ _ _ _ AL Hs) as ([u1 m1] & T1 & Hi). cbn [snd] in T1. destruct (IH _ _ _ _ _ _ T1 T') as [A B]. split.
    + eapply um_step; [|exact A]. apply (combine_map_in (fun t : string * promotes_t * nat => fst (fst t)) fst) in Hi. exact Hi.
    + eapply sub_step; [|exact B]. cbn [m_subs]. apply (combine_map_in (@fst (string * promotes_t) nat) snd) in Hi. exact Hi.
Qed.
