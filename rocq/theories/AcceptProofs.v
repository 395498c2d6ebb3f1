(** Proofs about which hierarchies compile. *)
From Verif Require Import PyBase NamesModel NamesProofs PromotionsModel PromotionsSpec PromotionsProofs PromotionsProofs2 HierModel HierSpec HierProofs HierProofs2 Digraph
  FlatModel FlatSpec FlatProofs ConnProofs ConnProofs2 ExprModel UnflatModel UnflatSpec UnflatProofs UnflatProofs2 FlattenModel FlattenSpec FlattenProofs
  FlattenProofs2 FlattenProofs3 FlattenProofs4 TopoModel TopoSpec TopoProofs CompileModel CompileSpec ExecProofs CompileProofs AcceptSpec.
From Coq Require Import Permutation.

(** ** The sets of unpromoted names have no repetitions *)
Definition sets (d : dict (list string)) : Prop := forall k l, In (k, l) d -> NoDup l.
Lemma sets_dset d k v : sets d -> NoDup v -> sets (dset d k v).
Proof. intros H Hv x w Hi. apply In_dset' in Hi. destruct Hi as [->|Hi]; [exact Hv|eapply H; exact Hi]. Qed.
Lemma sets_merge items p : sets items -> sets p -> sets (merge_names p items).
Proof.
  unfold merge_names. revert p. induction items as [|[k v] items IH]; intros p Hi Hp; [exact Hp|].
  cbn [fold_left fst snd]. assert (Hv : NoDup v) by (apply (Hi k v); left; reflexivity).
  apply IH; [intros k' l' H'; apply (Hi k' l'); right; exact H'|].
  destruct (dget p k) as [old|] eqn:E; apply sets_dset; try assumption.
  apply NoDup_sunion. apply dget_In in E. eapply Hp; exact E.
Qed.
Lemma sets_dict_of ps : sets ps -> sets (dict_of ps).
Proof.
  unfold dict_of, dupdate. intros H. assert (G : sets []) by (intros k l []). revert G. generalize (@nil (string * list string)).
  revert H. induction ps as [|[k v] ps IH]; intros H d Hd; [exact Hd|]. cbn [fold_left fst snd].
  apply IH; [intros k' l' H'; apply (H k' l'); right; exact H'|]. apply sets_dset; [exact Hd|]. apply (H k v). left. reflexivity.
Qed.
Lemma sets_ddel d k : sets d -> sets (ddel d k).
Proof.
  intros H x l Hi. apply (H x). revert Hi. clear H. induction d as [|[k' v'] d IH]; cbn [ddel]; [tauto|].
  destruct (String.eqb k k'); cbn; tauto.
Qed.
Lemma sets_fold_ddel {W} (keep : dict W) (f : string -> string) d : sets d ->
  sets (fold_left (fun d kv => ddel d (f (fst kv))) keep d).
Proof. revert d. induction keep as [|kv keep IH]; intros d H; [exact H|]. cbn. apply IH, sets_ddel, H. Qed.
Lemma sets_filter f d : sets d -> sets (filter f d).
Proof. intros H k l Hi. apply filter_In in Hi. eapply H, Hi. Qed.
Lemma str_app_inj a x y : (a ++ x = a ++ y)%string -> x = y.
Proof. induction a as [|c a IH]; cbn; [auto|]. intros E. injection E as E. apply IH, E. Qed.
Lemma prepend_inj ns x y : prepend_namespace ns x = prepend_namespace ns y -> x = y.
Proof.
  unfold prepend_namespace. destruct (String.eqb ns ""); [auto|]. intros E. apply str_app_inj in E. cbn in E. injection E as E. exact E.
Qed.
Lemma sets_merge_child ns p c p' : sets (PromotionsModel.c_p2u c) -> sets p -> merge_child ns p c = Ok p' -> sets p'.
Proof.
  intros Hc Hp H. unfold merge_child in H. apply raise_if_Ok in H. destruct H as [_ H]. inv_bind H.
  apply raise_if_Ok in H. destruct H as [_ H]. injection H as <-.
  assert (NM : forall l, NoDup l -> NoDup (map (prepend_namespace (c_name c)) l)).
  { intros l. apply FinFun.Injective_map_NoDup. intros x y. apply prepend_inj. }
  assert (F1 : sets (map (fun kv => (fst kv, map (prepend_namespace (c_name c)) (snd kv))) (PromotionsModel.c_p2u c))).
  { intros k l Hi. apply in_map_iff in Hi. destruct Hi as ([k' l'] & E' & Hi). injection E' as <- <-. apply NM. exact (Hc _ _ Hi). }
  assert (F2 : sets (dict_of (map (fun kv => (prepend_namespace (c_name c) (fst kv), map (prepend_namespace (c_name c)) (snd kv))) (PromotionsModel.c_p2u c)))).
  { apply sets_dict_of. intros k l Hi. apply in_map_iff in Hi. destruct Hi as ([k' l'] & E' & Hi). injection E' as <- <-. apply NM. exact (Hc _ _ Hi). }
  assert (F : sets (fst a) /\ sets (snd a)).
  { destruct (c_prom c) as [[|x l]|].
    - injection E as <-. split; [intros k l []|exact F2].
    - destruct (existsb _ _) in E; [discriminate|]. injection E as <-. split; [apply sets_filter, F1|apply sets_fold_ddel, F2].
    - injection E as <-. split; [apply sets_filter, F1|apply sets_fold_ddel, F2]. }
  apply sets_merge; [apply F|]. apply sets_merge; [apply F|exact Hp].
Qed.
Lemma sets_p2u m pr r : resolve m pr = Ok r -> sets (rp_p2u r).
Proof.
  revert pr r. induction m as [m IH] using model_ind'. intros pr r H.
  apply resolve_inv in H. destruct H as (csrc & ctgt & cs & Hch & _ & _ & _ & _ & _ & _ & Hm).
  apply resolve_children_spec in Hch. destruct Hch as (Hc & _).
  assert (F0 : sets (p2u_local m)).
  { assert (G : forall ks d, sets d -> sets (fold_left (fun d k => dset d k [k]) ks d)).
    { induction ks as [|k ks IHk]; intros d Hd; [exact Hd|]. cbn. apply IHk, sets_dset; [exact Hd|repeat constructor; cbn; tauto]. }
    unfold p2u_local. apply G, G. intros k l []. }
  revert Hm. generalize (p2u_local m) F0. revert Hc. generalize (dkeys (dupdate (local_sources m) csrc) ++ dkeys (dupdate (local_targets m) ctgt)).
  intros ns. induction cs as [|c cs IHc]; intros Hc p Hp Hm; cbn [merge_children] in Hm.
  - injection Hm as <-. exact Hp.
  - inv_bind Hm. apply (IHc (fun c' H' => Hc c' (or_intror H')) a); [|exact Hm].
    eapply sets_merge_child; [|exact Hp|exact E].
    destruct (Hc c (or_introl eq_refl)) as (nm & pr' & sm & r' & Hi & Hr & ->). cbn [PromotionsModel.c_p2u]. eapply IH; [exact Hi|exact Hr].
Qed.

(** ** Lists *)
Lemma Forall2_choice {A B} (P : A -> B -> Prop) l : (forall x, In x l -> exists y, P x y) -> exists l', Forall2 P l l'.
Proof.
  induction l as [|x l IH]; intros H; [exists []; constructor|]. destruct (H x (or_introl eq_refl)) as (y & Hy).
  destruct IH as (l' & Hl'); [intros z Hz; apply H; right; exact Hz|]. exists (y :: l'). constructor; assumption.
Qed.
Lemma Forall2_NoDup {A B} (P : A -> B -> Prop) l l' : Forall2 P l l' -> (forall x y y', In x l -> P x y -> P x y' -> y = y') -> NoDup l' -> NoDup l.
Proof.
  intros F H ND. induction F as [|x y l l' Hxy F IH]; [constructor|]. inversion ND as [|? ? N1 N2]; subst. constructor.
  - intros Hx. destruct (Forall2_In_l _ _ _ _ F Hx) as (y' & Hy' & Hxy'). rewrite (H x y y' (or_introl eq_refl) Hxy Hxy') in N1. contradiction.
  - apply IH; [intros x' y1 y2 Hx'; apply H; right; exact Hx'|exact N2].
Qed.
Lemma Forall2_map_l {A B C} (f : A -> B) (P : B -> C -> Prop) l l' : Forall2 P (map f l) l' <-> Forall2 (fun x y => P (f x) y) l l'.
Proof.
  split.
  - revert l'. induction l as [|x l IH]; intros l' F; cbn in F; inversion F; subst; constructor; auto.
  - intros F. induction F; cbn; constructor; auto.
Qed.
Lemma Forall2_flip {A B} (P : A -> B -> Prop) l l' : Forall2 P l l' -> Forall2 (fun y x => P x y) l' l.
Proof. intros F. induction F; constructor; auto. Qed.
Lemma Forall2_trans_ex {A B C} (P : A -> B -> Prop) (Q : A -> C -> Prop) l l1 l2 : Forall2 P l l1 -> Forall2 Q l l2 -> Forall2 (fun y z => exists x, In x l /\ P x y /\ Q x z) l1 l2.
Proof.
  intros F. revert l2. induction F as [|x y l l1 Hxy F IH]; intros l2 G; inversion G; subst; constructor.
  - exists x. cbn. auto.
  - assert (K : Forall2 (fun y z => exists x, In x l /\ P x y /\ Q x z) l1 l') by (apply IH; assumption).
    revert K. clear. intros K. induction K as [|a b la lb (x' & Hx' & Hp) K IHK]; constructor; [exists x'; cbn; auto|exact IHK].
Qed.
