(** Programs that go on. *)
From Verif Require Import PyBase NamesModel NamesProofs PromotionsModel PromotionsSpec HierSpec ExprModel ExprSpec UnflatModel UnflatSpec FlattenModel FlattenSpec ExprProofs EffectSpec EffectProofs Prop_Expr
  CompileSpec WorldModel WorldSpec WorldSpec2 WorldProofs WorldProofs2 WorldProofs4 WorldProofs5 WorldProofs7 WorldProofs8 ExtendSpec ExtendProofs.
From Coq Require Import Lia.
Local Open Scope list_scope.

(** ** The lists of a model *)
Definition lists_grow (s s' : bst) : Prop := incl (b_ins s) (b_ins s') /\ incl (b_outs s) (b_outs s') /\ incl (b_decls s) (b_decls s').
Lemma lists_refl s s' : b_ins s' = b_ins s -> b_outs s' = b_outs s -> b_decls s' = b_decls s -> lists_grow s s'.
Proof. intros A B C. unfold lists_grow. rewrite A, B, C. repeat split; apply incl_refl. Qed.
Lemma same_grow s s' : same_lists s s' -> lists_grow s s'.
Proof. intros (A & B & C & _). apply lists_refl; assumption. Qed.
Lemma register_grow s n v : lists_grow s (register s n v).
Proof. destruct (register_spec s n v) as [[_ ->]|[_ ->]]; [|apply lists_refl; reflexivity]. repeat split; cbn; [apply incl_refl|apply incl_appl, incl_refl|apply incl_refl]. Qed.
Lemma bstep_lists s e : lists_grow s (bstep s e).
Proof.
  destruct e as [n|n|n|n|args n|args os| |op args os|x fresh|y x|v op|n v|on].
  - apply lists_refl; reflexivity.
  - cbn [bstep]. destruct (is_ok _); [|apply lists_refl; reflexivity]. repeat split; cbn; [apply incl_appl, incl_refl|apply incl_refl|apply incl_refl].
  - cbn [bstep]. repeat split; cbn; [apply incl_refl|apply incl_refl|apply incl_appl, incl_refl].
  - cbn [bstep]. destruct (is_ok _); [|apply lists_refl; reflexivity]. destruct (alloc s KConcat (Some n) []) as [s1 v] eqn:A. unfold alloc in A. injection A as <- <-.
    match goal with |- context [if ?b then _ else _] => destruct b end; [|apply lists_refl; reflexivity].
    match goal with |- context [register ?s1 n ?v] => destruct (register_grow s1 n v) as (G1 & G2 & G3) end. repeat split; [exact G1|exact G2|exact G3].
  - destruct (forallb (kind_is is_variable s) args) eqn:F; [|cbn [bstep]; rewrite F; apply lists_refl; reflexivity].
    destruct (@c76_operation s args n) as (K & _); [rewrite forallb_forall in F; intros a Ha; apply kind_is_variable, F, Ha|apply same_grow, K].
  - destruct (forallb (kind_is is_variable s) args) eqn:F; [|cbn [bstep]; rewrite F; apply lists_refl; reflexivity].
    destruct (@c76_implicit s args os) as (K & _); [rewrite forallb_forall in F; intros a Ha; apply kind_is_variable, F, Ha|apply same_grow, K].
  - apply lists_refl; reflexivity.
  - cbn [bstep]. destruct (_ && _); [|apply lists_refl; reflexivity]. rewrite new_outputs_eq. apply lists_refl; reflexivity.
  - cbn [bstep]. destruct (nth_error (b_heap s) x) as [ox|]; [|apply lists_refl; reflexivity]. destruct (is_variable ox); [|apply lists_refl; reflexivity].
    destruct (ob_decomp ox); cbn; destruct fresh; apply lists_refl; reflexivity.
  - cbn [bstep]. destruct (nth_error (b_heap s) y) as [oy|]; [|apply lists_refl; reflexivity]. destruct (ob_kind oy); try (apply lists_refl; reflexivity).
    destruct (kind_is is_variable s x); [|apply lists_refl; reflexivity]. destruct (ob_defined oy); [destruct (ob_deps oy)|]; apply lists_refl; reflexivity.
  - cbn [bstep]. destruct (nth_error (b_heap s) v) as [ov|]; [|apply lists_refl; reflexivity]. destruct (_ && _); apply lists_refl; reflexivity.
  - apply register_grow.
  - cbn [bstep]. destruct on as [n|]; [destruct (_ && _)|]; apply lists_refl; reflexivity.
Qed.
Record wgrows (a b : wmodel) : Prop := {
  wg_ins : incl (wm_ins a) (wm_ins b); wg_outs : incl (wm_outs a) (wm_outs b); wg_decls : incl (wm_decls a) (wm_decls b);
  wg_subs : incl (wm_subs a) (wm_subs b); wg_conns : incl (wm_conns a) (wm_conns b) }.
Lemma wgrows_refl a : wgrows a a.
Proof. split; apply incl_refl. Qed.
Lemma wgrows_trans a b c : wgrows a b -> wgrows b c -> wgrows a c.
Proof. intros [A1 A2 A3 A4 A5] [B1 B2 B3 B4 B5]. split; eapply incl_tran; eassumption. Qed.
Lemma wstep_grows w e k a : nth_error (w_models w) k = Some a -> exists b, nth_error (w_models (wstep w e)) k = Some b /\ wgrows a b.
Proof.
  intros E. assert (U : forall h c j g, (forall x, nth_error (w_models w) j = Some x -> wgrows x (g x)) -> exists b, nth_error (w_models (World h c (upd (w_models w) j g))) k = Some b /\ wgrows a b).
  { intros h c j g Hg. cbn. rewrite nth_upd. destruct (Nat.eqb_spec j k) as [->|_]; rewrite E; cbn; eexists; (split; [reflexivity|]); [apply Hg, E|apply wgrows_refl]. }
  assert (S : exists b, nth_error (w_models w) k = Some b /\ wgrows a b) by (exists a; split; [exact E|apply wgrows_refl]).
  destruct e as [|j ev|j on pr c|j x y|j n|j n|j n]; cbn [wstep].
  - exists a. split; [cbn; rewrite nth_error_app1; [exact E|eapply nth_lt, E]|apply wgrows_refl].
  - destruct (nth_error (w_models w) j) as [mj|] eqn:Ej; [|destruct ev; exact S].
    assert (Q : exists b, nth_error (w_models (put w j (bstep (view w mj) ev))) k = Some b /\ wgrows a b).
    { unfold put. apply U. intros x Ex. rewrite Ej in Ex. injection Ex as <-. destruct (bstep_lists (view w mj) ev) as (G1 & G2 & G3). split; [exact G1|exact G2|exact G3|apply incl_refl|apply incl_refl]. }
    destruct ev; try exact Q. exact S.
  - destruct (nth_error (w_models w) j); [|exact S]. destruct (nth_error (w_models w) c); [|exact S].
    destruct on as [n|]; [destruct (_ && _); [|exact S]|]; apply U; intros x _; (split; try apply incl_refl; apply incl_appl, incl_refl).
  - destruct (nth_error (w_models w) j); [|exact S]. destruct (String.eqb x y); [exact S|]. destruct (existsb _ _); [exact S|]. apply U; intros z _; (split; try apply incl_refl; apply incl_appl, incl_refl).
  - destruct (nth_error (w_models w) j); [|exact S]. destruct (negb _); [exact S|]. destruct (smem _ _); [exact S|]. apply U; intros z _; split; apply incl_refl.
  - destruct (nth_error (w_models w) j); [|exact S]. destruct (smem _ _); [exact S|]. apply U; intros z _; split; apply incl_refl.
  - destruct (nth_error (w_models w) j) as [mj|]; [|exact S]. destruct (wm_obj mj); [exact S|]. apply U; intros z _; split; apply incl_refl.
Qed.

(** ** The objects *)
Definition kind_out (h : list obj) (v : nat) : Prop := exists o, nth_error h v = Some o /\ ob_kind o = KOut.
Definition same_but_more (h' : list obj) (ob ob' : obj) : Prop :=
  ob_kind ob' = ob_kind ob /\ ob_deps ob' = ob_deps ob /\ exists more, ob_outs ob' = ob_outs ob ++ more /\ forall v, In v more -> kind_out h' v.
Lemma same_refl h' ob : same_but_more h' ob ob.
Proof. repeat split. exists []. rewrite app_nil_r. split; [reflexivity|intros v []]. Qed.
Lemma bstep_object s e i ob : nth_error (b_heap s) i = Some ob -> (forall v op, e <> EDepend v op) ->
  (forall args os, e <> ECustom i args os) -> (forall x, e <> ESetitem i x) ->
  (forall y x oy op r, e = ESetitem y x -> nth_error (b_heap s) y = Some oy -> ob_kind oy = KConcat -> ob_deps oy = op :: r -> op <> i) ->
  exists ob', nth_error (b_heap (bstep s e)) i = Some ob' /\ same_but_more (b_heap (bstep s e)) ob ob'.
Proof.
  intros E N1 N2 N3 N4. destruct (in_dec Nat.eq_dec i (touched s e)) as [T|T]; [|exists ob; split; [apply (@bstep_kept s e i ob E T)|apply same_refl]].
  pose proof (nth_lt _ _ E) as L.
  destruct e as [n|n|n|n|args n|args os| |op args os|x fresh|y x|v op|n v|on]; cbn [touched] in T; try contradiction.
  - destruct T as [->|[]]. exfalso. eapply N2. reflexivity.
  - clear N1 N2 N3 N4. cbn [bstep]. destruct (nth_error (b_heap s) x) as [ox|] eqn:Ex; [|exists ob; split; [exact E|apply same_refl]].
    destruct (is_variable ox); [|exists ob; split; [exact E|apply same_refl]]. destruct (ob_decomp ox) as [d|] eqn:Ed.
    + destruct fresh; [|exists ob; split; [exact E|apply same_refl]]. cbn. rewrite nth_upd. rewrite (nth_snoc _ _ _ E).
      destruct (Nat.eqb_spec d i) as [->|NE]; cbn; eexists; (split; [reflexivity|]); [|apply same_refl]. repeat split. exists [length (b_heap s)]. split; [reflexivity|].
      intros v [<-|[]]. unfold kind_out. rewrite nth_upd. destruct (Nat.eqb_spec i (length (b_heap s))) as [->|_]; [lia|]. rewrite nth_app_new. eexists. split; reflexivity.
    + cbn. assert (Q : exists ob', nth_error (upd (b_heap s ++ [Obj (KOp false) (b_count s) (hex_id (b_count s)) [x] [] None false]) x (set_decomp (length (b_heap s)))) i = Some ob' /\
        ob_kind ob' = ob_kind ob /\ ob_deps ob' = ob_deps ob /\ ob_outs ob' = ob_outs ob).
      { rewrite nth_upd, (nth_snoc _ _ _ E). destruct (Nat.eqb x i); cbn; eexists; (split; [reflexivity|]); repeat split. }
      destruct Q as (ob' & Q1 & Q2 & Q3 & Q4). exists ob'.
      assert (SB : forall h, same_but_more h ob ob') by (intros h; split; [exact Q2|]; split; [exact Q3|]; exists []; rewrite app_nil_r; split; [exact Q4|intros v []]).
      destruct fresh; cbn; (split; [|apply SB]); [|exact Q1]. rewrite nth_upd_other by lia. apply nth_snoc, Q1.
  - cbn [bstep]. destruct (nth_error (b_heap s) y) as [oy|] eqn:Ey; [|exists ob; split; [exact E|apply same_refl]].
    destruct (ob_kind oy) eqn:Ky; try (exists ob; split; [exact E|apply same_refl]). destruct (kind_is is_variable s x); [|exists ob; split; [exact E|apply same_refl]].
    destruct (ob_defined oy).
    + destruct (ob_deps oy) as [|op r] eqn:Ed; [exists ob; split; [exact E|apply same_refl]|]. cbn. exists ob. split; [|apply same_refl].
      rewrite nth_upd_other; [exact E|]. intros ->. exact (N4 y x oy op r eq_refl Ey Ky Ed eq_refl).
    + cbn. exists ob. split; [|apply same_refl]. rewrite nth_upd_other by (intros ->; eapply N3; reflexivity). rewrite nth_upd_other by lia. apply nth_snoc, E.
  - exfalso. eapply N1. reflexivity.
  - destruct T as [->|[]]. cbn [bstep]. destruct (register_spec s n i) as [[_ ->]|[_ ->]]; [|exists ob; split; [exact E|apply same_refl]]. cbn. rewrite nth_upd, Nat.eqb_refl, E. cbn.
    eexists. split; [reflexivity|]. repeat split. exists []. cbn. rewrite app_nil_r. split; [reflexivity|intros v []].
Qed.

(** Names: only outputs are renamed. *)
Lemma bstep_rename s e i ob : nth_error (b_heap s) i = Some ob -> is_output ob = false ->
  exists ob', nth_error (b_heap (bstep s e)) i = Some ob' /\ ob_name ob' = ob_name ob.
Proof.
  intros E O. destruct (bstep_name s e i E) as (ob' & E' & _ & [N|(n & -> & NI & N)]); [eauto|]. cbn [bstep] in *.
  destruct (register_spec s n i) as [[(_ & R & _) _]|[_ Q]]; [unfold kind_is in R; rewrite E in R; congruence|]. rewrite Q in *. exists ob. auto.
Qed.

(** ** A call *)
Lemma wstep_cases w e : w_heap (wstep w e) = w_heap w \/ exists k ev a, e = WOn k ev /\ nth_error (w_models w) k = Some a /\ w_heap (wstep w e) = b_heap (bstep (view w a) ev).
Proof.
  destruct e as [|k ev|k on pr c|k a b|k n|k n|k n]; try (left; apply wstep_heap; intros; discriminate).
  destruct (nth_error (w_models w) k) as [m|] eqn:Em; [|left; cbn [wstep]; rewrite Em; destruct ev; reflexivity].
  assert (NE : (exists on, ev = EAdd on) \/ forall on, ev <> EAdd on) by (destruct ev; eauto; right; discriminate).
  destruct NE as [[on ->]|NE]; [left; cbn [wstep]; rewrite Em; reflexivity|]. right. exists k, ev, m. rewrite (wstep_on _ _ Em NE). auto.
Qed.
Section Go.
  Context (l : list wevent) (FR : follows_rules l).
  Let h := w_heap (whistory l).

  (** What later calls keep. *)
  Record kept (r : list wevent) : Prop := {
    k_obj : forall o ob, nth_error h o = Some ob -> exists ob', nth_error (w_heap (whistory (l ++ r))) o = Some ob' /\ same_but_more (w_heap (whistory (l ++ r))) ob ob';
    k_models : forall k a, nth_error (w_models (whistory l)) k = Some a -> exists b, nth_error (w_models (whistory (l ++ r))) k = Some b /\ wgrows a b;
    k_names : forall k a o, nth_error (w_models (whistory l)) k = Some a -> In o (wm_ins a ++ wm_outs a ++ wm_decls a) -> name_in (w_heap (whistory (l ++ r))) o = name_in h o
  }.
  Lemma kept_nil : kept [].
  Proof.
    split; rewrite app_nil_r.
    - intros o ob E. exists ob. split; [exact E|apply same_refl].
    - intros k a E. exists a. split; [exact E|apply wgrows_refl].
    - reflexivity.
  Qed.
  Lemma base_outs o ob v : nth_error h o = Some ob -> is_op ob = true -> In v (ob_outs ob) -> v < length h.
  Proof. intros E O Hv. destruct (ok_op (i_sinv (inv_history FR) _ E) O) as [_ C]. destruct (C _ Hv) as (ov & Ev & _). cbn in Ev. fold h in Ev. eapply nth_lt, Ev. Qed.

  Lemma kept_step r e : follows_rules (l ++ (r ++ [e])) -> leaves_alone l (r ++ [e]) -> kept r -> kept (r ++ [e]).
  Proof.
    intros FR' LA [K1 K2 K3]. rewrite app_assoc in FR'. destruct (rules_snoc _ _ FR') as [FR2 RU]. pose proof (inv_history FR2) as IV.
    assert (LE : forall k ev, e = WOn k ev -> match ev with ESetitem y _ => length h <= y | ECustom op _ _ => length h <= op | _ => True end).
    { intros k ev ->. apply (LA k ev). apply in_or_app. right. left. reflexivity. }
    assert (KO : forall v, kind_out (w_heap (whistory (l ++ r))) v -> kind_out (w_heap (whistory ((l ++ r) ++ [e]))) v).
    { intros v (o & E & Ko). destruct (step_object _ _ FR' v E) as (o' & E' & Ko' & _). exists o'. split; [exact E'|congruence]. }
    split; rewrite ?app_assoc.
    - intros o ob E. destruct (K1 _ _ E) as (ob1 & E1 & KK & DD & more & MM & KM). pose proof (nth_lt _ _ E) as LO.
      assert (SB : exists ob2, nth_error (w_heap (whistory ((l ++ r) ++ [e]))) o = Some ob2 /\ same_but_more (w_heap (whistory ((l ++ r) ++ [e]))) ob1 ob2).
      { rewrite whistory_snoc in *. destruct (wstep_cases (whistory (l ++ r)) e) as [Q|(k & ev & a & Ee & Ea & Q)]; [rewrite Q; exists ob1; split; [exact E1|apply same_refl]|].
        rewrite Q. pose proof (LE _ _ Ee) as B. subst e. destruct RU as ((_ & CE) & _). apply bstep_object; [exact E1| | | |].
        - intros v op ->. exact CE.
        - intros args os ->. lia.
        - intros x ->. lia.
        - intros y x oy op rr -> Ey Ky Ed ->. cbn [view b_heap] in Ey.
          destruct (nth_error (owners (l ++ r)) y) as [ky|] eqn:Oy.
          2:{ apply nth_error_None in Oy. pose proof (i_own IV) as LL. cbn in LL. apply nth_lt in Ey. lia. }
          pose proof (i_obj IV Ey Oy) as OI. assert (VY : is_op oy = false) by (unfold is_op; rewrite Ky; reflexivity).
          destruct (o_link OI VY o) as (ox & Ex & Ox & Hx); [rewrite Ed; left; reflexivity|]. cbn in Ex. rewrite E1 in Ex. injection Ex as <-.
          rewrite MM in Hx. apply in_app_or in Hx. destruct Hx as [Hx|Hx].
          + apply (base_outs o ob) in Hx; [lia|exact E|]. unfold is_op in *. rewrite KK in Ox. exact Ox.
          + destruct (KM _ Hx) as (oz & Ez & Kz). rewrite Ey in Ez. injection Ez as <-. congruence. }
      destruct SB as (ob2 & E2 & KK2 & DD2 & more2 & MM2 & KM2). exists ob2. split; [exact E2|]. split; [congruence|]. split; [congruence|]. exists (more ++ more2).
      split; [rewrite MM2, MM, app_assoc; reflexivity|]. intros v Hv. apply in_app_or in Hv. destruct Hv as [Hv|Hv]; [apply KO, KM, Hv|apply KM2, Hv].
    - intros k a E. destruct (K2 _ _ E) as (b & Eb & G). rewrite whistory_snoc. destruct (wstep_grows (whistory (l ++ r)) e k b Eb) as (c & Ec & G'). exists c. split; [exact Ec|eapply wgrows_trans; eassumption].
    - intros k a o E Hi. rewrite <- (K3 _ _ _ E Hi). destruct (K2 _ _ E) as (b & Eb & [G1 G2 G3 _ _]). rewrite !in_app_iff in Hi.
      assert (MB : the_model (l ++ r) k = b) by (unfold the_model; rewrite Eb; reflexivity).
      assert (QL : forall ob, nth_error (w_heap (whistory (l ++ r))) o = Some ob -> is_output ob = false -> name_in (w_heap (whistory ((l ++ r) ++ [e]))) o = name_in (w_heap (whistory (l ++ r))) o).
      { intros ob Eo Oo. unfold name_in. rewrite Eo, whistory_snoc. destruct (wstep_cases (whistory (l ++ r)) e) as [Q|(k' & ev & a' & _ & _ & Q)]; rewrite Q; [rewrite Eo; reflexivity|].
        destruct (bstep_rename (view (whistory (l ++ r)) a') ev o ob Eo Oo) as (ob' & E' & N'). rewrite E'. exact N'. }
      destruct Hi as [Hi|[Hi|Hi]].
      + destruct (@i_ins _ _ IV k o) as (ob & Eo & _ & Ko & _); [cbn; unfold lists; rewrite Eb; apply G1, Hi|]. apply (QL ob Eo). unfold is_output. rewrite Ko. reflexivity.
      + assert (HB : In o (wm_outs (the_model (l ++ r) k))) by (rewrite MB; apply G2, Hi). exact (proj2 (outs_persist _ _ FR' k o HB)).
      + destruct (@i_decls _ _ IV k o) as (ob & Eo & _ & Ko & _); [cbn; unfold lists; rewrite Eb; apply G3, Hi|]. apply (QL ob Eo). unfold is_output. rewrite Ko. reflexivity.
  Qed.
End Go.
Lemma follows_prefix l r : follows_rules (l ++ r) -> follows_rules l.
Proof. induction r as [|e r IH] using rev_ind; intros FR; [rewrite app_nil_r in FR; exact FR|]. rewrite app_assoc in FR. apply IH, (proj1 (rules_snoc _ _ FR)). Qed.
Lemma kept_all l r : follows_rules (l ++ r) -> leaves_alone l r -> kept l r.
Proof.
  intros FR. pose proof (follows_prefix _ _ FR) as FL. revert FR. induction r as [|e r IH] using rev_ind; intros FR LA; [apply kept_nil|].
  apply kept_step; try assumption. apply IH; [rewrite app_assoc in FR; exact (proj1 (rules_snoc _ _ FR))|]. intros k ev Hi. apply (LA k ev). apply in_or_app. auto.
Qed.

(** ** The trees *)
Lemma all_some_pick {T} (F : T -> option (umodel * model)) (g : T -> string) (g2 : T -> string * promotes_t) subs xs t : all_some (map F subs) = Some xs -> In t subs ->
  exists x, F t = Some x /\ In (g t, fst x) (combine (map g subs) (map fst xs)) /\ In (g2 t, snd x) (combine (map g2 subs) (map snd xs)).
Proof.
  revert xs. induction subs as [|u r IH]; intros xs A Hi; [destruct Hi|]. cbn in A. destruct (F u) as [y|] eqn:Fu; [|discriminate]. destruct (all_some (map F r)) as [ys|]; [|discriminate].
  injection A as <-. destruct Hi as [->|Hi]; [exists y; cbn; auto|]. destruct (IH ys eq_refl Hi) as (x & A & B & C). exists x. cbn. auto.
Qed.
Lemma all_some_from {T G} (F : T -> option (umodel * model)) (g : T -> G) {B} (p : umodel * model -> B) subs xs a b : all_some (map F subs) = Some xs -> In (a, b) (combine (map g subs) (map p xs)) ->
  exists t x, In t subs /\ F t = Some x /\ a = g t /\ b = p x.
Proof.
  revert xs. induction subs as [|u r IH]; intros xs A Hi; [destruct Hi|]. cbn in A. destruct (F u) as [y|] eqn:Fu; [|discriminate]. destruct (all_some (map F r)) as [ys|]; [|discriminate].
  injection A as <-. destruct Hi as [E|Hi]; [injection E as <- <-; exists u, y; cbn; auto|]. destruct (IH ys eq_refl Hi) as (t & x & A1 & A2 & A3 & A4). exists t, x. cbn. auto.
Qed.
Section Trees.
  Context (l r : list wevent) (shp : nat -> shape) (K : kept l r).
  Let w := whistory l.
  Let w' := whistory (l ++ r).
  Lemma tree_grows f : forall f' k um m um' m', tree f w shp k = Some (um, m) -> tree f' w' shp k = Some (um', m') -> um_grows um um' /\ grows m m'.
  Proof.
    induction f as [|f IH]; intros f' k um m um' m' T T'; [discriminate|].
    apply tree_inv in T, T'. destruct T as (f1 & a & xs & Ef & Ea & AS & _ & -> & ->). injection Ef as <-. destruct T' as (f2 & b & ys & _ & Eb & AS' & _ & -> & ->).
    destruct (k_models l r K k a Ea) as (b' & Eb' & [G1 G2 G3 G4 G5]). fold w' in Eb'. rewrite Eb in Eb'. injection Eb' as <-.
    assert (NM : forall o, In o (wm_ins a ++ wm_outs a ++ wm_decls a) -> entry w' shp o = entry w shp o) by (intros o Ho; unfold entry; f_equal; exact (k_names l r K k a o Ea Ho)).
    assert (EN : forall xs ys, incl xs ys -> incl xs (wm_ins a ++ wm_outs a ++ wm_decls a) -> incl (map (entry w shp) xs) (map (entry w' shp) ys)).
    { intros us vs I J x Hx. apply in_map_iff in Hx. destruct Hx as (o & <- & Ho). rewrite <- (NM o (J _ Ho)). apply in_map, I, Ho. }
    split.
    - constructor; try assumption. intros s sm Hi. unfold sub_names in Hi. destruct (all_some_from _ _ _ _ _ _ _ AS Hi) as (t & [u v] & Ht & Ft & -> & ->). cbn [fst].
      destruct (all_some_pick _ (fun t => fst (fst t)) fst _ _ _ AS' (G4 _ Ht)) as ([u' v'] & Ft' & P1 & _). exists u'. split; [exact P1|]. exact (proj1 (IH _ _ _ _ _ _ Ft Ft')).
    - constructor.
      + intros [| |]; cbn; apply EN; try assumption; intros o Ho; rewrite !in_app_iff; auto.
      + exact G5.
      + intros nm pr sm Hi. cbn in Hi. destruct (all_some_from _ _ _ _ _ _ _ AS Hi) as (t & [u v] & Ht & Ft & Et & ->). cbn [snd].
        destruct (all_some_pick _ (fun t => fst (fst t)) fst _ _ _ AS' (G4 _ Ht)) as ([u' v'] & Ft' & _ & P2). exists v'. rewrite Et. split; [exact P2|]. exact (proj2 (IH _ _ _ _ _ _ Ft Ft')).
  Qed.
  Lemma tree_keeps : keeps (w_heap w) (w_heap w').
  Proof.
    intros o ob E. destruct (k_obj l r K o ob E) as (ob' & E' & A & B & more & C & _). exists ob'. split; [exact E'|]. split; [unfold is_op; rewrite A; reflexivity|]. split; [exact B|eauto].
  Qed.
  Lemma tree_names f k um m : tree f w shp k = Some (um, m) -> names_kept (w_heap w) (w_heap w') um.
  Proof.
    intros T p kd o x ((ob & E & N) & ins & outs & decls & subs & A & Hi). destruct (@tree_um_at _ _ _ _ _ A _ _ _ T) as (f1 & k1 & m1 & T1).
    apply tree_inv in T1. destruct T1 as (f2 & a & xs & _ & Ea & _ & _ & EU & _). injection EU as -> -> -> _.
    assert (Q : name_in (w_heap w') o = name_in (w_heap w) o) by (apply (k_names l r K k1 a o Ea); rewrite !in_app_iff; destruct kd; auto).
    destruct (k_obj l r K o ob E) as (ob' & E' & _). exists ob'. split; [exact E'|]. unfold name_in in Q. unfold w, w' in *. rewrite E, E' in Q. congruence.
  Qed.
End Trees.
