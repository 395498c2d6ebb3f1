(** A submodel on its own: what it has in common with itself inside a hierarchy. *)
From Verif Require Import PyBase NamesModel NamesProofs PromotionsModel PromotionsSpec PromotionsProofs PromotionsProofs2 PromotionsProofs3 HierModel HierSpec HierProofs HierProofs2 Digraph TopoModel FlatModel ExprModel UnflatModel UnflatSpec
  FlattenModel FlattenSpec FlattenProofs3 FlattenProofs4 CompileModel CompileSpec CompileProofs CompileProofs2 CompileProofs3 AcceptSpec AcceptProofs4 IterModel IterSpec IterProofs LookupModel LookupProofs DependSpec DependProofs ConnProofs.
From Coq Require Import Permutation.

Lemma um_at_app um p um1 q um2 : um_at um p um1 -> um_at um1 q um2 -> um_at um (p ++ q) um2.
Proof. intros A B. induction A as [|? ? ? ? ? ? ? ? Hi A IH]; [exact B|]. cbn. econstructor; [exact Hi|]. apply IH, B. Qed.
Lemma sub_one m p m1 m2 : well_named m -> sub_at m p m1 -> sub_at m p m2 -> m1 = m2.
Proof.
  intros W A. revert W m2. induction A as [m|m nm pr sm p m' Hs A IH]; intros W m2 B; [symmetry; apply sub_at_nil, B|].
  apply sub_at_cons in B. destruct B as (pr' & sm' & Hs' & B). destruct (well_named_here _ W) as (ND & _ & _).
  destruct (sub_unique _ _ _ _ _ _ ND Hs Hs') as [<- <-]. apply IH; [eapply well_named_sub; eassumption|exact B].
Qed.
Lemma has_var_up m p sm q k x s : sub_at m p sm -> has_var sm q k x s -> has_var m (p ++ q) k x s.
Proof. intros A (m' & B & Hi). exists m'. split; [eapply sub_at_app; eassumption|exact Hi]. Qed.
Lemma sub_at_split m p q m2 : sub_at m (p ++ q) m2 -> exists m1, sub_at m p m1 /\ sub_at m1 q m2.
Proof.
  revert m. induction p as [|nm p IH]; intros m A; [exists m; split; [constructor|exact A]|]. cbn in A. apply sub_at_cons in A. destruct A as (pr & sm & Hi & A).
  destruct (IH _ A) as (m1 & A1 & A2). exists m1. split; [econstructor; eassumption|exact A2].
Qed.
Lemma has_var_down m p sm q k x s : well_named m -> sub_at m p sm -> has_var m (p ++ q) k x s -> has_var sm q k x s.
Proof. intros W A (m' & B & Hi). apply sub_at_split in B. destruct B as (m1 & B1 & B2). rewrite (sub_one _ _ _ _ W A B1). exists m'. auto. Qed.

(** What a name of the submodel becomes in the hierarchy. *)
Lemma lift_exists m p sm : sub_at m p sm -> exists F : string -> list string -> list string,
  forall q x r, promoted_ns sm q x r -> promoted_ns m (p ++ q) x (F x r).
Proof.
  induction 1 as [m|m nm pr sm p m' Hi A [F IH]]; [exists (fun _ r => r); auto|].
  exists (fun x r => match F x r with [] => if lifts_dec pr x then [] else [nm] | l => nm :: l end). intros q x r Hq. apply IH in Hq. cbn.
  destruct (F x r) as [|a l]; [destruct (lifts_dec pr x)|]; [eapply pn_lifted|eapply pn_prefixed|eapply pn_prefixed]; eauto. left. discriminate.
Qed.
Lemma promoted_down m p sm q x R : well_named m -> sub_at m p sm -> promoted_ns m (p ++ q) x R -> exists r, promoted_ns sm q x r.
Proof.
  intros W A. revert R W. induction A as [m|m nm pr sm p m' Hi A IH]; intros R W Hq; [eauto|]. cbn in Hq. apply promoted_ns_cons in Hq.
  destruct Hq as (pr' & sm' & q0 & Hi' & Hq & _). destruct (well_named_here _ W) as (ND & _ & _). destruct (sub_unique _ _ _ _ _ _ ND Hi Hi') as [<- <-].
  eapply IH; [eapply well_named_sub; eassumption|exact Hq].
Qed.
Lemma promoted_from m p sm P x r : well_named m -> sub_at m p sm -> promoted_ns m P x (p ++ r) -> exists q, P = p ++ q /\ promoted_ns sm q x r.
Proof.
  intros W A. revert P W. induction A as [m|m nm pr sm p m' Hi A IH]; intros P W Hq; [exists P; auto|]. cbn in Hq.
  inversion Hq as [| |m0 nm' pr' sm' P' x0 q0 Hi' Hq' _]; subst. destruct (well_named_here _ W) as (ND & _ & _). destruct (sub_unique _ _ _ _ _ _ ND Hi Hi') as [<- <-].
  destruct (IH P') as (q & -> & Hr); [eapply well_named_sub; eassumption|exact Hq'|]. exists q. auto.
Qed.

(** A name used below path [p] is spelled with that path. *)
Lemma dotted_cons s l a : dotted (s :: l) a = (s ++ "." ++ dotted l a)%string.
Proof. unfold dotted. destruct l; reflexivity. Qed.
Lemma dot_split s s' a b : has_dot s = false -> has_dot s' = false -> (s ++ "." ++ a = s' ++ "." ++ b)%string -> s = s' /\ a = b.
Proof.
  revert s'. induction s as [|c s IH]; intros [|c' s'] D D' E; cbn in E.
  - injection E as E. auto.
  - injection E as <- E. apply count_dots_cons in D'. destruct D' as [D' _]. discriminate.
  - injection E as -> E. apply count_dots_cons in D. destruct D as [D _]. discriminate.
  - injection E as <- E. apply count_dots_cons in D, D'. destruct (IH s') as [-> ->]; tauto.
Qed.
Lemma dot_inside s a : has_dot (s ++ "." ++ a)%string = false -> False.
Proof. induction s as [|c s IH]; intros D; [discriminate|]. cbn in D. apply count_dots_cons in D. tauto. Qed.
Lemma dotted_split p n P x : Forall (fun n => has_dot n = false /\ n <> ""%string) p -> Forall (fun n => has_dot n = false /\ n <> ""%string) P -> has_dot x = false ->
  dotted p n = dotted P x -> exists P', P = p ++ P' /\ n = dotted P' x.
Proof.
  intros Hp. revert P. induction Hp as [|s p [Ds _] Hp IH]; intros P HP Dx E; [exists P; split; [reflexivity|exact E]|].
  rewrite dotted_cons in E. destruct HP as [|s' P [Ds' _] HP].
  - exfalso. apply (dot_inside s (dotted p n)). rewrite E. exact Dx.
  - rewrite dotted_cons in E. apply dot_split in E; [|assumption..]. destruct E as [-> E]. destruct (IH P HP Dx E) as (P' & -> & ->). exists P'. auto.
Qed.

Section S.
  Context (h : list obj) (shp : nat -> shape) (um : umodel) (m : model) (p : list string) (sum : umodel) (sm : model).
  Context (WF : well_formed h um m shp) (A : um_at um p sum) (B : sub_at m p sm).
  Let W : well_named m := f_named WF.
  Let Ws : well_named sm := well_named_sub_at _ _ _ B W.

  Lemma sub_hierarchy : hierarchy h shp sum sm.
  Proof. destruct (hier_at (f_hierarchy WF) A) as (m' & B' & H). rewrite (sub_one _ _ _ _ W B B'). exact H. Qed.
  Lemma occurs_up q o : occurs h sum q o -> occurs h um (p ++ q) o.
  Proof. intros (ins & outs & decls & subs & C & Ho). exists ins, outs, decls, subs. split; [eapply um_at_app; eassumption|exact Ho]. Qed.
  Lemma member_up q k o x : member h sum q k o x -> member h um (p ++ q) k o x.
  Proof. intros (N & ins & outs & decls & subs & C & Ho). split; [exact N|]. exists ins, outs, decls, subs. split; [eapply um_at_app; eassumption|exact Ho]. Qed.
  Lemma conn_up q a b : declared_conn sm q a b -> declared_conn m (p ++ q) a b.
  Proof. intros (m' & C & Hi). exists m'. split; [eapply sub_at_app; eassumption|exact Hi]. Qed.
  Lemma sub_well_formed : well_formed h sum sm shp.
  Proof.
    pose proof WF as WF0. destruct WF0 as [F1 F2 F3 F4 F5 F6 F7 F8 F9 F10 F11 F12 F13 F14 F15]. split; try assumption.
    - exact sub_hierarchy.
    - intros q ins outs decls subs i C. eapply F3. eapply um_at_app; eassumption.
    - intros q ins outs decls subs o C. eapply F5. eapply um_at_app; eassumption.
    - intros q k x s Hv. eapply F6. eapply has_var_up; eassumption.
    - intros q ins outs decls subs C. eapply F9. eapply um_at_app; eassumption.
    - intros q o Ho. eapply F14. apply occurs_up, Ho.
    - intros q o Ho. eapply F15. apply occurs_up, Ho.
  Qed.

  (** ** Names *)
  Section Lift.
    Context (F : string -> list string -> list string) (HF : forall q x r, promoted_ns sm q x r -> promoted_ns m (p ++ q) x (F x r)).
    (** [pn] in the submodel is [PN] in the hierarchy. *)
    Definition becomes (pn PN : string) : Prop := exists x r k s q, has_var sm q k x s /\ promoted_ns sm q x r /\ pn = dotted r x /\ PN = dotted (F x r) x.
    Lemma becomes_fun pn PN PN' : becomes pn PN -> becomes pn PN' -> PN = PN'.
    Proof.
      intros (x & r & k & s & q & Hv & Hp & E & ->) (x' & r' & k' & s' & q' & Hv' & Hp' & E' & ->). rewrite E in E'.
      apply dotted_inj in E'; [destruct E' as [-> ->]; reflexivity|exact (promoted_ns_names _ _ _ _ _ _ Ws Hv Hp)|exact (promoted_ns_names _ _ _ _ _ _ Ws Hv' Hp')|exact (has_var_no_dot _ _ _ _ _ Ws Hv)|exact (has_var_no_dot _ _ _ _ _ Ws Hv')].
    Qed.
    Lemma called_up q k o pn : called h sum sm q k o pn -> exists PN, becomes pn PN /\ called h um m (p ++ q) k o PN.
    Proof.
      intros (x & r & Hm & Hp & ->). destruct (member_own sub_hierarchy Hm) as (s & Hv & _). exists (dotted (F x r) x).
      split; [exists x, r, k, s, q; auto|]. exists x, (F x r). split; [apply member_up, Hm|]. auto.
    Qed.
    Lemma called_as q k o pn PN : called h sum sm q k o pn -> becomes pn PN -> called h um m (p ++ q) k o PN.
    Proof. intros Hc Hb. apply called_up in Hc. destruct Hc as (PN' & Hb' & Hc). rewrite (becomes_fun _ _ _ Hb Hb'). exact Hc. Qed.
    Lemma resolves_down n PN : resolves_to m (dotted p n) PN -> exists pn, resolves_to sm n pn /\ becomes pn PN.
    Proof.
      intros (P & k & x & s & Q & Hv & Hp & -> & E). pose proof (sub_at_names _ _ _ W B) as Np.
      pose proof (has_var_path_names _ _ _ _ _ W Hv) as NP. pose proof (promoted_ns_names _ _ _ _ _ _ W Hv Hp) as NQ. pose proof (has_var_no_dot _ _ _ _ _ W Hv) as Dx.
      assert (G : exists q r, P = p ++ q /\ promoted_ns sm q x r /\ (n = dotted q x \/ n = dotted r x)).
      { destruct E as [E|E]; apply dotted_split in E; try assumption; destruct E as (P' & -> & ->).
        - destruct (promoted_down _ _ _ _ _ _ W B Hp) as (r & Hr). exists P', r. auto.
        - destruct (promoted_from _ _ _ _ _ _ W B Hp) as (q & -> & Hr). exists q, P'. auto. }
      destruct G as (q & r & -> & Hr & En). pose proof (has_var_down _ _ _ _ _ _ _ W B Hv) as Hv'.
      exists (dotted r x). split; [exists q, k, x, s, r; auto|]. exists x, r, k, s, q. rewrite (promoted_ns_fun _ _ _ _ _ W Hp (HF _ _ _ Hr)). auto.
    Qed.

    (** ** Connections *)
    Context (mp : dict (list string) * dict string) (MP : maps_of m = Ok mp).
    Context (AC : forall q a b, declared_conn m q a b -> connection_ok h shp um m q a b).
    Lemma resolved_at q n PN pn : resolves_to m (dotted (p ++ q) n) PN -> resolves_to sm (dotted q n) pn -> becomes pn PN.
    Proof.
      rewrite <- (dotted_app p q n (names_nonempty _ (sub_at_names _ _ _ W B))). intros R R'. apply resolves_down in R. destruct R as (pn' & R & Hb).
      destruct (maps_sub _ _ _ _ MP B) as (mp' & MP'). rewrite (resolves_fun _ _ _ _ _ Ws MP' R' R). exact Hb.
    Qed.
    Lemma conn_becomes q a b pa pb : declared_conn sm q a b -> resolves_to sm (dotted q a) pa -> resolves_to sm (dotted q b) pb ->
      exists PA PB, resolves_to m (dotted (p ++ q) a) PA /\ resolves_to m (dotted (p ++ q) b) PB /\ becomes pa PA /\ becomes pb PB.
    Proof.
      intros Hd Ra Rb. destruct (AC _ _ _ (conn_up _ _ _ Hd)) as (PA & PB & RA & RB & _). exists PA, PB.
      split; [exact RA|]. split; [exact RB|]. split; eapply resolved_at; eassumption.
    Qed.
    Lemma sub_not_targets : inputs_not_targets h um m -> inputs_not_targets h sum sm.
    Proof.
      intros TI q o pn (q0 & a & b & Hd & Rb) Hc. destruct (AC _ _ _ (conn_up _ _ _ Hd)) as (PA & PB & RA & RB & _).
      pose proof (resolved_at _ _ _ _ RB Rb) as Hb. apply (TI (p ++ q) o PB); [|eapply called_as; eassumption]. exists (p ++ q0), a, b. split; [apply conn_up, Hd|exact RB].
    Qed.
    Section Values.
      Context {V : Type} (apply : nat -> list V -> nat -> V) (init : string -> V) (val : list string -> nat -> V) (SV : solves h um m apply init val).
      Lemma below_promoted q k o q' k' o' pn : occurs h sum q o -> occurs h sum q' o' -> called h sum sm q k o pn -> called h sum sm q' k' o' pn -> val (p ++ q) o = val (p ++ q') o'.
      Proof.
        intros Ho Ho' Hc Hc'. apply called_up in Hc. destruct Hc as (PN & Hb & Hc). eapply (s_promoted _ _ _ _ _ _ SV); [apply occurs_up, Ho|apply occurs_up, Ho'|exact Hc|]. eapply called_as; eassumption.
      Qed.
      Lemma below_connected q0 a b pa pb q k o q' k' o' : declared_conn sm q0 a b -> resolves_to sm (dotted q0 a) pa -> resolves_to sm (dotted q0 b) pb ->
        occurs h sum q o -> occurs h sum q' o' -> called h sum sm q k o pa -> called h sum sm q' k' o' pb -> val (p ++ q') o' = val (p ++ q) o.
      Proof.
        intros Hd Ra Rb Ho Ho' Hc Hc'. destruct (conn_becomes _ _ _ _ _ Hd Ra Rb) as (PA & PB & RA & RB & Ba & Bb).
        eapply (s_connected _ _ _ _ _ _ SV); [apply conn_up, Hd|exact RA|exact RB|apply occurs_up, Ho|apply occurs_up, Ho'|eapply called_as; eassumption|eapply called_as; eassumption].
      Qed.
      (** The values supplied to the submodel are those it has in the hierarchy. *)
      Lemma below_solves init' :
        (forall q o n, called h sum sm q KInput o n -> init' n = val (p ++ q) o) ->
        (forall q o n, occurs h sum q o -> called h sum sm q KDeclared o n -> unsupplied h sum sm n -> init' n = val (p ++ q) o) ->
        solves h sum sm apply init' (fun q o => val (p ++ q) o).
      Proof.
        intros I1 I2. split.
        - intros q o ob k v Ho E O Hk. apply (s_operations _ _ _ _ _ _ SV (p ++ q) o ob k v); try assumption. apply occurs_up, Ho.
        - exact below_promoted.
        - exact below_connected.
        - intros q o n Hc. symmetry. eapply I1, Hc.
        - intros q o n Ho Hc U1 U2. symmetry. eapply I2; [exact Ho|exact Hc|split; assumption].
      Qed.
    End Values.
  End Lift.
End S.

(** ** Compiled models *)
Lemma compiled_maps it h shp dflt um m c : compile_in it h shp dflt um m = Ok c -> exists mp, maps_of m = Ok mp.
Proof. intros H. unfold compile_in in H. apply inv_bind' in H. destruct H as (r & R & _). unfold maps_of. rewrite R. cbn [bind]. eauto. Qed.
Section C.
  Context (it : iteration) (h : list obj) (shp : nat -> shape) (dflt : nat -> bool) (um : umodel) (m : model) (c : compiled).
  Context (L : lawful it) (WF : well_formed h um m shp) (TI : inputs_not_targets h um m) (H : compile_in it h shp dflt um m = Ok c).
  Context (p : list string) (sum : umodel) (sm : model) (A : um_at um p sum) (B : sub_at m p sm).
  Lemma c_enforced : unique_sources m /\ (forall p a b, declared_conn m p a b -> connection_ok h shp um m p a b) /\ targets_distinct m /\
    options_ok m m_dvs /\ options_ok m m_cons /\ objective_ok m /\ exists rank, ranking h um m rank.
  Proof. destruct (@compile_in_compiles _ _ _ _ _ _ _ L H) as (c0 & K & _). exact (compiled_acceptable h shp dflt um m c0 WF TI K). Qed.
  Lemma c_sub_targets : inputs_not_targets h sum sm.
  Proof.
    destruct (compiled_maps _ _ _ _ _ _ _ H) as (mp & MP). destruct c_enforced as (_ & AC & _). destruct (lift_exists _ _ _ B) as (F & HF).
    eapply sub_not_targets; try eassumption.
  Qed.
  Section V.
    Context {V : Type} (apply : nat -> list V -> nat -> V) (init : string -> V).
    Lemma c_below_solves init' :
      (forall q o n, called h sum sm q KInput o n -> init' n = result h shp dflt apply init c (p ++ q) o) ->
      (forall q o n, occurs h sum q o -> called h sum sm q KDeclared o n -> unsupplied h sum sm n -> init' n = result h shp dflt apply init c (p ++ q) o) ->
      solves h sum sm apply init' (fun q o => result h shp dflt apply init c (p ++ q) o).
    Proof.
      destruct (compiled_maps _ _ _ _ _ _ _ H) as (mp & MP). destruct c_enforced as (_ & AC & _). destruct (lift_exists _ _ _ B) as (F & HF).
      intros I1 I2. eapply below_solves; try eassumption. apply (in_solves it h shp dflt um m c L WF TI H).
    Qed.
    Context (it' : iteration) (dflt' : nat -> bool) (c' : compiled) (L' : lawful it') (H' : compile_in it' h shp dflt' sum sm = Ok c').
    Lemma c_below init' q o :
      (forall q o n, called h sum sm q KInput o n -> init' n = result h shp dflt apply init c (p ++ q) o) ->
      (forall q o n, occurs h sum q o -> called h sum sm q KDeclared o n -> unsupplied h sum sm n -> init' n = result h shp dflt apply init c (p ++ q) o) ->
      occurs h sum q o -> variable h o -> result h shp dflt' apply init' c' q o = result h shp dflt apply init c (p ++ q) o.
    Proof.
      intros I1 I2 Ho Vo. pose proof (c_below_solves init' I1 I2) as S. symmetry.
      exact (in_unique it' h shp dflt' sum sm c' L' (sub_well_formed h shp um m p sum sm WF A B) c_sub_targets H' V apply init' _ S q o Ho Vo).
    Qed.
    (** There are such values. *)
    Definition seen (n : string) : V := match node_under c' n with Some (NObj q o) => result h shp dflt apply init c (p ++ q) o | _ => init n end.
    Lemma seen_value q k o n : occurs h sum q o -> called h sum sm q k o n -> seen n = result h shp dflt apply init c (p ++ q) o.
    Proof.
      pose proof (sub_well_formed h shp um m p sum sm WF A B) as WF'. pose proof c_sub_targets as TI'.
      destruct (compiled_maps _ _ _ _ _ _ _ H) as (mp & MP). destruct c_enforced as (_ & AC & _). destruct (lift_exists _ _ _ B) as (F & HF).
      intros Ho Hc. assert (Vo : variable h o) by exact (called_var h shp sum sm WF' q k o n Hc).
      unfold seen. rewrite (proj2 (node_under_iff it' h shp dflt' sum sm c' L' WF' TI' H' n (node_of h c' q o))) by eauto 6.
      destruct (d_kept it' h shp dflt' sum sm c' L' WF' TI' H' q o Ho Vo) as (q' & o' & E & Ho' & Vo' & _). rewrite E.
      pose proof (in_solves it h shp dflt um m c L WF TI H V apply init) as SV.
      refine (d_share it' h shp dflt' sum sm c' L' WF' TI' H' (fun q o => result h shp dflt apply init c (p ++ q') o' = result h shp dflt apply init c (p ++ q) o) _ _ q o q' o' Ho Vo E eq_refl).
      - intros q1 k1 o1 q2 k2 o2 pn H1 H2 C1 C2 ->. eapply below_promoted with (um := um) (m := m) (sum := sum) (sm := sm) (val := result h shp dflt apply init c) (o := o1) (o' := o2); eassumption.
      - intros q0 a b pa pb q1 k1 o1 q2 k2 o2 Hd Ra Rb H1 H2 C1 C2 ->. symmetry. eapply below_connected with (um := um) (m := m) (sum := sum) (sm := sm) (val := result h shp dflt apply init c) (o := o1) (o' := o2); eassumption.
    Qed.
  End V.
End C.

(** ** Acceptance *)
Definition under {B} (p : list string) (pm : list string * B) : list string * B := (p ++ fst pm, snd pm).
Lemma flat_map_in {A B} (f : A -> list B) l x : In x l -> exists l1 l2, flat_map f l = l1 ++ f x ++ l2.
Proof.
  induction l as [|y l IH]; [intros []|]. intros [->|Hi]; cbn [flat_map]; [exists [], (flat_map f l); reflexivity|].
  destruct (IH Hi) as (l1 & l2 & ->). exists (f y ++ l1), l2. rewrite <- app_assoc. reflexivity.
Qed.
Lemma postorder_sub m p sm : sub_at m p sm -> exists l1 l2, postorder m = l1 ++ map (under p) (postorder sm) ++ l2.
Proof.
  induction 1 as [m|m nm pr sm p m' Hi A (l1 & l2 & IH)].
  - exists [], []. rewrite app_nil_r. cbn [app]. symmetry. erewrite map_ext; [apply map_id|]. intros [q x]. reflexivity.
  - destruct m as [a b c d e f g subs]. cbn [m_subs] in Hi. cbn [postorder].
    destruct (flat_map_in (fun t => map (fun pm => (fst (fst t) :: fst pm, snd pm)) (postorder (snd t))) subs (nm, pr, sm) Hi) as (x1 & x2 & ->). cbn [fst snd].
    rewrite IH, !map_app, map_map. cbn [under fst snd]. rewrite <- !app_assoc. rewrite (app_assoc x1). eexists _, _. reflexivity.
Qed.
Lemma preorder_sub m p sm : sub_at m p sm -> exists l1 l2, preorder m = l1 ++ map (under p) (preorder sm) ++ l2.
Proof.
  induction 1 as [m|m nm pr sm p m' Hi A (l1 & l2 & IH)].
  - exists [], []. rewrite app_nil_r. cbn [app]. symmetry. erewrite map_ext; [apply map_id|]. intros [q x]. reflexivity.
  - destruct m as [a b c d e f g subs]. cbn [m_subs] in Hi. cbn [preorder].
    destruct (flat_map_in (fun t => map (fun pm => (fst (fst t) :: fst pm, snd pm)) (preorder (snd t))) subs (nm, pr, sm) Hi) as (x1 & x2 & ->). cbn [fst snd].
    rewrite IH, !map_app, map_map. cbn [under fst snd]. rewrite <- !app_assoc. rewrite (app_assoc x1). rewrite app_comm_cons. eexists _, _. reflexivity.
Qed.
Lemma conns_sub m p sm : sub_at m p sm -> exists l1 l2, conns_declared m = l1 ++ map (under p) (conns_declared sm) ++ l2.
Proof.
  intros B. destruct (postorder_sub _ _ _ B) as (l1 & l2 & E). unfold conns_declared. rewrite E, !flat_map_app. eexists _, _. f_equal. f_equal.
  generalize (postorder sm). clear. induction l as [|[q x] l IH]; [reflexivity|]. cbn [map flat_map under fst snd]. rewrite map_app, map_map, IH. reflexivity.
Qed.
Definition under3 (p : list string) (t : list string * model * string) : list string * model * string := ((p ++ fst (fst t), snd (fst t)), snd t).
Lemma opts_sub sel m p sm : sub_at m p sm -> exists l1 l2, opts_declared sel m = l1 ++ map (under3 p) (opts_declared sel sm) ++ l2.
Proof.
  intros B. destruct (preorder_sub _ _ _ B) as (l1 & l2 & E). unfold opts_declared. rewrite E, !flat_map_app. eexists _, _. f_equal. f_equal.
  generalize (preorder sm). clear. induction l as [|[q x] l IH]; [reflexivity|]. cbn [map flat_map under fst snd]. rewrite map_app, map_map, IH. reflexivity.
Qed.
Lemma Forall2_mid {A B} (R : A -> B -> Prop) l1 x l2 y : Forall2 R (l1 ++ x ++ l2) y -> NoDup y -> exists y', Forall2 R x y' /\ NoDup y'.
Proof.
  intros H N. apply Forall2_app_inv_l in H. destruct H as (y1 & y2 & _ & H & ->). apply Forall2_app_inv_l in H. destruct H as (y3 & y4 & H & _ & ->).
  exists y3. split; [exact H|]. clear H. revert N. clear. intros N. assert (G : forall (u v : list B), NoDup (u ++ v) -> NoDup u /\ NoDup v).
  { induction u as [|a u IH]; intros v K; [split; [constructor|exact K]|]. inversion K as [|? ? K1 K2]; subst. apply IH in K2. split; [constructor; [intros X; apply K1, in_app_iff; auto|]|]; apply K2. }
  apply G in N. apply (G y3 y4), N.
Qed.
Lemma Forall2_back {A B C} (R : A -> C -> Prop) (R' : A -> B -> Prop) (T : B -> C -> Prop) x y :
  (forall b c c', T b c -> T b c' -> c = c') -> (forall a c, In a x -> R a c -> exists b, R' a b /\ T b c) ->
  Forall2 R x y -> NoDup y -> exists z, Forall2 R' x z /\ NoDup z.
Proof.
  intros TF HR H N. assert (G : exists z, Forall2 R' x z /\ Forall2 T z y).
  { clear N. induction H as [|a c x y Hr H IH]; [exists []; split; constructor|]. destruct IH as (z & Z1 & Z2); [intros; apply HR; [right|]; assumption|].
    destruct (HR a c (or_introl eq_refl) Hr) as (b & B1 & B2). exists (b :: z). split; constructor; assumption. }
  destruct G as (z & Z1 & Z2). exists z. split; [exact Z1|]. clear Z1 H HR. induction Z2 as [|b c z y Hb Z2 IH]; [constructor|]. inversion N as [|? ? N1 N2]; subst. constructor; [|auto].
  intros Hi. apply N1. destruct (Forall2_In_l _ _ _ _ Z2 Hi) as (c' & Hi' & Hb'). rewrite (TF _ _ _ Hb Hb'). exact Hi'.
Qed.

Section Acc.
  Context (h : list obj) (shp : nat -> shape) (um : umodel) (m : model) (p : list string) (sum : umodel) (sm : model).
  Context (WF : well_formed h um m shp) (A : um_at um p sum) (B : sub_at m p sm).
  Let W : well_named m := f_named WF.
  Context (mp : maps) (MP : maps_of m = Ok mp).
  Lemma sub_acceptable : acceptable h shp um m -> (forall q a b, declared_conn sm q a b -> connection_ok h shp sum sm q a b) -> acceptable h shp sum sm.
  Proof.
    intros [US SA VP AC AT AD ACs AO (rank & K)] AC'. destruct (lift_exists _ _ _ B) as (F & HF).
    assert (BF : forall pn PN PN', becomes sm F pn PN -> becomes sm F pn PN' -> PN = PN') by (intros; eapply becomes_fun; eassumption).
    assert (OPT : forall sel, options_ok m sel -> options_ok sm sel).
    { intros sel (ns & HN & ND). destruct (opts_sub sel _ _ _ B) as (l1 & l2 & E). rewrite E in HN. destruct (Forall2_mid _ _ _ _ _ HN ND) as (ns' & HN' & ND').
      assert (HN2 : Forall2 (fun t n2 => exists n1, resolves_to (snd (fst t)) (snd t) n1 /\ resolves_to m (dotted (p ++ fst (fst t)) n1) n2) (opts_declared sel sm) ns').
      { revert HN'. generalize (opts_declared sel sm). clear. intros l HN. remember (map (under3 p) l) as l' eqn:E. revert l E.
        induction HN as [|t n l' ns Hr HN IH]; intros [|t' l] E; try discriminate; constructor; injection E as -> ->; [exact Hr|apply IH; reflexivity]. }
      refine (Forall2_back _ _ (becomes sm F) _ _ BF _ HN2 ND'). intros [[q m'] k] N2 _ (n1 & R1 & R2). cbn [fst snd] in *.
      rewrite <- (dotted_app p q n1 (names_nonempty _ (sub_at_names _ _ _ W B))) in R2. destruct (resolves_down h shp um m p sm WF B F HF _ _ R2) as (n2 & R2' & Hb). eauto. }
    split.
    - intros q1 q2 x s1 s2 r (k1 & K1 & V1) (k2 & K2 & V2) P1 P2. apply (app_inv_head p). eapply (US (p ++ q1) (p ++ q2) x s1 s2 (F x r)); eauto; [exists k1|exists k2]; (split; [assumption|]); eapply has_var_up; eassumption.
    - intros q1 q2 k1 k2 x s1 s2 r V1 V2 P1 P2. eapply (SA (p ++ q1) (p ++ q2) k1 k2 x s1 s2 (F x r)); eauto using has_var_up.
    - intros q m' nm l sm' x Hs. apply (VP (p ++ q)). eapply sub_at_app; eassumption.
    - exact AC'.
    - destruct AT as (pns & HN & ND). destruct (conns_sub _ _ _ B) as (l1 & l2 & E). rewrite E in HN. destruct (Forall2_mid _ _ _ _ _ HN ND) as (ns' & HN' & ND').
      assert (HN2 : Forall2 (fun t pn => resolves_to m (dotted (p ++ fst t) (snd (snd t))) pn) (conns_declared sm) ns').
      { revert HN'. generalize (conns_declared sm). clear. intros l HN. remember (map (under p) l) as l' eqn:E. revert l E.
        induction HN as [|t n l' ns Hr HN IH]; intros [|t' l] E; try discriminate; constructor; injection E as -> ->; [exact Hr|apply IH; reflexivity]. }
      refine (Forall2_back _ _ (becomes sm F) _ _ BF _ HN2 ND'). intros [q [a b]] N2 _ R2. cbn [fst snd] in *.
      rewrite <- (dotted_app p q b (names_nonempty _ (sub_at_names _ _ _ W B))) in R2. destruct (resolves_down h shp um m p sm WF B F HF _ _ R2) as (n2 & R2' & Hb). eauto.
    - apply OPT, AD.
    - apply OPT, ACs.
    - unfold objective_ok in *. destruct (preorder_sub _ _ _ B) as (l1 & l2 & E). rewrite E, !filter_app in AO.
      set (f := fun pm : list string * model => match m_obj (snd pm) with Some _ => true | None => false end) in *.
      assert (EF : filter f (map (under p) (preorder sm)) = map (under p) (filter f (preorder sm))).
      { generalize (preorder sm). clear. induction l as [|[q x] l IH]; [reflexivity|]. cbn [map filter]. change (f (under p (q, x))) with (f (q, x)). rewrite IH. destruct (f (q, x)); reflexivity. }
      rewrite EF in AO. destruct (filter f (preorder sm)) as [|[q m'] [|y l]] eqn:EE; [exact I| |].
      + assert (E0 : filter f l1 ++ map (under p) [(q, m')] ++ filter f l2 = [(p ++ q, m')]).
        { cbn [map under fst snd app] in *. destruct (filter f l1) as [|y1 l1']; [|exfalso; destruct y1 as [yp ym]; cbn in AO; destruct l1'; exact AO]. cbn [app] in *. destruct (filter f l2) as [|y2 l2']; [reflexivity|exfalso; exact AO]. }
        rewrite E0 in AO. destruct AO as (k & n1 & N2 & E1 & R1 & R2). rewrite <- (dotted_app p q n1 (names_nonempty _ (sub_at_names _ _ _ W B))) in R2.
        destruct (resolves_down h shp um m p sm WF B F HF _ _ R2) as (n2 & R2' & Hb). eauto 10.
      + exfalso. cbn [map under fst snd app] in AO. destruct (filter f l1) as [|[yp ym] [|y1 l1']]; exact AO.
    - exists (fun q o => rank (p ++ q) o). destruct K as [K1 K2 K3 K4]. split.
      + intros q o d Ho. apply K1. eapply occurs_up; eassumption.
      + intros q o v Ho. apply K2. eapply occurs_up; eassumption.
      + intros q k o q' k' o' pn Ho Ho' Hc Hc'. destruct (called_up h shp um m p sum sm WF A B F HF _ _ _ _ Hc) as (PN & Hb & HC).
        eapply (K3 _ _ _ _ _ _ PN); [eapply occurs_up; eassumption|eapply occurs_up; eassumption|exact HC|]. eapply called_as; eassumption.
      + intros q0 a b pa pb q k o q' k' o' Hd Ra Rb Ho Ho' Hc Hc'. destruct (conn_becomes h shp um m p sm WF B F HF mp MP AC _ _ _ _ _ Hd Ra Rb) as (PA & PB & RA & RB & Ba & Bb).
        eapply (K4 (p ++ q0) a b PA PB); [eapply conn_up; eassumption|exact RA|exact RB|eapply occurs_up; eassumption|eapply occurs_up; eassumption|eapply called_as; eassumption|eapply called_as; eassumption].
  Qed.
End Acc.
