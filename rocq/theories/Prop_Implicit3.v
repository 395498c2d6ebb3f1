(** Property theorem C98: exactly when the dependencies recorded for a residual are complete. *)
From Verif Require Import PyBase NamesModel NamesProofs PromotionsModel PromotionsSpec HierModel HierSpec ExprModel ExprSpec UnflatModel UnflatSpec FlattenSpec
  CompileModel CompileSpec CompileProofs Prop_Compile WorldModel WorldSpec WorldProofs Prop_World ApiModel
  ExprProofs2 ImplicitModel ImplicitSpec ImplicitSpec2 ImplicitProofs ImplicitProofs2 ImplicitValues Prop_Implicit Prop_Implicit2
  IterModel IterSpec IterProofs Prop_Iter LookupProofs DependSpec DependProofs Prop_Depend.
Local Open Scope string_scope.
Local Open Scope list_scope.

Lemma registered_occurs l shp f k w um m n r : let h := w_heap (whistory l) in
  follows_rules l -> finished l -> nth_error (w_models (whistory l)) k = Some w -> tree f (whistory l) shp k = Some (um, m) ->
  registered (internal_model l shp w) n r -> occurs h um [] r /\ variable h r.
Proof.
  intros h FR FI W T (a & b & E & _). pose proof (c89_well_formed _ _ _ _ _ _ FR FI T) as WF. fold h in WF.
  destruct (tree_root _ _ _ _ _ _ _ W T) as [subs ->]. cbn in E.
  assert (Ir : In r (wm_outs w)) by (rewrite E; apply in_app_iff; right; now left).
  split; [apply here_occurs; right; now apply needed_leaf|].
  assert (OO : output_object h r).
  { pose proof (f_hierarchy WF) as H. inversion H as [? ? ? ? ? _ F _ _ _]; subst. apply In_nth_error in Ir as [i Ei].
    destruct (Forall2_left _ _ _ _ _ F Ei) as (y & _ & O & _). exact O. }
  destruct OO as (ob & Eo & K). exists ob. split; [exact Eo|].
  unfold is_op. destruct K as [-> | ->]; reflexivity.
Qed.

Lemma residual_registered im args states residuals expose mp s r : generate_maps im args states residuals expose = Ok mp ->
  dget (out_res mp) s = Some r -> exists rn, registered im rn r.
Proof.
  intros G Er. destruct (generate_maps_Ok _ _ _ _ _ _ G) as [A R].
  assert (Is : In s states) by (rewrite <- (rec_states _ _ _ _ _ _ R); eapply dget_Some_key; exact Er).
  apply In_nth_error in Is as Ns. destruct Ns as [j Ej].
  assert (Lj : j < length residuals). { rewrite <- (as_many _ _ _ _ _ A). apply nth_error_Some. congruence. }
  apply nth_error_Some in Lj. destruct (nth_error residuals j) as [rn|] eqn:Erj; [|congruence].
  destruct (states_declared _ _ _ _ _ A s Is) as [sv Hsv].
  destruct (residuals_registered _ _ _ _ _ A rn (nth_error_In _ _ Erj)) as [rv Hrv].
  assert (SP : state_pair im states residuals s rn sv rv) by (exists j; auto).
  destruct (rec_pairs _ _ _ _ _ _ R _ _ _ _ SP) as [P1 _]. rewrite Er in P1. injection P1 as <-. eauto.
Qed.

(** C98: the names recorded for a residual (or an exposed variable) are complete - changing
    arguments and states that are not recorded never changes its value, whatever the operations
    are - exactly when the internal model makes it from no other argument or state. *)
Theorem c98_exact : forall it l shp dflt f k w um m c args states residuals expose mp,
  let h := w_heap (whistory l) in
  lawful it -> follows_rules l -> finished l -> nth_error (w_models (whistory l)) k = Some w ->
  tree f (whistory l) shp k = Some (um, m) -> inputs_not_targets h um m -> compile_in it h shp dflt um m = Ok c ->
  generate_maps (internal_model l shp w) args states residuals expose = Ok mp ->
  forall r deps,
  (exists s, dget (out_res mp) s = Some r /\ dget (out_in mp) s = Some deps) \/
  (exists e, In e expose /\ registered (internal_model l shp w) e r /\ dget (exp_in mp) e = Some deps) ->
  ((forall V (apply : nat -> list V -> nat -> V) init init',
      (forall n, ~ In n (map fst args) -> ~ In n states -> init n = init' n) ->
      (forall v, In v deps -> init (name_of h v) = init' (name_of h v)) ->
      result h shp dflt apply init c [] r = result h shp dflt apply init' c [] r)
   <-> (forall n, In n (map fst args) \/ In n states -> depends h um m [] r n -> exists v, In v deps /\ name_of h v = n)).
Proof.
  intros it l shp dflt f k w um m c args states residuals expose mp h L FR FI W T TI CO G r deps Hr.
  pose proof (c89_well_formed _ _ _ _ _ _ FR FI T) as WF. fold h in WF.
  assert (Occ : occurs h um [] r /\ variable h r).
  { destruct Hr as [(s & Er & _)|(e & _ & Re & _)]; [|exact (registered_occurs l shp f k w um m e r FR FI W T Re)].
    destruct (residual_registered _ _ _ _ _ _ _ _ G Er) as (rn & Hrv).
    exact (registered_occurs l shp f k w um m rn r FR FI W T Hrv). }
  destruct Occ as [Ho Vo]. split.
  - intros Same n Hn D. destruct (in_dec string_dec n (map (name_of h) deps)) as [I|N].
    { apply in_map_iff in I. destruct I as (v & E & I). eauto. }
    exfalso. apply (c106_exact it h shp dflt um m c L WF TI CO [] r n Ho Vo) in D. destruct D as (V & apply & init & init' & val & val' & S & S' & Q & Neq).
    apply Neq. rewrite (in_unique it h shp dflt um m c L WF TI CO V apply init val S [] r Ho Vo), (in_unique it h shp dflt um m c L WF TI CO V apply init' val' S' [] r Ho Vo).
    apply (Same V apply init init').
    + intros x N1 N2. apply Q. intros ->. tauto.
    + intros v Hv. apply Q. intros E. apply N. rewrite <- E. now apply in_map.
  - intros Full V apply init init' Q1 Q2.
    apply (c106_values V it h shp dflt um m c apply init init' _ _ L WF TI CO (in_solves it h shp dflt um m c L WF TI CO V apply init) (in_solves it h shp dflt um m c L WF TI CO V apply init') [] r Ho Vo).
    intros n D. destruct (in_dec string_dec n (map fst args)) as [I1|N1]; [destruct (Full n (or_introl I1) D) as (v & Hv & <-); now apply Q2|].
    destruct (in_dec string_dec n states) as [I2|N2]; [destruct (Full n (or_intror I2) D) as (v & Hv & <-); now apply Q2|]. now apply Q1.
Qed.
Print Assumptions c98_exact.

(** C98: conversely, what is recorded is a true dependency, as far as it is given from outside: the
    residual is made from the value supplied for its name. *)
Theorem c98_recorded_is_used_partial : forall it l shp dflt f k w um m c args states residuals expose mp,
  let h := w_heap (whistory l) in
  lawful it -> follows_rules l -> finished l -> nth_error (w_models (whistory l)) k = Some w ->
  tree f (whistory l) shp k = Some (um, m) -> inputs_not_targets h um m -> compile_in it h shp dflt um m = Ok c ->
  generate_maps (internal_model l shp w) args states residuals expose = Ok mp ->
  forall r deps v,
  (exists s, dget (out_res mp) s = Some r /\ dget (out_in mp) s = Some deps) \/
  (exists e, In e expose /\ registered (internal_model l shp w) e r /\ dget (exp_in mp) e = Some deps) ->
  In v deps -> supplied h um m v -> depends h um m [] r (name_of h v).
Proof.
  intros it l shp dflt f k w um m c args states residuals expose mp h L FR FI W T TI CO G r deps v Hr Iv (n & Nn & Only & NT).
  pose proof (c89_well_formed _ _ _ _ _ _ FR FI T) as WF. fold h in WF.
  destruct (generate_maps_Ok _ _ _ _ _ _ G) as [A R].
  assert (Q : exists rn, registered (internal_model l shp w) rn r /\ inputs_of h r v).
  { destruct Hr as [(s & Er & Ed)|(e & Ie & Re & Ed)].
    - assert (Is : In s states) by (rewrite <- (rec_states _ _ _ _ _ _ R); eapply dget_Some_key; exact Er).
      apply In_nth_error in Is as Ns. destruct Ns as [j Ej].
      assert (Lj : j < length residuals). { rewrite <- (as_many _ _ _ _ _ A). apply nth_error_Some. congruence. }
      apply nth_error_Some in Lj. destruct (nth_error residuals j) as [rn|] eqn:Erj; [|congruence].
      destruct (states_declared _ _ _ _ _ A s Is) as [sv Hsv].
      destruct (residuals_registered _ _ _ _ _ A rn (nth_error_In _ _ Erj)) as [rv Hrv].
      assert (SP : state_pair (internal_model l shp w) states residuals s rn sv rv) by (exists j; auto).
      destruct (rec_pairs _ _ _ _ _ _ R _ _ _ _ SP) as [P1 _]. rewrite Er in P1. injection P1 as <-.
      destruct (rec_inputs _ _ _ _ _ _ R _ _ _ _ SP) as (l0 & E0 & H0). rewrite Ed in E0. injection E0 as <-.
      exists rn. split; [exact Hrv|]. apply H0, Iv.
    - destruct (rec_exposed _ _ _ _ _ _ R _ _ Ie Re) as (l0 & E0 & H0). rewrite Ed in E0. injection E0 as <-. exists e. split; [exact Re|]. apply H0, Iv. }
  destruct Q as (rn & Rr & U & Lf). destruct (registered_occurs l shp f k w um m rn r FR FI W T Rr) as [_ Vr]. fold h in Vr.
  destruct Rr as (a & b & Eo & _). cbn in Eo. destruct (tree_root _ _ _ _ _ _ _ W T) as [subs ->].
  assert (Ir : In r (wm_outs w)) by (rewrite Eo; apply in_app_iff; right; now left). clear Eo.
  set (um := UM (wm_ins w) (wm_outs w) (wm_decls w) subs) in *.
  assert (Step : forall x y, needed h (wm_outs w) x -> variable h x -> step h x y ->
            (needed h (wm_outs w) y /\ variable h y) /\ (depends h um m [] y n -> depends h um m [] x n)).
  { intros x y Nx Vx St. split; [eapply needed_step; [exact WF|exact Ir|right; exact Nx|exact Vx|exact St]|].
    destruct St as (o & Io & Iy). apply deps_reads in Io, Iy. intros Dy. eapply dep_operation; [|exact Iy|apply (f_listed WF o x Vx), Io|exact Dy].
    apply here_occurs. right. eapply needed_dep; eassumption. }
  assert (Uses : forall self x y, uses h self x y -> needed h (wm_outs w) x -> variable h x ->
            (needed h (wm_outs w) y /\ variable h y) /\ (depends h um m [] y n -> depends h um m [] x n)).
  { intros self x y Hu. induction Hu as [x y St _|x y z _ IH St _]; intros Nx Vx; [now apply Step|].
    destruct (IH Nx Vx) as [[Ny Vy] Dy]. destruct (Step y z Ny Vy St) as [Hz Dz]. split; [exact Hz|auto]. }
  destruct (Uses _ _ _ U (needed_leaf _ _ _ Ir) Vr) as [[Nv Vv] Dv].
  rewrite (named_name_of _ _ _ Nn). apply Dv.
  assert (Hv : here h (wm_ins w) (wm_outs w) v) by (right; exact Nv).
  assert (Lc : In v (wm_ins w) \/ In v (wm_decls w)).
  { destruct (proj1 (c99_same_acceptance it insertion_order h shp dflt um m WF TI L insertion_lawful) (ex_intro _ c CO)) as (c0 & C0). rewrite compile_in_default in C0.
    eapply (leaf_declared h shp dflt m c0); eassumption. }
  destruct Lc as [I|I].
  - apply dep_input. exists n, []. split; [|split; [constructor|reflexivity]]. split; [exact Nn|]. exists (wm_ins w), (wm_outs w), (wm_decls w), subs. split; [constructor|exact I].
  - apply dep_free; [apply here_occurs, Hv| |split; assumption].
    exists n, []. split; [|split; [constructor|reflexivity]]. split; [exact Nn|]. exists (wm_ins w), (wm_outs w), (wm_decls w), subs. split; [constructor|exact I].
Qed.
Print Assumptions c98_recorded_is_used_partial.

(** C98, the positive theorem in every iteration order: partial as before. *)
Theorem c98_every_order_partial : forall V it l shp dflt f k w um m c (apply : nat -> list V -> nat -> V) init init' args states residuals expose mp,
  let h := w_heap (whistory l) in
  lawful it -> follows_rules l -> finished l -> nth_error (w_models (whistory l)) k = Some w ->
  tree f (whistory l) shp k = Some (um, m) -> inputs_not_targets h um m -> compile_in it h shp dflt um m = Ok c ->
  generate_maps (internal_model l shp w) args states residuals expose = Ok mp ->
  (forall n, ~ In n (map fst args) -> ~ In n states -> init n = init' n) ->
  (forall s r deps, dget (out_res mp) s = Some r -> dget (out_in mp) s = Some deps ->
     (forall v, inputs_of h r v -> supplied h um m v) ->
     (forall v, In v deps -> init (name_of h v) = init' (name_of h v)) ->
     result h shp dflt apply init c [] r = result h shp dflt apply init' c [] r) /\
  (forall e r deps, In e expose -> registered (internal_model l shp w) e r -> dget (exp_in mp) e = Some deps ->
     (forall v, inputs_of h r v -> supplied h um m v) ->
     (forall v, In v deps -> init (name_of h v) = init' (name_of h v)) ->
     result h shp dflt apply init c [] r = result h shp dflt apply init' c [] r).
Proof.
  intros V it l shp dflt f k w um m c apply init init' args states residuals expose mp h L FR FI W T TI CO G Same.
  pose proof (c89_well_formed _ _ _ _ _ _ FR FI T) as WF. fold h in WF.
  destruct (proj1 (c99_same_acceptance it insertion_order h shp dflt um m WF TI L insertion_lawful) (ex_intro _ c CO)) as (c0 & C0).
  pose proof C0 as C1. rewrite compile_in_default in C1.
  destruct (c98_recorded_dependencies_partial V l shp dflt f k w um m c0 apply init init' args states residuals expose mp FR FI W T TI C1 G Same) as [A B]. fold h in A, B.
  assert (X : forall n r i, registered (internal_model l shp w) n r -> result h shp dflt apply i c [] r = result h shp dflt apply i c0 [] r).
  { intros n r i Hr. destruct (registered_occurs l shp f k w um m n r FR FI W T Hr) as [Ho Vo].
    exact (c99_same_values V it insertion_order h shp dflt um m c c0 apply i WF TI L insertion_lawful CO C0 [] r Ho Vo). }
  split.
  - intros s r deps E1 E2 Hs He. destruct (residual_registered _ _ _ _ _ _ _ _ G E1) as (rn & Hr). rewrite !(X rn r) by exact Hr. eapply A; eassumption.
  - intros e r deps E1 Hr E2 Hs He. rewrite !(X e r) by exact Hr. eapply B; eassumption.
Qed.
Print Assumptions c98_every_order_partial.

(** A case of c98_exact in which the recorded names are not complete: [with_sub], compiled in the
    opposite order; r is made from the argument a, which is not recorded. *)
Example c98_exact_nonvacuous : exists w um m c mp r deps,
  let h := w_heap (whistory with_sub) in
  lawful backwards /\ follows_rules with_sub /\ finished with_sub /\ nth_error (w_models (whistory with_sub)) 0 = Some w /\
  tree 2 (whistory with_sub) ones 0 = Some (um, m) /\ inputs_not_targets h um m /\ compile_in backwards h ones not_given um m = Ok c /\
  generate_maps (internal_model with_sub ones w) [("a", [1])] ["x"] ["r"] [] = Ok mp /\
  dget (out_res mp) "x" = Some r /\ dget (out_in mp) "x" = Some deps /\ map (name_of h) deps = ["x"] /\ depends h um m [] r "a".
Proof.
  let s := eval vm_compute in sub_root in match s with (?um, ?m) =>
  let t := eval vm_compute in (compile_in backwards (w_heap (whistory with_sub)) ones not_given um m) in match t with Ok ?c =>
    eexists _, um, m, c, _, _, _; assert (RT : sub_root = (um, m)) by (vm_compute; reflexivity) end end. cbn zeta.
  pose proof with_sub_no_targets as TI. rewrite RT in TI. cbn [fst snd] in TI.
  split; [exact backwards_lawful|]. split; [exact with_sub_rules|]. split; [exact with_sub_finished|]. split; [vm_compute; reflexivity|].
  match goal with |- ?A /\ _ => assert (T : A) by (vm_compute; reflexivity) end. split; [exact T|].
  split; [exact TI|].
  match goal with |- ?A /\ _ => assert (CO : A) by (vm_compute; reflexivity) end. split; [exact CO|].
  split; [vm_compute; reflexivity|]. split; [vm_compute; reflexivity|]. split; [vm_compute; reflexivity|]. split; [vm_compute; reflexivity|].
  pose proof (c89_well_formed _ _ _ _ _ _ with_sub_rules with_sub_finished T) as WF.
  match type of CO with compile_in _ ?h _ _ ?um ?m = Ok ?c =>
    pose proof (in_solves backwards h ones not_given um m c backwards_lawful WF TI CO nat sums zeros) as S;
    pose proof (in_solves backwards h ones not_given um m c backwards_lawful WF TI CO nat sums a_is_one) as S' end.
  eapply (c106_exact backwards _ ones not_given _ _ _ backwards_lawful WF TI CO).
  - eexists _, _, _, _. split; [constructor|]. right. apply needed_leaf. now left.
  - eexists. split; [vm_compute; reflexivity|reflexivity].
  - exists nat, sums, zeros, a_is_one. eexists _, _. split; [exact S|]. split; [exact S'|].
    split. { intros n Hn. unfold zeros, a_is_one. destruct (String.eqb_spec n "a"); [contradiction|reflexivity]. }
    vm_compute. discriminate.
Qed.
