(** A consistently renamed hierarchy satisfies the same rules. *)
From Verif Require Import PyBase NamesModel PromotionsModel PromotionsSpec PromotionsProofs HierModel HierSpec ExprModel UnflatModel UnflatSpec
  FlattenModel FlattenSpec FlattenProofs3 CompileModel CompileSpec AcceptSpec LinkSpec RenameSpec RenameProofs ConsistentSpec ConsistentProofs.
Local Open Scope list_scope.

Lemma flat_map_map {A B C} (f : B -> list C) (g : A -> B) l : flat_map f (map g l) = flat_map (fun x => f (g x)) l.
Proof. induction l as [|x l IH]; [reflexivity|]. cbn. now rewrite IH. Qed.
Lemma map_flat_map {A B C} (f : B -> C) (g : A -> list B) l : map f (flat_map g l) = flat_map (fun x => map f (g x)) l.
Proof. induction l as [|x l IH]; [reflexivity|]. cbn. now rewrite map_app, IH. Qed.
Lemma flat_map_ext_in {A B} (f g : A -> list B) l : (forall x, In x l -> f x = g x) -> flat_map f l = flat_map g l.
Proof. induction l as [|x l IH]; intros E; [reflexivity|]. cbn. rewrite (E x) by now left. rewrite IH; [reflexivity|]. intros y Hy. apply E. now right. Qed.

Section Rules.
  Context (r s : string -> string) (RN : renaming r s).
  Notation rm := (rename_model r).
  Definition rnp (pm : list string * model) : list string * model := (map r (fst pm), rm (snd pm)).
  Lemma ren_postorder m : postorder (rm m) = map rnp (postorder m).
  Proof.
    induction m as [m IH] using model_ind'. destruct m as [ins outs decl conns dvs csts obj subs]; cbn [m_subs] in IH. cbn [rename_model postorder]. rewrite map_app. f_equal.
    rewrite flat_map_map, map_flat_map. apply flat_map_ext_in. intros [[n pr] sm] Hi. cbn [fst snd]. rewrite (IH _ _ _ Hi), !map_map. apply map_ext. intros [p y]. reflexivity.
  Qed.
  Lemma ren_preorder m : preorder (rm m) = map rnp (preorder m).
  Proof.
    induction m as [m IH] using model_ind'. destruct m as [ins outs decl conns dvs csts obj subs]; cbn [m_subs] in IH. cbn [rename_model preorder map]. f_equal.
    rewrite flat_map_map, map_flat_map. apply flat_map_ext_in. intros [[n pr] sm] Hi. cbn [fst snd]. rewrite (IH _ _ _ Hi), !map_map. apply map_ext. intros [p y]. reflexivity.
  Qed.
  Lemma ren_conns_declared m : conns_declared (rm m) = map (fun t => (map r (fst t), (r (fst (snd t)), r (snd (snd t))))) (conns_declared m).
  Proof.
    unfold conns_declared. rewrite ren_postorder, flat_map_map, map_flat_map. apply flat_map_ext_in. intros [p y] _. cbn [rnp fst snd]. rewrite !map_map. destruct y as [i o d cs dv cn ob su]. cbn. rewrite map_map. reflexivity.
  Qed.
  Lemma ren_opts sel m : (forall m, sel (rm m) = map r (sel m)) -> opts_declared sel (rm m) = map (fun t => (map r (fst (fst t)), rm (snd (fst t)), r (snd t))) (opts_declared sel m).
  Proof.
    intros SL. unfold opts_declared. rewrite ren_preorder, flat_map_map, map_flat_map. apply flat_map_ext_in. intros [p y] _. cbn [rnp fst snd]. rewrite SL, !map_map. reflexivity.
  Qed.
  Lemma nodup_map l : NoDup l -> NoDup (map r l).
  Proof. intros D. apply FinFun.Injective_map_NoDup; [|exact D]. intros x y. apply (ren_inj r s RN). Qed.

  Context (h h' : list obj) (shp : nat -> shape) (um : umodel) (m : model) (WF : well_formed h um m shp) (RO : renamed_objects r h h' um).
  Let SN : renaming s r := renaming_sym r s RN.
  Let BO : renamed_objects s h' h (rename_um r um) := renamed_back r s h h' um m shp RN WF RO.
  Lemma back_m : rename_model s (rm m) = m. Proof. apply (rename_back r s RN). Qed.
  Lemma back_um : rename_um s (rename_um r um) = um. Proof. apply (rename_um_back r s RN). Qed.
  Lemma path_back p : map r (map s p) = p. Proof. apply (map_back s r SN). Qed.
  Lemma b_has_var p k x t : has_var (rm m) p k x t -> has_var m (map s p) k (s x) t.
  Proof. intros Hv. apply (ren_has_var s) in Hv. now rewrite back_m in Hv. Qed.
  Lemma b_promoted p x q : promoted_ns (rm m) p x q -> promoted_ns m (map s p) (s x) (map s q).
  Proof. intros P. apply (ren_promoted s r SN) in P. now rewrite back_m in P. Qed.
  Lemma b_resolves f n : resolves_to (rm m) f n -> resolves_to m (s f) (s n).
  Proof. intros R. apply (ren_resolves s r SN) in R. now rewrite back_m in R. Qed.
  Lemma b_conn p a b : declared_conn (rm m) p a b -> declared_conn m (map s p) (s a) (s b).
  Proof. intros D. apply (ren_conn s) in D. now rewrite back_m in D. Qed.
  Lemma b_occurs p o : occurs h' (rename_um r um) p o -> occurs h um (map s p) o.
  Proof. intros O. apply (ren_occurs s h' h (rename_um r um) BO) in O. now rewrite back_um in O. Qed.
  Lemma b_called p k o n : called h' (rename_um r um) (rm m) p k o n -> called h um m (map s p) k o (s n).
  Proof. intros C. apply (ren_called s r SN h' h (rename_um r um) BO) in C. now rewrite back_m, back_um in C. Qed.
  Lemma b_parts p x : s (dotted p x) = dotted (map s p) (s x).
  Proof. apply (rn_parts _ _ SN). Qed.
  Lemma b_linked p o q u : linked h' (rename_um r um) (rm m) (map r p) o (map r q) u -> linked h um m p o q u.
  Proof. intros K. apply (ren_linked s r SN h' h (rename_um r um) BO) in K. now rewrite back_m, back_um, !(map_back r s RN) in K. Qed.

  Lemma ren_targets : inputs_not_targets h um m -> inputs_not_targets h' (rename_um r um) (rm m).
  Proof.
    intros TI p o n (p0 & a & b & D & R) C. apply (TI (map s p) o (s n)); [|now apply b_called]. exists (map s p0), (s a), (s b). split; [now apply b_conn|]. apply b_resolves in R. now rewrite b_parts in R.
  Qed.
  Lemma ren_sources : unique_sources m -> unique_sources (rm m).
  Proof.
    intros US p1 p2 x s1 s2 q (k1 & S1 & V1) (k2 & S2 & V2) P1 P2. rewrite <- (path_back p1), <- (path_back p2). f_equal. eapply US; [exists k1; split; [exact S1|apply b_has_var; exact V1]|exists k2; split; [exact S2|apply b_has_var; exact V2]| |]; apply b_promoted; eassumption.
  Qed.
  Lemma ren_sizes : sizes_agree m -> sizes_agree (rm m).
  Proof. intros SA p1 p2 k1 k2 x s1 s2 q V1 V2 P1 P2. eapply SA; [apply b_has_var; exact V1|apply b_has_var; exact V2| |]; apply b_promoted; eassumption. Qed.
  Lemma ren_valid : valid_promotes m -> valid_promotes (rm m).
  Proof.
    intros VP p y nm l sm x A Hi Hx. apply (ren_sub_at s) in A. rewrite back_m in A. apply (ren_in_subs s) in Hi. cbn [option_map] in Hi.
    destruct (VP _ _ _ _ _ (s x) A Hi (in_map s _ _ Hx)) as (pv & k & t & V & P).
    apply (ren_has_var r) in V. apply (ren_promoted r s RN) in P. rewrite (rename_back s r SN), (rn_forth _ _ RN) in V, P. cbn [map] in P. eauto.
  Qed.
  Lemma ren_connection p a b : connection_ok h shp um m p a b -> connection_ok h' shp (rename_um r um) (rm m) (map r p) (r a) (r b).
  Proof.
    intros (pa & pb & Ra & Rb & On & ps & ks & os & pt & ot & Cs & Ks & Ot & Ct & E). apply (ren_resolves r s RN) in Ra, Rb. rewrite (rn_parts _ _ RN) in Ra, Rb.
    exists (r pa), (r pb). split; [exact Ra|]. split; [exact Rb|]. split.
    - intros p' k' o' C. apply b_called in C. rewrite (rn_back _ _ RN) in C. eapply On, C.
    - exists (map r ps), ks, os, (map r pt), ot. split; [now apply (ren_called r s RN h h' um RO)|]. split; [exact Ks|]. split; [now apply (ren_occurs r h h' um RO)|]. split; [now apply (ren_called r s RN h h' um RO)|exact E].
  Qed.
  Lemma ren_targets_distinct : targets_distinct m -> targets_distinct (rm m).
  Proof.
    intros (ns & F & D). exists (map r ns). split; [|now apply nodup_map]. rewrite ren_conns_declared. clear D. induction F as [|t n l l' Hn _ IH]; [constructor|]. cbn [map]. constructor; [|exact IH]. cbn [fst snd].
    apply (ren_resolves r s RN) in Hn. now rewrite (rn_parts _ _ RN) in Hn.
  Qed.
  Lemma ren_options sel : (forall m, sel (rm m) = map r (sel m)) -> options_ok m sel -> options_ok (rm m) sel.
  Proof.
    intros SL (ns & F & D). exists (map r ns). split; [|now apply nodup_map]. rewrite (ren_opts sel m SL). clear D. induction F as [|t n l l' (n1 & R1 & R2) _ IH]; [constructor|]. cbn [map]. constructor; [|exact IH]. cbn [fst snd].
    exists (r n1). split; [now apply (ren_resolves r s RN)|]. apply (ren_resolves r s RN) in R2. now rewrite (rn_parts _ _ RN) in R2.
  Qed.
  Lemma ren_objective : objective_ok m -> objective_ok (rm m).
  Proof.
    unfold objective_ok. rewrite ren_preorder.
    assert (E : forall l, filter (fun pm => match m_obj (snd pm) with Some _ => true | None => false end) (map rnp l) = map rnp (filter (fun pm => match m_obj (snd pm) with Some _ => true | None => false end) l)).
    { induction l as [|[p y] l IH]; [reflexivity|]. cbn [map filter rnp fst snd]. destruct y as [i o d cs dv cn [ob|] su]; cbn; rewrite IH; reflexivity. }
    rewrite E. destruct (filter _ (preorder m)) as [|[p y] [|z l]]; cbn [map rnp fst snd]; [auto| |auto].
    intros (k & n1 & n2 & O & R1 & R2). exists (r k), (r n1), (r n2). split; [destruct y; cbn in *; now rewrite O|]. split; [now apply (ren_resolves r s RN)|]. apply (ren_resolves r s RN) in R2. now rewrite (rn_parts _ _ RN) in R2.
  Qed.
  Lemma ren_ranking rank : ranking h um m rank -> ranking h' (rename_um r um) (rm m) (fun p => rank (map s p)).
  Proof.
    intros [K1 K2 K3 K4]. pose proof (objects_sym _ _ (proj1 RO)) as SO. split.
    - intros p o d Ho (ob & E & O) Hr. apply K1; [now apply b_occurs| |eapply reads_same; eassumption]. destruct (objects_at _ _ SO _ _ E) as (ob' & E' & Sb). exists ob'. split; [exact E'|]. now rewrite <- (same_is_op _ _ Sb).
    - intros p o v Ho Hw. apply K2; [now apply b_occurs|eapply writes_same; eassumption].
    - intros p k o p' k' o' n Ho Ho' C C'. eapply K3; [now apply b_occurs|now apply b_occurs|apply b_called; exact C|apply b_called; exact C'].
    - intros p0 a b pa pb p k o p' k' o' D Ra Rb Ho Ho' C C'. apply b_conn in D. apply b_resolves in Ra, Rb. rewrite b_parts in Ra, Rb. eapply K4; [exact D|exact Ra|exact Rb|now apply b_occurs|now apply b_occurs|apply b_called; exact C|apply b_called; exact C'].
  Qed.
  Lemma ren_acceptable : acceptable h shp um m -> acceptable h' shp (rename_um r um) (rm m).
  Proof.
    intros [A1 A2 A3 A4 A5 A6 A7 A8 (rank & A9)]. split.
    - now apply ren_sources.
    - now apply ren_sizes.
    - now apply ren_valid.
    - intros p a b D. pose proof (ren_connection _ _ _ (A4 _ _ _ (b_conn _ _ _ D))) as X. now rewrite path_back, !(rn_forth _ _ RN) in X.
    - now apply ren_targets_distinct.
    - apply ren_options; [now intros []|exact A6].
    - apply ren_options; [now intros []|exact A7].
    - now apply ren_objective.
    - exists (fun p => rank (map s p)). now apply ren_ranking.
  Qed.
End Rules.
