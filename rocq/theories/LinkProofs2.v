(** Programs that differ in how they link variables. *)
From Verif Require Import PyBase NamesModel PromotionsModel PromotionsSpec PromotionsProofs HierModel HierSpec ExprModel ExprProofs UnflatModel UnflatSpec FlattenSpec CompileModel CompileSpec WorldModel WorldSpec WorldProofs WorldProofs4 ReorderSpec ReorderProofs4 ReorderProofs5
  OptionSpec OptionProofs2 LinkSpec.
Local Open Scope list_scope.

Definition loose (m : wmodel) : wmodel := WM (wm_ins m) (wm_outs m) (wm_decls m) (map (fun t => (fst (fst t), None, snd t)) (wm_subs m)) [] [] [] None.
Definition loose_world (w : world) : world := World (w_heap w) (w_count w) (map loose (w_models w)).
Lemma nth_loose ms k : nth_error (map loose ms) k = option_map loose (nth_error ms k).
Proof. revert k. induction ms as [|m ms IH]; intros [|k]; cbn; auto. Qed.
Lemma upd_loose ms k f g : (forall m, nth_error ms k = Some m -> loose (f m) = g (loose m)) -> map loose (upd ms k f) = upd (map loose ms) k g.
Proof. revert k. induction ms as [|m ms IH]; intros [|k] H; cbn; f_equal; auto. Qed.
Lemma sub_names_loose m : sub_names (loose m) = sub_names m.
Proof. unfold sub_names, loose. cbn [wm_subs]. rewrite map_map. reflexivity. Qed.
Lemma loose_same ms k f : (forall m, nth_error ms k = Some m -> loose (f m) = loose m) -> map loose (upd ms k f) = map loose ms.
Proof. intros H. rewrite (upd_loose _ _ _ (fun m => m) H). apply upd_id. reflexivity. Qed.
Lemma loose_step w e : loose_world (wstep w e) = fold_left wstep (unlinked [e]) (loose_world w).
Proof.
  destruct e as [|k ev|k on pr c|k a b|k x|k x|k x]; cbn [unlinked flat_map app fold_left].
  - unfold loose_world. cbn [wstep w_heap w_count w_models]. rewrite map_app. reflexivity.
  - assert (NE : (exists on, ev = EAdd on) \/ forall on, ev <> EAdd on) by (destruct ev; eauto; right; discriminate).
    destruct NE as [[on ->]|NE]; [rewrite !on_add; reflexivity|]. destruct (nth_error (w_models w) k) as [m|] eqn:E.
    + rewrite (on_some _ _ _ m NE E), (on_some _ _ _ (loose m) NE) by (cbn [loose_world w_models]; rewrite nth_loose, E; reflexivity).
      assert (EV : view (loose_world w) (loose m) = view w m) by (unfold view; rewrite sub_names_loose; reflexivity). rewrite EV.
      unfold put, loose_world. cbn [w_heap w_count w_models]. f_equal. apply upd_loose. reflexivity.
    + rewrite (on_none w k ev E), on_none; [reflexivity|]. cbn [loose_world w_models]. rewrite nth_loose, E. reflexivity.
  - cbn [wstep]. unfold loose_world at 2 3. cbn [w_models]. rewrite !nth_loose. destruct (nth_error (w_models w) k) as [m|]; [|reflexivity]. cbn [option_map]. destruct (nth_error (w_models w) c) as [mc|]; [|reflexivity]. cbn [option_map].
    assert (A : forall n m0, loose (app_sub (n, pr, c) m0) = app_sub (n, None, c) (loose m0)) by (intros n m0; unfold loose, app_sub; cbn [wm_ins wm_outs wm_decls wm_subs wm_conns wm_dvs wm_cons wm_obj]; rewrite map_app; reflexivity).
    rewrite sub_names_loose. destruct on as [n|]; [destruct (_ && _); [|reflexivity]|]; unfold loose_world; cbn [w_heap w_count w_models]; f_equal; apply upd_loose; intros; apply A.
  - cbn [wstep]. destruct (nth_error (w_models w) k) as [m|]; [|reflexivity].
    destruct (String.eqb a b); [reflexivity|]. destruct (existsb _ _); [reflexivity|]. unfold on_model, loose_world. cbn [w_heap w_count w_models]. f_equal. apply loose_same. reflexivity.
  - cbn [wstep]. destruct (nth_error (w_models w) k) as [m|]; [|reflexivity]. repeat (match goal with |- context [if ?b then _ else _] => destruct b end; [reflexivity|]).
    unfold on_model, loose_world. cbn [w_heap w_count w_models]. f_equal. apply loose_same. reflexivity.
  - cbn [wstep]. destruct (nth_error (w_models w) k) as [m|]; [|reflexivity]. repeat (match goal with |- context [if ?b then _ else _] => destruct b end; [reflexivity|]).
    unfold on_model, loose_world. cbn [w_heap w_count w_models]. f_equal. apply loose_same. reflexivity.
  - cbn [wstep]. destruct (nth_error (w_models w) k) as [m|]; [|reflexivity]. destruct (wm_obj m); [reflexivity|].
    unfold on_model, loose_world. cbn [w_heap w_count w_models]. f_equal. apply loose_same. reflexivity.
Qed.
Lemma loose_run l : forall w, loose_world (fold_left wstep l w) = fold_left wstep (unlinked l) (loose_world w).
Proof.
  induction l as [|e l IH]; intros w; [reflexivity|]. cbn [fold_left]. rewrite IH, loose_step. unfold unlinked. cbn [flat_map]. rewrite app_nil_r, fold_left_app. reflexivity.
Qed.
Lemma loose_history l : loose_world (whistory l) = whistory (unlinked l).
Proof. unfold whistory. rewrite loose_run. reflexivity. Qed.
Lemma tree_loose w shp f : forall k, option_map fst (tree f (loose_world w) shp k) = option_map fst (tree f w shp k).
Proof.
  induction f as [|f IH]; intros k; [reflexivity|]. cbn [tree]. cbn [loose_world w_models w_heap]. rewrite nth_loose. destruct (nth_error (w_models w) k) as [m|]; [|reflexivity]. cbn [option_map].
  change {| w_heap := w_heap w; w_count := w_count w; w_models := map loose (w_models w) |} with (loose_world w).
  assert (E : option_map (map fst) (all_some (map (fun t => tree f (loose_world w) shp (snd t)) (wm_subs (loose m)))) = option_map (map fst) (all_some (map (fun t => tree f w shp (snd t)) (wm_subs m)))).
  { rewrite <- !all_some_map, !map_map. cbn [loose wm_subs]. rewrite map_map. f_equal. apply map_ext. intros t. apply IH. }
  destruct (all_some (map (fun t => tree f (loose_world w) shp (snd t)) (wm_subs (loose m)))) as [x|], (all_some (map (fun t => tree f w shp (snd t)) (wm_subs m))) as [y|]; try discriminate E; [|reflexivity].
  cbn [option_map] in E. injection E as E. cbn [option_map fst]. rewrite E, sub_names_loose. reflexivity.
Qed.
Lemma unlinked_heap l l' : unlinked l = unlinked l' -> w_heap (whistory l) = w_heap (whistory l').
Proof. intros E. change (w_heap (loose_world (whistory l)) = w_heap (loose_world (whistory l'))). rewrite !loose_history, E. reflexivity. Qed.
Lemma unlinked_tree l l' shp f k um m um' m' : unlinked l = unlinked l' -> tree f (whistory l) shp k = Some (um, m) -> tree f (whistory l') shp k = Some (um', m') -> um = um'.
Proof.
  intros E T T'. pose proof (tree_loose (whistory l) shp f k) as A. pose proof (tree_loose (whistory l') shp f k) as B. rewrite loose_history in A, B. rewrite E, B, T, T' in A. cbn in A. congruence.
Qed.
