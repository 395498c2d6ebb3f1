(** Programs that differ in the optimization problem they state. *)
From Verif Require Import PyBase NamesModel PromotionsModel PromotionsSpec PromotionsProofs ExprModel ExprProofs UnflatModel WorldModel WorldSpec WorldProofs WorldProofs4 ReorderSpec ReorderProofs4 ReorderProofs5 OptionSpec.
Local Open Scope list_scope.

Definition bare (m : wmodel) : wmodel := WM (wm_ins m) (wm_outs m) (wm_decls m) (wm_subs m) (wm_conns m) [] [] None.
Definition bare_world (w : world) : world := World (w_heap w) (w_count w) (map bare (w_models w)).
Lemma nth_bare ms k : nth_error (map bare ms) k = option_map bare (nth_error ms k).
Proof. revert k. induction ms as [|m ms IH]; intros [|k]; cbn; auto. Qed.
Lemma upd_bare ms k f g : (forall m, nth_error ms k = Some m -> bare (f m) = g (bare m)) -> map bare (upd ms k f) = upd (map bare ms) k g.
Proof. revert k. induction ms as [|m ms IH]; intros [|k] H; cbn; f_equal; auto. Qed.
Lemma bare_problem w e : states_problem e = true -> bare_world (wstep w e) = bare_world w.
Proof.
  intros S. assert (D : declares e = true) by (destruct e; try discriminate; reflexivity). rewrite (wstep_decl w e D). unfold bare_world. cbn [w_heap w_count w_models]. f_equal.
  - unfold cnt_at. destruct (nth_error _ _) as [m|]; [|apply N.add_0_r]. unfold cnt. destruct (dstep _ _ _ _); destruct e; try discriminate; apply N.add_0_r.
  - rewrite (upd_bare _ _ _ (fun m => m)); [apply upd_id; reflexivity|]. intros m _. unfold eff. destruct e as [|k ev|k on pr c|k a b|k x|k x|k x]; try discriminate; cbn [dstep];
      repeat match goal with |- context [if ?b then _ else _] => destruct b | |- context [match wm_obj m with Some _ => _ | None => _ end] => destruct (wm_obj m) end; reflexivity.
Qed.
Lemma bare_step w e : states_problem e = false -> bare_world (wstep w e) = wstep (bare_world w) e.
Proof.
  intros S. destruct e as [|k ev|k on pr c|k a b|k x|k x|k x]; try discriminate.
  - unfold bare_world. cbn [wstep w_heap w_count w_models]. rewrite map_app. reflexivity.
  - assert (NE : (exists on, ev = EAdd on) \/ forall on, ev <> EAdd on) by (destruct ev; eauto; right; discriminate).
    destruct NE as [[on ->]|NE]; [rewrite !on_add; reflexivity|]. destruct (nth_error (w_models w) k) as [m|] eqn:E.
    + rewrite (on_some _ _ _ m NE E), (on_some _ _ _ (bare m) NE) by (cbn [bare_world w_models]; rewrite nth_bare, E; reflexivity).
      change (view (bare_world w) (bare m)) with (view w m). unfold put, bare_world. cbn [w_heap w_count w_models]. f_equal. apply upd_bare. reflexivity.
    + rewrite (on_none w k ev E), on_none; [reflexivity|]. cbn [bare_world w_models]. rewrite nth_bare, E. reflexivity.
  - cbn [wstep]. unfold bare_world at 2 3. cbn [w_models]. rewrite !nth_bare. destruct (nth_error (w_models w) k) as [m|]; [|reflexivity]. cbn [option_map]. destruct (nth_error (w_models w) c) as [mc|]; [|reflexivity]. cbn [option_map].
    change (sub_names (bare m)) with (sub_names m). destruct on as [n|]; [destruct (_ && _); [|reflexivity]|]; unfold bare_world; cbn [w_heap w_count w_models]; f_equal; apply upd_bare; reflexivity.
  - cbn [wstep]. unfold bare_world at 2. cbn [w_models]. rewrite !nth_bare. destruct (nth_error (w_models w) k) as [m|]; [|reflexivity]. cbn [option_map].
    destruct (String.eqb a b); [reflexivity|]. change (wm_conns (bare m)) with (wm_conns m). destruct (existsb _ _); [reflexivity|]. unfold on_model, bare_world. cbn [w_heap w_count w_models]. f_equal. apply upd_bare. reflexivity.
Qed.
Lemma bare_run l : forall w, bare_world (fold_left wstep l w) = fold_left wstep (without_problem l) (bare_world w).
Proof.
  induction l as [|e l IH]; intros w; [reflexivity|]. cbn [fold_left]. rewrite IH. unfold without_problem. cbn [filter]. destruct (states_problem e) eqn:S; cbn [negb fold_left].
  - rewrite (bare_problem w e S). reflexivity.
  - rewrite (bare_step w e S). reflexivity.
Qed.
Lemma bare_history l : bare_world (whistory l) = whistory (without_problem l).
Proof. unfold whistory. rewrite bare_run. reflexivity. Qed.
Lemma all_some_map {A B} (f : A -> B) l : all_some (map (option_map f) l) = option_map (map f) (all_some l).
Proof. induction l as [|[a|] l IH]; cbn; auto. rewrite IH. destruct (all_some l); reflexivity. Qed.
Lemma combine_map_r {A B C} (f : B -> C) (l : list A) : forall x, combine l (map f x) = map (fun p => (fst p, f (snd p))) (combine l x).
Proof. induction l as [|a l IH]; intros [|b x]; cbn; f_equal; auto. Qed.
Lemma tree_bare w shp f : forall k, tree f (bare_world w) shp k = option_map (fun t => (fst t, plain (snd t))) (tree f w shp k).
Proof.
  induction f as [|f IH]; intros k; [reflexivity|]. cbn [tree]. cbn [bare_world w_models w_heap]. rewrite nth_bare. destruct (nth_error (w_models w) k) as [m|]; [|reflexivity]. cbn [option_map].
  cbn [bare wm_subs]. change (tree f {| w_heap := w_heap w; w_count := w_count w; w_models := map bare (w_models w) |} shp) with (tree f (bare_world w) shp).
  rewrite (map_ext _ (fun t => option_map (fun t => (fst t, plain (snd t))) (tree f w shp (snd t))) (fun t => IH (snd t))).
  rewrite <- (map_map (fun t => tree f w shp (snd t)) (option_map (fun t => (fst t, plain (snd t))))), all_some_map.
  destruct (all_some (map (fun t => tree f w shp (snd t)) (wm_subs m))) as [x|]; [|reflexivity]. cbn [option_map fst snd plain]. rewrite !map_map. cbn [fst snd]. change (sub_names (bare m)) with (sub_names m).
  do 3 f_equal. rewrite <- combine_map_r, map_map. reflexivity.
Qed.
