(** C80: values of variables in a simulator. *)
From Verif Require Import PyBase NamesModel PromotionsModel PromotionsSpec PromotionsExample HierModel HierSpec HierProofs SimModel.
Local Open Scope string_scope.
Local Open Scope list_scope.

Lemma sim_find_eq {V} (s : @sim V) key : sim_find s key = find_promoted_name key (sm_maps s).
Proof. reflexivity. Qed.
Lemma new_sim_maps {V} m (exec : dict V) s : new_sim m exec = Ok s -> maps_of m = Ok (sm_maps s).
Proof. unfold new_sim. destruct (maps_of m) as [mp|]; cbn; [|discriminate]. intros H. injection H as <-. reflexivity. Qed.
Lemma sets_maps {V} (l : list (string * V)) : forall s, sm_maps (sim_sets s l) = sm_maps s.
Proof. induction l as [|[k v] r IH]; intros s; cbn; [reflexivity|]. rewrite IH. unfold sim_set. destruct (sim_find s k); reflexivity. Qed.

(** The assignments among [l] to names that stand for [pn]; the last one counts. *)
Inductive last_write {V} (m : model) (pn : string) : list (string * V) -> V -> Prop :=
| lw_last l k v : resolves_to m k pn -> last_write m pn (l ++ [(k, v)]) v
| lw_skip l k v w : ~ resolves_to m k pn -> last_write m pn l w -> last_write m pn (l ++ [(k, v)]) w.
Definition never_written {V} (m : model) (pn : string) (l : list (string * V)) : Prop :=
  forall k v, In (k, v) l -> ~ resolves_to m k pn.

Lemma sets_app {V} (l r : list (string * V)) : forall s, sim_sets s (l ++ r) = sim_sets (sim_sets s l) r.
Proof. induction l as [|[k v] l IH]; intros s; cbn; auto. Qed.
Lemma resolve_dec m mp k pn : well_named m -> maps_of m = Ok mp -> {resolves_to m k pn} + {~ resolves_to m k pn}.
Proof.
  intros W M. destruct (find_promoted_name k mp) as [x|e] eqn:E.
  - destruct (string_dec x pn) as [->|Ne]; [left; apply (find_promoted_iff _ _ _ _ W M), E|right]. intros H. apply (find_promoted_iff _ _ _ _ W M) in H. congruence.
  - right. intros H. apply (find_promoted_iff _ _ _ _ W M) in H. congruence.
Qed.

(** C80: after any sequence of assignments through any names, reading through any name of a
    variable, promoted or not, gives the value assigned last through any name of a variable with
    the same promoted name, and the initial value if there was none; a name of no variable raises
    KeyError.  The maps are never changed. *)
Theorem c80_read_after_writes : forall V m (exec : dict V) s l, well_named m -> new_sim m exec = Ok s ->
  forall name,
    (forall pn, resolves_to m name pn ->
       (forall v, last_write m pn l v -> snd (sim_get (sim_sets s l) name) = Ok v) /\
       (never_written m pn l -> snd (sim_get (sim_sets s l) name) = match dget exec pn with Some v => Ok v | None => Err KeyError end)) /\
    ((forall pn, ~ resolves_to m name pn) -> snd (sim_get (sim_sets s l) name) = Err KeyError).
Proof.
  intros V m exec s l W Hs name. pose proof (new_sim_maps _ _ _ Hs) as M. unfold sim_get. cbn [snd]. rewrite sim_find_eq, sets_maps. split.
  - intros pn Hr. rewrite (proj2 (find_promoted_iff _ _ _ _ W M) Hr). cbn [bind].
    assert (E0 : sm_exec s = exec). { unfold new_sim in Hs. destruct (maps_of m); [|discriminate]. injection Hs as <-. reflexivity. }
    assert (Step : forall l k v, dget (sm_exec (sim_sets s (l ++ [(k, v)]))) pn = if resolve_dec m _ k pn W M then Some v else dget (sm_exec (sim_sets s l)) pn).
    { intros l0 k v. rewrite sets_app. cbn [sim_sets]. unfold sim_set. rewrite sim_find_eq, sets_maps. destruct (resolve_dec m _ k pn W M) as [H|H].
      - rewrite (proj2 (find_promoted_iff _ _ _ _ W M) H). cbn. apply dget_dset_same.
      - destruct (find_promoted_name k (sm_maps s)) as [x|e] eqn:E; [|reflexivity]. cbn. apply dget_dset_other. intros <-. apply H. apply (find_promoted_iff _ _ _ _ W M), E. }
    split.
    + intros v Hl. induction Hl as [l k v Hk|l k v w Hk Hl IH]; rewrite Step; destruct (resolve_dec m _ k pn W M); try contradiction; [reflexivity|exact IH].
    + intros Hn. induction l as [|[k v] l IH] using rev_ind; [cbn; rewrite E0; reflexivity|]. rewrite Step. destruct (resolve_dec m _ k pn W M) as [H|H].
      * exfalso. apply (Hn k v); [apply in_or_app; right; left; reflexivity|exact H].
      * apply IH. intros k' v' Hi. apply (Hn k' v'), in_or_app. left; exact Hi.
  - intros Hn. destruct (find_promoted_name name (sm_maps s)) as [x|e] eqn:E; [exfalso; apply (Hn x), (find_promoted_iff _ _ _ _ W M), E|].
    cbn. unfold find_promoted_name in E. destruct (dmem name (fst (sm_maps s))); [discriminate|]. destruct (dget (snd (sm_maps s)) name); [discriminate|]. injection E as <-. reflexivity.
Qed.
Print Assumptions c80_read_after_writes.

(** C80: the two names of every variable stand for the same promoted name, and an assignment is
    accepted exactly for names of variables; a rejected one changes nothing. *)
Theorem c80_names_of_a_variable : forall m p k x sh q, has_var m p k x sh -> promoted_ns m p x q ->
  resolves_to m (dotted p x) (dotted q x) /\ resolves_to m (dotted q x) (dotted q x).
Proof. intros m p k x sh q Hv Hp. split; exists p, k, x, sh, q; auto. Qed.
Print Assumptions c80_names_of_a_variable.
Theorem c80_assignment_accepted : forall V m (exec : dict V) s l, well_named m -> new_sim m exec = Ok s ->
  forall name v, let s1 := sim_sets s l in
    ((exists pn, resolves_to m name pn) <-> snd (sim_set s1 name v) = None) /\
    ((forall pn, ~ resolves_to m name pn) -> sim_set s1 name v = (s1, Some KeyError)).
Proof.
  intros V m exec s l W Hs name v. pose proof (new_sim_maps _ _ _ Hs) as M. cbn zeta. unfold sim_set. rewrite sim_find_eq, sets_maps.
  destruct (find_promoted_name name (sm_maps s)) as [x|e] eqn:E.
  - split; [|intros H; exfalso; apply (H x), (find_promoted_iff _ _ _ _ W M), E]. split; [reflexivity|]. intros _. exists x. apply (find_promoted_iff _ _ _ _ W M), E.
  - split.
    + split; [|discriminate]. intros [pn H]. apply (find_promoted_iff _ _ _ _ W M) in H. congruence.
    + intros _. unfold find_promoted_name in E. destruct (dmem name (fst (sm_maps s))); [discriminate|]. destruct (dget (snd (sm_maps s)) name); [discriminate|]. injection E as <-. reflexivity.
Qed.
Print Assumptions c80_assignment_accepted.

(** C80: a read warns exactly when the simulation has not been run; assignments do not count as runs. *)
Theorem c80_warning : forall V m (exec : dict V) s l name runs, new_sim m exec = Ok s ->
  let s1 := sim_sets s l in
  fst (sim_get s1 name) = true /\
  (fst (sim_get (Sim (sm_maps s1) (sm_exec s1) runs) name) = true <-> runs = 0).
Proof.
  intros V m exec s l name runs H. assert (I : forall (l : list (string * V)) s', sm_iter (sim_sets s' l) = sm_iter s').
  { clear. induction l as [|[k v] r IH]; intros s; cbn; [reflexivity|]. rewrite IH. unfold sim_set. destruct (sim_find s k); reflexivity. }
  cbn zeta. unfold sim_get. cbn [fst sm_iter]. rewrite I. split.
  - unfold new_sim in H. destruct (maps_of m); [|discriminate]. injection H as <-. reflexivity.
  - rewrite Nat.ltb_lt. split; [intros K; apply Nat.lt_1_r, K|intros ->; constructor].
Qed.
Print Assumptions c80_warning.

Example c80_example : exists s, new_sim exM [("x", 1); ("y", 2); ("B.C.y", 3)] = Ok s /\
  snd (sim_get (sim_sets s [("A.x", 5); ("B.y", 7); ("nope", 9)]) "x") = Ok 5 /\
  snd (sim_get (sim_sets s [("A.x", 5); ("B.y", 7); ("nope", 9)]) "A.y") = Ok 7 /\
  snd (sim_get (sim_sets s [("A.x", 5); ("B.y", 7); ("nope", 9)]) "B.C.y") = Ok 3 /\
  snd (sim_get (sim_sets s [("A.x", 5); ("B.y", 7); ("nope", 9)]) "nope") = Err KeyError.
Proof. eexists. split; [vm_compute; reflexivity|]. repeat split. Qed.

(** Without the restriction on names (which declare_variable does not enforce): the main model
    declares a variable named A.x, and the variable x of the submodel A, which promotes nothing,
    has the same value. *)
Theorem c80_dotted_names_refuted : exists m (exec : dict nat) s,
  new_sim m exec = Ok s /\ (forall v, snd (sim_get (fst (sim_set s "A.x" v)) "A.x") = Ok v) /\
  has_var m [] KDeclared "A.x" [1] /\ has_var m ["A"] KInput "x" [1] /\
  dget (fst (sm_maps s)) "A.x" = Some ["A.x"].
Proof.
  exists (Mdl [] [] [("A.x", [1])] [] [] [] None [("A", Some [], leaf [("x", [1])] [] [])]), [("A.x", 1)].
  eexists. split; [vm_compute; reflexivity|]. split; [intros v; reflexivity|]. split; [exists (Mdl [] [] [("A.x", [1])] [] [] [] None [("A", Some [], leaf [("x", [1])] [] [])]); split; [constructor|left; reflexivity]|].
  split; [|reflexivity]. eexists. split; [econstructor; [left; reflexivity|constructor]|left; reflexivity].
Qed.
Print Assumptions c80_dotted_names_refuted.
