(** Declarations commute. *)
From Verif Require Import PyBase NamesModel PromotionsModel PromotionsSpec PromotionsProofs ExprModel ExprSpec ExprProofs UnflatModel EffectSpec EffectProofs WorldModel WorldSpec WorldSpec2 WorldProofs WorldProofs2 WorldProofs4 WorldProofs5 WorldProofs6 WorldProofs7 ReorderSpec ReorderProofs ReorderProofs3.
From Coq Require Import Permutation Lia.
Local Open Scope list_scope.

(** ** Declarations *)
Definition dstep (hp : list obj) (n : nat) (e : wevent) (m : wmodel) : option wmodel :=
  match e with
  | WAdd _ (Some nm) pr c => if (c <? n)%nat && (is_ok (check_banned_chars nm) && negb (smem nm (sub_names m))) then Some (app_sub (nm, pr, c) m) else None
  | WConnect _ a b => if String.eqb a b || existsb (fun p => String.eqb a (fst p) && String.eqb b (snd p)) (wm_conns m) then None else Some (app_conn (a, b) m)
  | WDesign _ x => if negb (smem x (map (name_in hp) (wm_ins m))) || smem x (wm_dvs m) then None else Some (app_dv x m)
  | WConstraint _ x => if smem x (wm_cons m) then None else Some (app_con x m)
  | WObjective _ x => match wm_obj m with Some _ => None | None => Some (set_obj x m) end
  | _ => None
  end.
Definition eff hp n e m := match dstep hp n e m with Some m' => m' | None => m end.
Definition bump_of (e : wevent) : N := match e with WAdd _ _ _ _ => 1%N | _ => 0%N end.
Definition cnt hp n e m : N := match dstep hp n e m with Some _ => bump_of e | None => 0%N end.
Definition cnt_at hp n e (l : list wmodel) : N := match nth_error l (actor e) with Some m => cnt hp n e m | None => 0%N end.
Lemma upd_id {A} (l : list A) : forall k (f : A -> A), (forall x, nth_error l k = Some x -> f x = x) -> upd l k f = l.
Proof. induction l as [|y l IH]; intros [|k] f H; cbn; try reflexivity; [f_equal; apply H; reflexivity|]. f_equal. apply IH. intros x E. apply H, E. Qed.
Lemma upd_ext {A} (l : list A) : forall k (f g : A -> A), (forall x, nth_error l k = Some x -> f x = g x) -> upd l k f = upd l k g.
Proof. induction l as [|y l IH]; intros [|k] f g H; cbn; try reflexivity; [f_equal; apply H; reflexivity|]. f_equal. apply IH. intros x E. apply H, E. Qed.
Lemma upd_twice {A} (l : list A) : forall k (f g : A -> A), upd (upd l k f) k g = upd l k (fun x => g (f x)).
Proof. induction l as [|y l IH]; intros [|k] f g; cbn; try reflexivity. f_equal. apply IH. Qed.
Lemma upd_swap {A} (l : list A) : forall j k (f g : A -> A), j <> k -> upd (upd l j f) k g = upd (upd l k g) j f.
Proof. induction l as [|y l IH]; intros [|j] [|k] f g N; cbn; try reflexivity; [lia|]. f_equal. apply IH. lia. Qed.
Lemma world_eta w : w = World (w_heap w) (w_count w) (w_models w).
Proof. destruct w; reflexivity. Qed.
Lemma wstep_decl w e : declares e = true -> let hp := w_heap w in let n := length (w_models w) in
  wstep w e = World hp (w_count w + cnt_at hp n e (w_models w))%N (upd (w_models w) (actor e) (eff hp n e)).
Proof.
  intros D hp n.
  assert (NO : forall m, nth_error (w_models w) (actor e) = Some m -> dstep hp n e m = None -> w = World hp (w_count w + cnt_at hp n e (w_models w))%N (upd (w_models w) (actor e) (eff hp n e))).
  { intros m E Q. unfold cnt_at, cnt. rewrite E, Q, N.add_0_r, upd_id; [apply world_eta|]. intros x Ex. rewrite E in Ex. injection Ex as <-. unfold eff. rewrite Q. reflexivity. }
  assert (NN : nth_error (w_models w) (actor e) = None -> w = World hp (w_count w + cnt_at hp n e (w_models w))%N (upd (w_models w) (actor e) (eff hp n e))).
  { intros E. unfold cnt_at. rewrite E, N.add_0_r, upd_id; [apply world_eta|]. intros x Ex. congruence. }
  assert (YE : forall m f, nth_error (w_models w) (actor e) = Some m -> dstep hp n e m = Some (f m) -> World hp (w_count w + bump_of e)%N (upd (w_models w) (actor e) f) = World hp (w_count w + cnt_at hp n e (w_models w))%N (upd (w_models w) (actor e) (eff hp n e))).
  { intros m f E Q. unfold cnt_at, cnt. rewrite E, Q. f_equal. apply upd_ext. intros x Ex. rewrite E in Ex. injection Ex as <-. unfold eff. rewrite Q. reflexivity. }
  destruct e as [|k ev|k [nm|] pr c|k a b|k x|k x|k x]; try discriminate; cbn [wstep actor bump_of] in *; rewrite ?N.add_0_r in YE;
    (destruct (nth_error (w_models w) k) as [m|] eqn:E; [|apply NN; reflexivity]).
  - destruct (nth_error (w_models w) c) as [mc|] eqn:Ec.
    + assert (L : (c <? n)%nat = true) by (apply Nat.ltb_lt, (nth_lt _ _ Ec)). destruct (is_ok (check_banned_chars nm) && negb (smem nm (sub_names m))) eqn:G.
      * apply (YE m (app_sub (nm, pr, c)) eq_refl). cbn [dstep]. rewrite L, G. reflexivity.
      * apply (NO m eq_refl). cbn [dstep]. rewrite L, G. reflexivity.
    + apply (NO m eq_refl). cbn [dstep]. replace (c <? n)%nat with false; [reflexivity|]. symmetry. apply Nat.ltb_ge, nth_error_None, Ec.
  - destruct (String.eqb a b) eqn:G1; [apply (NO m eq_refl); cbn [dstep]; rewrite G1; reflexivity|]. destruct (existsb _ _) eqn:G2; [apply (NO m eq_refl); cbn [dstep]; rewrite G1, G2; reflexivity|].
    apply (YE m (app_conn (a, b)) eq_refl). cbn [dstep]. rewrite G1, G2. reflexivity.
  - destruct (negb _) eqn:G1; [apply (NO m eq_refl); cbn [dstep]; unfold hp; rewrite G1; reflexivity|]. destruct (smem x (wm_dvs m)) eqn:G2; [apply (NO m eq_refl); cbn [dstep]; unfold hp; rewrite G1, G2; reflexivity|].
    apply (YE m (app_dv x) eq_refl). cbn [dstep]. unfold hp. rewrite G1, G2. reflexivity.
  - destruct (smem x (wm_cons m)) eqn:G2; [apply (NO m eq_refl); cbn [dstep]; rewrite G2; reflexivity|]. apply (YE m (app_con x) eq_refl). cbn [dstep]. rewrite G2. reflexivity.
  - destruct (wm_obj m) eqn:G2; [apply (NO m eq_refl); cbn [dstep]; rewrite G2; reflexivity|]. apply (YE m (set_obj x) eq_refl). cbn [dstep]. rewrite G2. reflexivity.
Qed.

(** Two declarations on one model. *)
Lemma smem_snoc x l y : smem x (l ++ [y]) = smem x l || String.eqb x y.
Proof. induction l as [|z l IH]; cbn; [destruct (String.eqb x y); reflexivity|]. rewrite IH. apply orb_assoc. Qed.
Lemma perm_two {A} (l : list A) x y : Permutation ((l ++ [x]) ++ [y]) ((l ++ [y]) ++ [x]).
Proof. rewrite <- !app_assoc. apply Permutation_app_head. constructor. Qed.
Definition bad (p : string * string) (l : list (string * string)) : bool := String.eqb (fst p) (snd p) || existsb (fun q => String.eqb (fst p) (fst q) && String.eqb (snd p) (snd q)) l.
Definition conn_eff (p : string * string) (m : wmodel) : wmodel := if bad p (wm_conns m) then m else app_conn p m.
Lemma bad_snoc p l q : bad p (l ++ [q]) = bad p l || (String.eqb (fst p) (fst q) && String.eqb (snd p) (snd q)).
Proof. unfold bad. rewrite existsb_app. cbn [existsb]. rewrite orb_false_r, orb_assoc. reflexivity. Qed.
Lemma conn_swap p q m : msim (conn_eff q (conn_eff p m)) (conn_eff p (conn_eff q m)).
Proof.
  unfold conn_eff. destruct (bad p (wm_conns m)) eqn:X, (bad q (wm_conns m)) eqn:Y; cbn [app_conn wm_conns]; rewrite ?bad_snoc, ?X, ?Y; cbn [orb]; try apply msim_refl.
  destruct p as [a b], q as [c d]; cbn [fst snd]. rewrite (String.eqb_sym c a), (String.eqb_sym d b). destruct (String.eqb_spec a c) as [->|]; [destruct (String.eqb_spec b d) as [->|]|]; cbn [andb]; [apply msim_refl|..];
    (split; cbn; auto; apply perm_two).
Qed.
Lemma eff_swap hp n e1 e2 m : declares e1 = true -> declares e2 = true -> independent e1 e2 -> actor e1 = actor e2 ->
  msim (eff hp n e2 (eff hp n e1 m)) (eff hp n e1 (eff hp n e2 m)) /\ (cnt hp n e1 m + cnt hp n e2 (eff hp n e1 m) = cnt hp n e2 m + cnt hp n e1 (eff hp n e2 m))%N.
Proof.
  intros D1 D2 I E. unfold cnt, eff.
  destruct e1 as [|k ev|k [nm|] pr c|k a b|k x|k x|k x]; try discriminate; destruct e2 as [|k' ev'|k' [nm'|] pr' c'|k' a' b'|k' x'|k' x'|k' x']; try discriminate; cbn [actor] in E; subst k'; cbn [dstep bump_of].
  all: try (repeat match goal with
    | |- context [if ?b then _ else _] => let Q := fresh "Q" in destruct b eqn:Q; cbn [app_sub app_conn app_dv app_con set_obj wm_ins wm_outs wm_decls wm_subs wm_conns wm_dvs wm_cons wm_obj sub_names] in *; unfold sub_names in *; cbn [wm_subs] in *
    | |- context [match wm_obj ?m with Some _ => _ | None => _ end] => let Q := fresh "Q" in destruct (wm_obj m) eqn:Q; cbn [app_sub app_conn app_dv app_con set_obj wm_ins wm_outs wm_decls wm_subs wm_conns wm_dvs wm_cons wm_obj sub_names] in * ; try rewrite Q
    end; solve [split; [apply msim_refl|reflexivity] | congruence]).
  - cbn in I. destruct I as [I|I]; [congruence|]. destruct ((c <? n)%nat), ((c' <? n)%nat); cbn [andb]; try (split; [apply msim_refl|rewrite ?N.add_0_r; reflexivity]);
      destruct (is_ok (check_banned_chars nm)) eqn:B1, (is_ok (check_banned_chars nm')) eqn:B2; cbn [andb]; try (split; [apply msim_refl|rewrite ?N.add_0_r; reflexivity]);
      destruct (smem nm (sub_names m)) eqn:G1, (smem nm' (sub_names m)) eqn:G2; cbn [negb]; rewrite ?G1, ?G2; cbn [negb]; try (split; [apply msim_refl|reflexivity]);
      unfold sub_names in *; cbn [app_sub wm_subs]; rewrite ?map_app; cbn [map fst]; rewrite ?smem_snoc, ?G1, ?G2; cbn [orb];
      try (destruct (String.eqb_spec nm nm') as [Q|_]; [congruence|]); try (destruct (String.eqb_spec nm' nm) as [Q|_]; [congruence|]); cbn [negb]; try (split; [apply msim_refl|reflexivity]).
    split; [|reflexivity]. split; cbn; auto. apply perm_two.
  - assert (EQ : forall p y, match (if String.eqb (fst p) (snd p) || existsb (fun q => String.eqb (fst p) (fst q) && String.eqb (snd p) (snd q)) (wm_conns y) then None else Some (app_conn p y)) with Some m' => m' | None => y end = conn_eff p y)
      by (intros [c d] y; unfold conn_eff, bad; cbn [fst snd]; destruct (_ || _); reflexivity).
    split.
    +
      pose proof (conn_swap (a, b) (a', b') m) as S. rewrite <- !EQ in S. exact S.
    + repeat match goal with |- context [if ?b then _ else _] => destruct b end; reflexivity.
  - destruct (negb (smem x (map (name_in hp) (wm_ins m)))) eqn:G1, (negb (smem x' (map (name_in hp) (wm_ins m)))) eqn:G2; cbn [orb app_dv wm_ins wm_dvs]; rewrite ?G1, ?G2; cbn [orb]; try (split; [apply msim_refl|reflexivity]).
    + destruct (smem x' (wm_dvs m)) eqn:X2; cbn [app_dv wm_ins wm_dvs]; rewrite ?G1, ?G2, ?X2; split; try apply msim_refl; reflexivity.
    + destruct (smem x (wm_dvs m)) eqn:X2; cbn [app_dv wm_ins wm_dvs]; rewrite ?G1, ?G2, ?X2; split; try apply msim_refl; reflexivity.
    + destruct (smem x (wm_dvs m)) eqn:X1, (smem x' (wm_dvs m)) eqn:X2; cbn [app_dv wm_ins wm_dvs]; rewrite ?G1, ?G2, ?smem_snoc, ?X1, ?X2; cbn [orb]; try (split; [apply msim_refl|reflexivity]).
      destruct (String.eqb_spec x x') as [->|N1]; [rewrite String.eqb_refl; split; [apply msim_refl|reflexivity]|]. destruct (String.eqb_spec x' x); [congruence|]. split; [|reflexivity]. split; cbn; auto. apply perm_two.
  - destruct (smem x (wm_cons m)) eqn:X1, (smem x' (wm_cons m)) eqn:X2; cbn [app_con wm_cons]; rewrite ?smem_snoc, ?X1, ?X2; cbn [orb]; try (split; [apply msim_refl|reflexivity]).
    destruct (String.eqb_spec x x') as [->|N1]; [rewrite String.eqb_refl; split; [apply msim_refl|reflexivity]|]. destruct (String.eqb_spec x' x); [congruence|]. split; [|reflexivity]. split; cbn; auto. apply perm_two.
Qed.
