From Verif Require Import PyBase NamesModel PromotionsModel ExprModel WorldModel WorldProofs7 BlockModel BlockSpec.
Local Open Scope list_scope.

Lemma prog_ind' (P : prog -> Prop) (Q : list prog -> Prop) :
  (forall e, P (PCall e)) -> (forall e, P (PRaise e)) -> (forall b, Q b -> P (PTry b)) ->
  (forall k n pr b, Q b -> P (PBlock k n pr b)) -> Q [] -> (forall q r, P q -> Q r -> Q (q :: r)) ->
  (forall p, P p) /\ (forall l, Q l).
Proof.
  intros H1 H2 H3 H4 H5 H6.
  assert (A : forall p, P p).
  { fix IH 1. intros [e|e|b|k n pr b]; [apply H1|apply H2|apply H3|apply H4];
      (induction b as [|q r IHr]; [exact H5|apply H6; [apply IH|exact IHr]]). }
  split; [exact A|]. induction l as [|q r IHr]; [exact H5|apply H6; [apply A|exact IHr]].
Qed.

Lemma exec_run b w : (fix run (l : list prog) (w : world) {struct l} : world * option exn :=
    match l with
    | [] => (w, None)
    | q :: r => match exec q w with (w', None) => run r w' | (w', Some e) => (w', Some e) end
    end) b w = run b w.
Proof. revert w. induction b as [|q r IH]; intros w; [reflexivity|]. cbn [run]. destruct (exec q w) as [w' [e|]]; [reflexivity|apply IH]. Qed.

Lemma exec_try b w : exec (PTry b) w = (fst (run b w), None).
Proof. cbn [exec]. rewrite exec_run. reflexivity. Qed.
Lemma exec_block k on pr b w : exec (PBlock k on pr b) w =
  let wr := run b (wstep w WNew) in
  match add_raises (fst wr) k on with
  | None => (wstep (fst wr) (WAdd k on pr (length (w_models w))), snd wr)
  | Some e => (fst wr, Some e)
  end.
Proof. cbn [exec]. rewrite exec_run. reflexivity. Qed.

Lemma upd_length {A} (l : list A) k f : length (upd l k f) = length l.
Proof. revert k. induction l as [|x l IH]; intros [|k]; cbn; auto. Qed.

(** Numbers of models. *)
Lemma wstep_models w e : length (w_models (wstep w e)) = match e with WNew => S (length (w_models w)) | _ => length (w_models w) end.
Proof.
  destruct e as [|k ev|k on pr c|k a b|k n|k n|k n]; cbn [wstep].
  - cbn. rewrite app_length. cbn. lia.
  - destruct (nth_error (w_models w) k); destruct ev; cbn; rewrite ?upd_length; reflexivity.
  - destruct (nth_error (w_models w) k); [|reflexivity]. destruct (nth_error (w_models w) c); [|reflexivity].
    destruct on as [n|]; [destruct (_ && _)|]; cbn; rewrite ?upd_length; reflexivity.
  - destruct (nth_error (w_models w) k); [|reflexivity]. repeat (match goal with |- context [if ?c then _ else _] => destruct c end; cbn; rewrite ?upd_length; try reflexivity).
  - destruct (nth_error (w_models w) k); [|reflexivity]. repeat (match goal with |- context [if ?c then _ else _] => destruct c end; cbn; rewrite ?upd_length; try reflexivity).
  - destruct (nth_error (w_models w) k); [|reflexivity]. repeat (match goal with |- context [if ?c then _ else _] => destruct c end; cbn; rewrite ?upd_length; try reflexivity).
  - destruct (nth_error (w_models w) k) as [m|]; [|reflexivity]. destruct (wm_obj m); cbn; rewrite ?upd_length; reflexivity.
Qed.

Lemma models_grow : (forall p w, length (w_models w) <= length (w_models (fst (exec p w)))) /\
  (forall l w, length (w_models w) <= length (w_models (fst (run l w)))).
Proof.
  apply prog_ind'.
  - intros e w. cbn [exec fst]. rewrite wstep_models. destruct e; lia.
  - intros e w. cbn. lia.
  - intros b IH w. rewrite exec_try. apply IH.
  - intros k on pr b IH w. rewrite exec_block. cbv zeta. specialize (IH (wstep w WNew)). rewrite (wstep_models w WNew) in IH.
    destruct (add_raises _ _ _); cbn [fst]; [lia|]. rewrite (wstep_models _ (WAdd _ _ _ _)). lia.
  - intros w. cbn. lia.
  - intros q r IHq IHr w. cbn [run]. specialize (IHq w). destruct (exec q w) as [w' [e|]]; cbn [fst] in *; [exact IHq|]. specialize (IHr w'). lia.
Qed.

(** Blocks are adds. *)
Lemma calls_of_body n b : (fix all n l := match l with [] => [] | q :: r => without_blocks n q ++ all (n + models_made q) r end) n b = calls_of n b.
Proof. reflexivity. Qed.

Fixpoint made (l : list prog) : nat := match l with [] => 0 | q :: r => models_made q + made r end.
Lemma made_body b : (fix sum l := match l with [] => 0 | q :: r => models_made q + sum r end) b = made b.
Proof. induction b as [|q r IH]; [reflexivity|]. cbn. rewrite IH. reflexivity. Qed.

Lemma plain_body b : (fix all l := match l with [] => True | q :: r => plain q /\ all r end) b -> Forall plain b.
Proof. induction b as [|q r IH]; intros H; [constructor|]. destruct H as [H1 H2]. constructor; [exact H1|exact (IH H2)]. Qed.

Lemma blocks_are_adds :
  (forall p, plain p -> forall w, snd (exec p w) = None ->
     fst (exec p w) = fold_left wstep (without_blocks (length (w_models w)) p) w /\
     length (w_models (fst (exec p w))) = length (w_models w) + models_made p) /\
  (forall l, Forall plain l -> forall w, snd (run l w) = None ->
     fst (run l w) = fold_left wstep (calls_of (length (w_models w)) l) w /\
     length (w_models (fst (run l w))) = length (w_models w) + made l).
Proof.
  apply prog_ind'.
  - intros e _ w _. cbn [exec fst without_blocks fold_left]. split; [reflexivity|]. rewrite wstep_models. destruct e; cbn; lia.
  - intros e [].
  - intros b _ [].
  - intros k on pr b IH Hp w. rewrite exec_block. cbv zeta. apply plain_body in Hp. specialize (IH Hp (wstep w WNew)).
    destruct (add_raises _ _ _); cbn [fst snd]; [discriminate|]. intros Hs. destruct (IH Hs) as [E1 E2].
    rewrite (wstep_models w WNew) in E1, E2. split.
    + cbn [without_blocks]. rewrite calls_of_body. cbn [fold_left]. rewrite fold_left_app. cbn [fold_left]. rewrite <- E1. reflexivity.
    + rewrite (wstep_models _ (WAdd _ _ _ _)), E2. cbn [models_made]. change (fix sum l := match l with [] => 0 | q :: r => models_made q + sum r end) with made. lia.
  - intros _ w _. cbn. split; [reflexivity|lia].
  - intros q r IHq IHr Hp w. inversion Hp as [|x y Hq Hr]; subst. cbn [run calls_of]. specialize (IHq Hq w).
    destruct (exec q w) as [w' [e|]]; cbn [snd]; [discriminate|]. intros Hs. destruct (IHq eq_refl) as [E1 E2]. cbn [fst] in E1, E2.
    destruct (IHr Hr w' Hs) as [E3 E4]. rewrite fold_left_app, <- E1, <- E2. split; [exact E3|]. rewrite E4, E2. cbn [made]. lia.
Qed.

(** Every program is a history of calls. *)
Lemma is_history : (forall p w, exists l, fst (exec p w) = fold_left wstep l w) /\
  (forall l w, exists h, fst (run l w) = fold_left wstep h w).
Proof.
  apply prog_ind'.
  - intros e w. exists [e]. reflexivity.
  - intros e w. exists []. reflexivity.
  - intros b IH w. rewrite exec_try. apply IH.
  - intros k on pr b IH w. rewrite exec_block. cbv zeta. destruct (IH (wstep w WNew)) as (l & E).
    destruct (add_raises _ _ _); cbn [fst].
    + exists (WNew :: l). exact E.
    + exists (WNew :: l ++ [WAdd k on pr (length (w_models w))]). cbn [fold_left]. rewrite fold_left_app, <- E. reflexivity.
  - intros w. exists []. reflexivity.
  - intros q r IHq IHr w. cbn [run]. destruct (IHq w) as (l & E). destruct (exec q w) as [w' [e|]]; cbn [fst] in *; [exists l; exact E|].
    destruct (IHr w') as (l' & E'). exists (l ++ l'). rewrite fold_left_app, <- E. exact E'.
Qed.

(** What a block does. *)
Lemma add_raises_spec w k on : k < length (w_models w) -> (add_raises w k on = None <-> name_free w k on).
Proof.
  intros L. apply nth_error_Some in L. unfold add_raises, name_free. destruct on as [n|].
  - destruct (check_banned_chars n) as [[]|e] eqn:E.
    + destruct (nth_error (w_models w) k) as [m|]; [|congruence]. destruct (smem n (sub_names m)) eqn:Es.
      * split; [discriminate|]. intros H. destruct (H n eq_refl) as [_ H2]. apply smem_spec in Es. destruct (H2 m eq_refl Es).
      * split; [|reflexivity]. intros _ n' En. injection En as <-. split; [exact E|]. intros m' Em. injection Em as <-. apply smem_false. exact Es.
    + split; [discriminate|]. intros H. destruct (H n eq_refl) as [H1 _]. congruence.
  - split; [intros _ n E; discriminate|reflexivity].
Qed.

Lemma add_accepted w k on pr c : k < length (w_models w) -> c < length (w_models w) -> add_raises w k on = None ->
  exists n, match on with Some x => n = x | None => True end /\
    wstep w (WAdd k on pr c) = World (w_heap w) (w_count w + 1)%N (upd (w_models w) k (app_sub (n, pr, c))).
Proof.
  intros L C H. apply nth_error_Some in L, C. cbn [wstep]. unfold add_raises in H.
  destruct (nth_error (w_models w) k) as [m|]; [|congruence]. destruct (nth_error (w_models w) c); [|congruence].
  destruct on as [n|].
  - exists n. split; [reflexivity|]. destruct (check_banned_chars n) as [[]|]; [|discriminate]. destruct (smem n (sub_names m)); [discriminate|]. reflexivity.
  - eexists. split; [exact I|reflexivity].
Qed.

Lemma nth_upd_same {A} (l : list A) i f x : nth_error l i = Some x -> nth_error (upd l i f) i = Some (f x).
Proof. revert i. induction l as [|y l IH]; intros [|i]; cbn; try discriminate; [congruence|apply IH]. Qed.

Lemma block_effect w k on pr body : k < length (w_models w) ->
  let m := length (w_models w) in let after := run body (wstep w WNew) in let w1 := fst after in
  nth_error (w_models (wstep w WNew)) m = Some wm0 /\
  (name_free w1 k on ->
     exists n mk, match on with Some x => n = x | None => True end /\ nth_error (w_models w1) k = Some mk /\
       let w2 := fst (exec (PBlock k on pr body) w) in
       w_heap w2 = w_heap w1 /\ length (w_models w2) = length (w_models w1) /\
       (forall j, nth_error (w_models w2) j = if Nat.eqb j k then Some (app_sub (n, pr, m) mk) else nth_error (w_models w1) j) /\
       snd (exec (PBlock k on pr body) w) = snd after) /\
  (~ name_free w1 k on ->
     fst (exec (PBlock k on pr body) w) = w1 /\
     exists e, snd (exec (PBlock k on pr body) w) = Some e /\ (e = ValueError \/ e = KeyError)).
Proof.
  intros L m after w1. rewrite exec_block. cbv zeta. fold after. fold w1. fold m.
  assert (G : S (length (w_models w)) <= length (w_models w1)).
  { pose proof (proj2 models_grow body (wstep w WNew)) as G. rewrite (wstep_models w WNew) in G. exact G. }
  assert (L1 : k < length (w_models w1)) by lia. assert (M1 : m < length (w_models w1)) by (unfold m; lia).
  split; [cbn [wstep w_models]; rewrite nth_error_app2, Nat.sub_diag by (unfold m; lia); reflexivity|].
  pose proof (add_raises_spec w1 k on L1) as S. split; intros H.
  - apply S in H. rewrite H. cbn [fst snd]. destruct (add_accepted w1 k on pr m L1 M1 H) as (n & N & E).
    assert (L1' := L1). apply nth_error_Some in L1'. destruct (nth_error (w_models w1) k) as [mk|] eqn:Ek; [|congruence].
    exists n, mk. split; [exact N|]. split; [reflexivity|]. rewrite E. cbn [w_heap w_models]. split; [reflexivity|]. split; [apply upd_length|].
    split; [|reflexivity]. intros j. destruct (Nat.eqb_spec j k) as [->|Ne]; [apply nth_upd_same; exact Ek|apply nth_upd_other; exact Ne].
  - destruct (add_raises w1 k on) as [e|] eqn:E; [|destruct H; apply S; reflexivity]. cbn [fst snd]. split; [reflexivity|].
    exists e. split; [reflexivity|]. unfold add_raises in E. destruct on as [n|]; [|discriminate].
    destruct (check_banned_chars n) as [[]|e'] eqn:Eb.
    + right. destruct (nth_error (w_models w1) k) as [x|]; [|discriminate]. destruct (smem n (sub_names x)); [congruence|discriminate].
    + left. injection E as <-. unfold check_banned_chars in Eb.
      repeat match type of Eb with context [if ?c then _ else _] => destruct c end; try discriminate; congruence.
Qed.
