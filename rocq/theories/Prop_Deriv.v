(** C95: the data of declared derivatives. *)
From Verif Require Import PyBase PromotionsModel ApiModel CustomModel CustomProofs Prop_Custom DerivModel.
Set Implicit Arguments.
Open Scope list_scope.

(** The call without its data. *)
Definition plain_call (c : dcall) : ccall :=
  match c with
  | DAddInput n sh v => AddInput n sh v
  | DAddOutput n sh v => AddOutput n sh v
  | DDeclare a b _ => DeclareDerivatives a b
  end.

(** What is stored for a call with these keyword arguments: the argument, or the default when
    it was omitted. *)
Definition entry (key : string) (arg : option pyobj) (default : pyobj) : string * pyobj :=
  (key, match arg with Some x => x | None => default end).
Definition data_of (g : given) : dict pyobj :=
  [entry "dependent" (g_dependent g) PyTrue; entry "rows" (g_rows g) PyNone;
   entry "cols" (g_cols g) PyNone; entry "val" (g_val g) PyNone;
   entry "method" (g_method g) (PyStr "exact"); entry "step" (g_step g) PyNone;
   entry "form" (g_form g) PyNone; entry "step_calc" (g_step_calc g) PyNone].

Lemma stored_data g : stored (fill g) = data_of g.
Proof. reflexivity. Qed.
Lemma fill_again g : fill (again (fill g)) = fill g.
Proof. reflexivity. Qed.

(** [m'] is [m] followed by entries with the data of [g]. *)
Definition grew (g : given) (m m' : metadata) : Prop :=
  exists l, m' = m ++ l /\ forall p d, In (p, d) l -> d = data_of g.
Lemma grew_refl g m : grew g m m.
Proof. exists []. split; [rewrite app_nil_r; reflexivity|intros p d []]. Qed.
Lemma grew_trans g a b c : grew g a b -> grew g b c -> grew g a c.
Proof.
  intros (l & -> & H) (l' & -> & H'). exists (l ++ l'). split; [rewrite app_assoc; reflexivity|].
  intros p d Hp. apply in_app_iff in Hp. destruct Hp; eauto.
Qed.
Lemma grew_each {A} g (f : metadata -> A -> metadata * option exn) l :
  (forall m a, grew g m (fst (f m a))) -> forall m, grew g m (fst (each f m l)).
Proof.
  intros Hf. induction l as [|a l IH]; intros m; simpl; [apply grew_refl|].
  pose proof (Hf m a) as H. destruct (f m a) as [m' [e|]]; [exact H|]. eapply grew_trans; [exact H|apply IH].
Qed.
Lemma grew_again g m m' : grew (again (fill g)) m m' -> grew g m m'.
Proof.
  intros (l & E & H). exists l. split; [exact E|]. intros p d Hp. rewrite (H _ _ Hp).
  rewrite <- !stored_data, fill_again. reflexivity.
Qed.
Lemma declare_grew outs ins fuel : forall m a b g, grew g m (fst (declare_data fuel outs ins m a b g)).
Proof.
  induction fuel as [|fuel IH]; intros m a b g; simpl; [apply grew_refl|].
  destruct (is_dother a || is_dother b); [apply grew_refl|].
  destruct (dlist a outs) as [|x la], (dlist b ins) as [|y lb].
  - destruct a, b; try apply grew_refl. destruct (pmem _ _); [apply grew_refl|].
    eexists. split; [reflexivity|]. intros p d [[= <- <-]|[]]. reflexivity.
  - apply grew_again, (grew_each (A := string)). intros m' c. apply IH.
  - apply grew_again, (grew_each (A := string)). intros m' c. apply IH.
  - apply grew_again, (grew_each (A := string)). intros m' c. apply (grew_each (A := string)). intros m'' d. apply IH.
Qed.

(** Without the data, this is CustomModel. *)
Definition agrees (w : world) (m : metadata) (r : metadata * option exn) (c : cres) : Prop :=
  c = (with_derivs w (map fst (fst r)), snd r).
Lemma with_derivs_twice w l l' : with_derivs (with_derivs w l) l' = with_derivs w l'.
Proof. reflexivity. Qed.
Lemma each_agrees {A} w (f : metadata -> A -> metadata * option exn) (g : world -> A -> cres) l :
  (forall m a, g (with_derivs w (map fst m)) a = (with_derivs w (map fst (fst (f m a))), snd (f m a))) ->
  forall m, seq_calls g (with_derivs w (map fst m)) l
    = (with_derivs w (map fst (fst (each f m l))), snd (each f m l)).
Proof.
  intros H. induction l as [|a l IH]; intros m; simpl; [reflexivity|].
  rewrite H. destruct (f m a) as [m' [e|]]; simpl; [reflexivity|apply IH].
Qed.
Lemma declare_agrees w fuel : forall m a b g,
  declare_derivatives fuel (with_derivs w (map fst m)) a b =
    (with_derivs w (map fst (fst (declare_data fuel (dkeys (c_out (w_op w))) (dkeys (c_in (w_op w))) m a b g))),
     snd (declare_data fuel (dkeys (c_out (w_op w))) (dkeys (c_in (w_op w))) m a b g)).
Proof.
  induction fuel as [|fuel IH]; intros m a b g; cbn [declare_derivatives declare_data]; [reflexivity|].
  destruct (is_dother a || is_dother b); [reflexivity|]. cbv zeta.
  cbn [with_derivs w_op c_out c_in]. 
  destruct (dlist a (dkeys (c_out (w_op w)))) as [|x la], (dlist b (dkeys (c_in (w_op w)))) as [|y lb].
  - destruct a, b; try reflexivity. cbn [c_derivs].
    destruct (pmem _ _); [reflexivity|]. cbn [fst snd]. rewrite map_app. reflexivity.
  - exact (@each_agrees string w _ _ (y :: lb) (fun m c => IH m a (DStr c) (again (fill g))) m).
  - exact (@each_agrees string w _ _ (x :: la) (fun m c => IH m (DStr c) b (again (fill g))) m).
  - apply (@each_agrees string w _ _ (x :: la)). intros m' c.
    exact (@each_agrees string w _ _ (y :: lb) (fun m d => IH m (DStr c) (DStr d) (again (fill g))) m').
Qed.

Lemma dexec_agrees fuel w m c : map fst m = c_derivs (w_op w) ->
  ccexec fuel w (plain_call c) = (fst (fst (dexec fuel (w, m) c)), snd (dexec fuel (w, m) c)) /\
  map fst (snd (fst (dexec fuel (w, m) c))) = c_derivs (w_op (fst (fst (dexec fuel (w, m) c)))).
Proof.
  intros H. destruct c as [n sh v|n sh v|a b g]; simpl.
  - pose proof (add_input_derivs w n sh v) as D. destruct (add_input w n sh v) as [w' e]; simpl in *. split; congruence.
  - pose proof (add_output_derivs w n sh v) as D. destruct (add_output w n sh v) as [w' e]; simpl in *. split; congruence.
  - pose proof (declare_agrees w fuel m a b g) as E. rewrite H in E at 1. rewrite with_derivs_same in E. rewrite E.
    destruct (declare_data _ _ _ m a b g) as [m' e]; simpl. split; reflexivity.
Qed.

Lemma dexec_all_agrees fuel h : forall w m, map fst m = c_derivs (w_op w) ->
  fst (dexec_all fuel (w, m) h) = ccexec_all fuel w (map plain_call h) /\
  map fst (snd (dexec_all fuel (w, m) h)) = c_derivs (w_op (fst (dexec_all fuel (w, m) h))).
Proof.
  induction h as [|c h IH]; intros w m H; simpl; [split; [reflexivity|exact H]|].
  destruct (dexec_agrees fuel w m c H) as [E D]. rewrite E. cbn [fst].
  destruct (dexec fuel (w, m) c) as [[w' m'] e]. simpl in *. apply IH, D.
Qed.
Lemma dexec_all_app fuel h1 : forall w h2, dexec_all fuel w (h1 ++ h2) = dexec_all fuel (dexec_all fuel w h1) h2.
Proof. induction h1 as [|c h IH]; intros w h2; simpl; [reflexivity|apply IH]. Qed.

(** For every history of calls of a custom operation's methods, in which exceptions may be
    caught: the pairs with data are the declared ones (of C36), each once; and the data of a
    pair are exactly the arguments, or their defaults, of the one call that declared it, even
    if that call stood for many pairs or raised later, and whatever was called afterwards. *)
Theorem C95_derivative_data : forall fuel hp h p d,
  let after l := dexec_all fuel (start hp, []) l in
  let declared l := c_derivs (w_op (ccexec_all fuel (start hp) (map plain_call l))) in
  map fst (snd (after h)) = declared h /\ NoDup (declared h) /\
  (In (p, d) (snd (after h)) <->
   exists h1 a b g h2, h = h1 ++ DDeclare a b g :: h2 /\
     ~ In p (declared h1) /\ In p (declared (h1 ++ [DDeclare a b g])) /\ d = data_of g).
Proof.
  intros fuel hp h p d after declared.
  assert (K : forall l, map fst (snd (after l)) = declared l).
  { intros l. unfold after, declared. destruct (@dexec_all_agrees fuel l (start hp) [] eq_refl) as [E D].
    rewrite <- E. exact D. }
  assert (ND : forall l, NoDup (declared l)) by (intros l; apply C36_never_twice).
  assert (S : forall l c, exists ext, snd (after (l ++ [c])) = snd (after l) ++ ext /\
    forall q e, In (q, e) ext -> exists a b g, c = DDeclare a b g /\ e = data_of g).
  { intros l c. unfold after. rewrite dexec_all_app. simpl. set (w := dexec_all fuel (start hp, []) l).
    destruct c as [n sh v|n sh v|a b g]; simpl.
    - exists []. rewrite app_nil_r. destruct (add_input (fst w) n sh v). split; [reflexivity|intros q e []].
    - exists []. rewrite app_nil_r. destruct (add_output (fst w) n sh v). split; [reflexivity|intros q e []].
    - pose proof (declare_grew (dkeys (c_out (w_op (fst w)))) (dkeys (c_in (w_op (fst w)))) fuel (snd w) a b g) as (ext & E & H).
      destruct (declare_data _ _ _ (snd w) a b g) as [m' e]; simpl in *. exists ext. split; [exact E|].
      intros q x Hq. exists a, b, g. split; [reflexivity|]. exact (H _ _ Hq). }
  assert (M : forall l l', exists ext, snd (after (l ++ l')) = snd (after l) ++ ext).
  { intros l l'. induction l' as [|c l' IH] using rev_ind; [exists []; rewrite !app_nil_r; reflexivity|].
    destruct IH as (x & E). rewrite app_assoc. destruct (S (l ++ l') c) as (y & E' & _).
    exists (x ++ y). rewrite E', E, app_assoc. reflexivity. }
  split; [apply K|]. split; [apply ND|]. split.
  - induction h as [|c h IH] using rev_ind; [intros []|]. intros H.
    destruct (S h c) as (ext & E & X). rewrite E in H. apply in_app_iff in H. destruct H as [H|H].
    + destruct (IH H) as (h1 & a & b & g & h2 & -> & A). exists h1, a, b, g, (h2 ++ [c]).
      rewrite <- app_assoc. split; [reflexivity|exact A].
    + destruct (X _ _ H) as (a & b & g & -> & ->). exists h, a, b, g, []. split; [reflexivity|].
      pose proof (ND (h ++ [DDeclare a b g])) as N. rewrite <- K, E, map_app in N.
      split; [|split; [|reflexivity]].
      * intros Hp. rewrite <- K in Hp. apply NoDup_app_iff in N. destruct N as (_ & _ & N).
        apply (N p Hp). apply (in_map fst) in H. exact H.
      * rewrite <- K, E, map_app. apply in_app_iff. right. apply (in_map fst) in H. exact H.
  - intros (h1 & a & b & g & h2 & -> & Hn & Hi & ->).
    destruct (S h1 (DDeclare a b g)) as (ext & E & X). destruct (M (h1 ++ [DDeclare a b g]) h2) as (y & E').
    rewrite <- app_assoc in E'. simpl in E'. rewrite E', E. apply in_app_iff. left. apply in_app_iff. right.
    rewrite <- K, E, map_app, K in Hi. apply in_app_iff in Hi. destruct Hi as [Hi|Hi]; [contradiction|].
    apply in_map_iff in Hi. destruct Hi as ([q e] & <- & Hq). destruct (X _ _ Hq) as (a' & b' & g' & [= <- <- <-] & ->).
    exact Hq.
Qed.

(** *** Non-vacuity: a call for all pairs, then one that names a pair again *)
Definition with_rows (n : nat) : given := Given None (Some (PyObj n)) None None None None None None.
Definition history1 : list dcall :=
  [DAddInput "x" [1] (CNum 0); DAddInput "y" [1] (CNum 0); DAddOutput "z" [2] (CNum 0);
   DDeclare (DStr "z") (DStr "x") (with_rows 7);
   DDeclare (DStr "*") (DList ["y"%string; "x"%string]) nothing_given;
   DDeclare (DStr "z") (DStr "y") (with_rows 9)].
Example history1_data :
  snd (dexec_all 10 (start [], []) history1)
  = [(("z"%string, "x"%string), data_of (with_rows 7)); (("z"%string, "y"%string), data_of nothing_given)] /\
  dget (data_of (with_rows 7)) "rows" = Some (PyObj 7) /\ dget (data_of (with_rows 7)) "method" = Some (PyStr "exact").
Proof. split; [|split]; reflexivity. Qed.

Print Assumptions C95_derivative_data.
