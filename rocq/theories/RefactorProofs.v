(** Counterparts have the same values. *)
From Verif Require Import PyBase NamesModel PromotionsModel PromotionsSpec HierModel HierSpec Digraph TopoModel FlatModel ExprModel UnflatModel UnflatSpec
  FlattenModel FlattenSpec CompileModel CompileSpec ExecProofs CompileProofs IterModel IterSpec IterProofs LookupProofs DependSpec DependProofs LinkSpec LinkProofs RefactorSpec.
Local Open Scope list_scope.

Lemma Forall2_nth {A B} (R : A -> B -> Prop) l l' k a : Forall2 R l l' -> nth_error l k = Some a -> exists b, nth_error l' k = Some b /\ R a b.
Proof.
  intros F. revert k. induction F as [|x y l l' H F IH]; intros [|k]; cbn; try discriminate.
  - intros E. injection E as <-. eauto.
  - apply IH.
Qed.

Section Refactor.
  Context (it it' : iteration) (h h' : list obj) (shp shp' : nat -> shape) (dflt dflt' : nat -> bool) (um um' : umodel) (m m' : model) (c c' : compiled).
  Context (L : lawful it) (WF : well_formed h um m shp) (TI : inputs_not_targets h um m) (H : compile_in it h shp dflt um m = Ok c).
  Context (L' : lawful it') (WF' : well_formed h' um' m' shp') (TI' : inputs_not_targets h' um' m') (H' : compile_in it' h' shp' dflt' um' m' = Ok c').
  Context (same_operation : nat -> nat -> Prop) (R : list string -> nat -> list string -> nat -> Prop) (RS : restructured h um m h' um' m' same_operation R).
  Context (V : Type) (apply apply' : nat -> list V -> nat -> V) (init init' : string -> V).
  Hypothesis (AP : forall a a', same_operation a a' -> forall args k, apply a args k = apply' a' args k).
  Hypothesis (IN : forall p o n, given h um m p o n -> exists p' o' n', R p o p' o' /\ given h' um' m' p' o' n' /\ init n = init' n').
  Notation val := (result h shp dflt apply init c).
  Notation val' := (result h' shp' dflt' apply' init' c').

  Lemma refactor_result : forall p o, occurs h um p o -> variable h o -> forall p' o', R p o p' o' -> val p o = val' p' o'.
  Proof.
    pose proof (in_solves it h shp dflt um m c L WF TI H V apply init) as S. pose proof (in_solves it' h' shp' dflt' um' m' c' L' WF' TI' H' V apply' init') as S'.
    pose proof (linked_equal h' um' m' V apply' init' _ S') as Q. destruct S as [S1 S2 S3 S4 S5], S' as [S1' S2' S3' S4' S5']. destruct RS as [RA RL RO].
    assert (VO : forall p o k n, occurs h um p o -> called h um m p k o n -> variable h o).
    { intros p o k n Ho C. assert (K : linked h um m p o p o) by (eapply l_name; eassumption).
      apply (same_node it h shp dflt um m c L WF TI H) in K. apply K. }
    assert (GI : forall p o n p' o', occurs h um p o -> variable h o -> given h um m p o n -> R p o p' o' -> init n = val' p' o').
    { intros p o n p' o' Ho Vo G HR. destruct (IN p o n G) as (p1 & o1 & n' & HR1 & G' & ->).
      assert (E : val' p1 o1 = val' p' o') by (apply Q; eapply RL; [exact HR1|exact HR|apply l_self; assumption]). rewrite <- E.
      destruct G' as [G'|(O' & C' & U1 & U2)]; symmetry; [apply S4', G'|apply S5'; assumption]. }
    apply (d_grounded it h shp dflt um m c L WF TI H (fun p o => forall p' o', R p o p' o' -> val p o = val' p' o')).
    - intros p o n Ho C p' o' HR. rewrite (S4 p o n C). eapply GI; [exact Ho|eapply VO; eassumption|left; exact C|exact HR].
    - intros p o n Ho C U p' o' HR. destruct U as [U1 U2]. rewrite (S5 p o n Ho C U1 U2). eapply GI; [exact Ho|eapply VO; eassumption| |exact HR].
      right. split; [exact Ho|]. split; [exact C|split; assumption].
    - intros p a v Ha Oa Wa IH p' o' HR. pose proof Wa as (ob & E & Ob & Iv). apply In_nth_error in Iv. destruct Iv as (k & Ek).
      rewrite (S1 p a ob k v Ha E Ob Ek). destruct (RO p a ob Ha E Ob) as (q & a' & ob' & Ha' & E' & Ob' & SO & FD & FO).
      destruct (Forall2_nth _ _ _ _ _ FO Ek) as (w & Ew & HRw).
      assert (Hv : occurs h um p v).
      { destruct (op_needed h shp um m WF p a Ha Oa) as (ins & outs & decls & subs & A & Hn). exists ins, outs, decls, subs. split; [exact A|]. right. eapply needed_out; eassumption. }
      assert (Vv : variable h v) by apply out_var, (f_outputs WF _ _ Wa).
      assert (El : val' q w = val' p' o') by (apply Q; eapply RL; [exact HRw|exact HR|apply l_self; assumption]). rewrite <- El.
      rewrite (S1' q a' ob' k w Ha' E' Ob' Ew), (AP a a' SO). f_equal.
      assert (ID : forall d, In d (ob_deps ob) -> forall d', R p d q d' -> val p d = val' q d').
      { intros d Hd d' Hdd. assert (Rd : reads h a d) by (exists ob; auto). eapply (IH d Rd); [|exact Hdd]. exact (needed_arg h shp um m WF p a d Ha Oa Rd). }
      clear -FD ID. induction FD as [|d d' l l' Hd _ IH']; [reflexivity|]. cbn. f_equal; [apply ID; [now left|exact Hd]|]. apply IH'. intros x Hx. apply ID. now right.
    - intros p k o p1 k1 o1 n Ho Ho1 C C1 IH p' o' HR. destruct (RA p o Ho (VO p o k n Ho C)) as (x & y & HRo).
      rewrite <- (S2 p k o p1 k1 o1 n Ho Ho1 C C1), (IH x y HRo). apply Q. eapply RL; [exact HRo|exact HR|]. eapply l_name; eassumption.
    - intros p0 a b pa pb p k o p1 k1 o1 D Ra Rb Ho Ho1 C C1 IH p' o' HR. destruct (RA p o Ho (VO p o k pa Ho C)) as (x & y & HRo).
      rewrite (S3 p0 a b pa pb p k o p1 k1 o1 D Ra Rb Ho Ho1 C C1), (IH x y HRo). apply Q. eapply RL; [exact HRo|exact HR|]. eapply l_conn; eassumption.
  Qed.
End Refactor.
