(** The values of an extended program solve the equations of the program before. *)
From Verif Require Import PyBase NamesModel PromotionsModel PromotionsSpec HierModel HierSpec Digraph TopoModel FlatModel ExprModel UnflatModel UnflatSpec
  FlattenModel FlattenSpec CompileModel CompileSpec IterModel IterSpec LookupModel LookupProofs DependSpec ExtendSpec.

Section E.
  Context (h h' : list obj) (um um' : umodel) (m m' : model).
  Context (K : keeps h h') (UG : um_grows um um') (G : grows m m') (NK : names_kept h h' um).

  Lemma e_reads x y : reads h x y -> reads h' x y.
  Proof. intros (ob & E & Hi). destruct (K _ _ E) as (ob' & E' & _ & D & _). exists ob'. rewrite D. auto. Qed.
  Lemma e_writes x y : writes h x y -> writes h' x y.
  Proof. intros (ob & E & O & Hi). destruct (K _ _ E) as (ob' & E' & O' & _ & l & M). exists ob'. rewrite O', M. split; [exact E'|]. split; [exact O|]. apply in_or_app. auto. Qed.
  Lemma e_needed outs outs' o : incl outs outs' -> needed h outs o -> needed h' outs' o.
  Proof. intros I. induction 1 as [x Hx|x y _ IH R|x y _ IH R]; [apply needed_leaf, I, Hx|eapply needed_dep; [exact IH|apply e_reads, R]|eapply needed_out; [exact IH|apply e_writes, R]]. Qed.
  Lemma e_um_at p ins outs decls subs : um_at um p (UM ins outs decls subs) ->
    exists ins' outs' decls' subs', um_at um' p (UM ins' outs' decls' subs') /\ incl ins ins' /\ incl outs outs' /\ incl decls decls'.
  Proof.
    intros A. remember (UM ins outs decls subs) as x eqn:Ex. clear NK. revert um' UG. induction A as [y|i o d s nm sm p y Hi A IH]; intros u U.
    - subst y. inversion U; subst. eexists _, _, _, _. split; [constructor|]. auto.
    - inversion U as [? ? ? ? i' o' d' s' I1 I2 I3 I4]; subst. destruct (I4 _ _ Hi) as (sm' & Hi' & U'). destruct (IH eq_refl _ U') as (a & b & c & d0 & B & C).
      exists a, b, c, d0. split; [econstructor; eassumption|exact C].
  Qed.
  Lemma e_occurs p o : occurs h um p o -> occurs h' um' p o.
  Proof.
    intros (ins & outs & decls & subs & A & D). apply e_um_at in A. destruct A as (ins' & outs' & decls' & subs' & A & I1 & I2 & I3).
    exists ins', outs', decls', subs'. split; [exact A|]. destruct D as [D|D]; [left; auto|right; eapply e_needed; eassumption].
  Qed.
  Lemma e_member p k o x : member h um p k o x -> member h' um' p k o x.
  Proof.
    intros M. split; [exact (NK _ _ _ _ M)|]. destruct M as (_ & ins & outs & decls & subs & A & D). apply e_um_at in A. destruct A as (ins' & outs' & decls' & subs' & A & I1 & I2 & I3).
    exists ins', outs', decls', subs'. split; [exact A|]. destruct k; auto.
  Qed.
  Lemma e_sub_at p x : sub_at m p x -> exists x', sub_at m' p x' /\ grows x x'.
  Proof.
    intros A. revert m' G. induction A as [y|y nm pr sm p z Hi A IH]; intros m0 G0; [exists m0; split; [constructor|exact G0]|].
    inversion G0 as [? ? _ _ I]; subst. destruct (I _ _ _ Hi) as (sm' & Hi' & G'). destruct (IH _ G') as (x' & B & C). exists x'. split; [econstructor; eassumption|exact C].
  Qed.
  Lemma e_promoted p x q : promoted_ns m p x q -> promoted_ns m' p x q.
  Proof.
    intros A. revert m' G. induction A as [y x|y nm pr sm p x Hi A IH L|y nm pr sm p x q Hi A IH L]; intros m0 G0; [constructor| |];
      inversion G0 as [? ? _ _ I]; subst; destruct (I _ _ _ Hi) as (sm' & Hi' & G'); [eapply pn_lifted|eapply pn_prefixed]; eauto.
  Qed.
  Lemma e_called p k o n : called h um m p k o n -> called h' um' m' p k o n.
  Proof. intros (x & q & M & P & ->). exists x, q. split; [apply e_member, M|]. split; [apply e_promoted, P|reflexivity]. Qed.
  Lemma e_conn p a b : declared_conn m p a b -> declared_conn m' p a b.
  Proof. intros (x & A & Hi). apply e_sub_at in A. destruct A as (x' & A & Gx). exists x'. split; [exact A|]. inversion Gx as [? ? _ I _]; subst. apply I, Hi. Qed.
  Lemma e_resolves f n : resolves_to m f n -> resolves_to m' f n.
  Proof.
    intros (p & k & x & s & q & (y & A & Hi) & P & E & F). exists p, k, x, s, q. apply e_sub_at in A. destruct A as (y' & A & Gy).
    split; [exists y'; split; [exact A|]; inversion Gy as [? ? I _ _]; subst; apply I, Hi|]. split; [apply e_promoted, P|]. auto.
  Qed.

  Lemma e_targets : inputs_not_targets h' um' m' -> inputs_not_targets h um m.
  Proof.
    intros T p o n (p0 & a & b & D & R) C. apply (T p o n); [|apply e_called, C]. exists p0, a, b. split; [apply e_conn, D|apply e_resolves, R].
  Qed.
  Lemma e_solves V (apply : nat -> list V -> nat -> V) init val :
    supplies_nothing h um m h' um' m' ->
    solves h' um' m' apply init val -> solves h um m apply init val.
  Proof.
    intros U [S1 S2 S3 S4 S5]. split.
    - intros p o ob k v Ho E O Hk. destruct (K _ _ E) as (ob' & E' & O' & D & l & M). rewrite <- D. apply (S1 p o ob' k v); [apply e_occurs, Ho|exact E'|congruence|].
      rewrite M. rewrite nth_error_app1; [exact Hk|]. apply nth_error_Some. congruence.
    - intros p k o p' k' o' n Ho Ho' C C'. eapply S2; [apply e_occurs, Ho|apply e_occurs, Ho'|apply e_called, C|apply e_called, C'].
    - intros p0 a b pa pb p k o p' k' o' D R R' Ho Ho' C C'.
      eapply S3; [apply e_conn, D|apply e_resolves, R|apply e_resolves, R'|apply e_occurs, Ho|apply e_occurs, Ho'|apply e_called, C|apply e_called, C'].
    - intros p o n C. apply S4, e_called, C.
    - intros p o n Ho C N1 N2. destruct (U p o n Ho C (conj N1 N2)) as [N1' N2']. apply S5; [apply e_occurs, Ho|apply e_called, C|exact N1'|exact N2'].
  Qed.
End E.
