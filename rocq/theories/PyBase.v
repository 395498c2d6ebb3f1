(** Python values and containers used by all the models.
    Nothing here models csdl itself; it fixes how Python notions are rendered:
    - an exception is a value of type [exn], a call that may raise has type [res A];
    - a [dict] with string keys is an association list in insertion order
      (Python 3.7+), written by [dset] which replaces in place or appends;
    - a Python [set] of strings is a list used only through membership. *)
From Coq Require Export List Arith ZArith NArith Lia Bool String Ascii.
Export ListNotations.
Set Implicit Arguments.
(* [length], [concat] denote the list functions *)
Notation length := List.length.
Notation concat := List.concat.

Inductive exn :=
| ValueError | KeyError | TypeError | IndexError
| NotImplementedError | RuntimeError | AttributeError | ZeroDivisionError | NameError.

Inductive res (A : Type) :=
| Ok (a : A)
| Err (e : exn).
Arguments Ok {A} a.
Arguments Err {A} e.

Definition bind {A B} (x : res A) (f : A -> res B) : res B :=
  match x with Ok a => f a | Err e => Err e end.
Notation "'do' x <- e ; f" := (bind e (fun x => f))
  (at level 200, x pattern, e at level 100, f at level 200, right associativity).

Definition is_ok {A} (x : res A) : bool :=
  match x with Ok _ => true | Err _ => false end.

(** [raise_if c e k]: Python's [if c: raise e] followed by [k]. *)
Definition raise_if {A} (c : bool) (e : exn) (k : res A) : res A :=
  if c then Err e else k.

(** String membership in a list. *)
Fixpoint smem (x : string) (l : list string) : bool :=
  match l with [] => false | y :: r => String.eqb x y || smem x r end.

Definition dict (V : Type) := list (string * V).

Fixpoint dget {V} (d : dict V) (k : string) : option V :=
  match d with
  | [] => None
  | (k', v) :: r => if String.eqb k k' then Some v else dget r k
  end.

Definition dkeys {V} (d : dict V) : list string := map fst d.

Definition dmem {V} (k : string) (d : dict V) : bool := smem k (dkeys d).

(** [d[k] = v] *)
Fixpoint dset {V} (d : dict V) (k : string) (v : V) : dict V :=
  match d with
  | [] => [(k, v)]
  | (k', v') :: r => if String.eqb k k' then (k', v) :: r else (k', v') :: dset r k v
  end.

(** [d.pop(k)] / [del d[k]] for a present key; no effect otherwise. *)
Fixpoint ddel {V} (d : dict V) (k : string) : dict V :=
  match d with
  | [] => []
  | (k', v') :: r => if String.eqb k k' then r else (k', v') :: ddel r k
  end.

(** [d.update(e)] *)
Definition dupdate {V} (d e : dict V) : dict V :=
  fold_left (fun acc kv => dset acc (fst kv) (snd kv)) e d.

(** [dict(pairs)], i.e. a dict comprehension over the pairs in order. *)
Definition dict_of {V} (ps : list (string * V)) : dict V := dupdate [] ps.

(** [np.prod] of a shape. *)
Fixpoint prod (s : list nat) : nat :=
  match s with [] => 1 | n :: r => n * prod r end.

(** [list(set)]-free union of string sets used as lists without duplicates. *)
Definition sadd (l : list string) (x : string) : list string :=
  if smem x l then l else l ++ [x].
Definition sunion (a b : list string) : list string := fold_left sadd b a.

(** list equality tests *)
Fixpoint list_eqb {A} (eqb : A -> A -> bool) (a b : list A) : bool :=
  match a, b with
  | [], [] => true
  | x :: a', y :: b' => eqb x y && list_eqb eqb a' b'
  | _, _ => false
  end.
Definition shape_eqb := list_eqb Nat.eqb.

(** *** Characterising lemmas *)

Lemma smem_spec x l : smem x l = true <-> In x l.
Proof.
  induction l as [|y r IH]; simpl; [split; [discriminate|tauto]|].
  rewrite orb_true_iff, IH. destruct (String.eqb_spec x y); split; intros H; auto.
  - destruct H as [H|H]; [discriminate|auto].
  - destruct H as [H|H]; [subst; congruence|auto].
Qed.

Lemma smem_false x l : smem x l = false <-> ~ In x l.
Proof.
  rewrite <- smem_spec. destruct (smem x l); split; intros; congruence.
Qed.

Lemma dmem_spec {V} k (d : dict V) : dmem k d = true <-> In k (dkeys d).
Proof. apply smem_spec. Qed.

Lemma dmem_false {V} k (d : dict V) : dmem k d = false <-> ~ In k (dkeys d).
Proof. apply smem_false. Qed.

Lemma dget_In {V} (d : dict V) k v : dget d k = Some v -> In (k, v) d.
Proof.
  induction d as [|[k' v'] r IH]; simpl; [discriminate|].
  destruct (String.eqb_spec k k'); intros H; [injection H as <-; subst; auto | auto].
Qed.

Lemma dget_None {V} (d : dict V) k : dget d k = None <-> ~ In k (dkeys d).
Proof.
  induction d as [|[k' v'] r IH]; simpl; [tauto|].
  destruct (String.eqb_spec k k') as [->|Hne].
  - split; [discriminate|]. intros H; exfalso; auto.
  - rewrite IH. split; intros H; [intros [E|E]; [congruence|auto]|auto].
Qed.

Lemma dget_Some_key {V} (d : dict V) k v : dget d k = Some v -> In k (dkeys d).
Proof. intros H; apply dget_In in H. apply (in_map fst) in H; exact H. Qed.

Lemma In_key_dget {V} (d : dict V) k : In k (dkeys d) -> exists v, dget d k = Some v.
Proof.
  intros H. destruct (dget d k) as [v|] eqn:E; [eauto|].
  apply dget_None in E; contradiction.
Qed.

Lemma In_dget {V} (d : dict V) k v : NoDup (dkeys d) -> In (k, v) d -> dget d k = Some v.
Proof.
  induction d as [|[k' v'] r IH]; simpl; [tauto|].
  intros HN HI. inversion HN as [|? ? Hni HN']; subst.
  destruct HI as [E|HI].
  - injection E as -> ->. rewrite String.eqb_refl; reflexivity.
  - destruct (String.eqb_spec k k') as [->|_]; [|auto].
    exfalso; apply Hni. apply (in_map fst) in HI; exact HI.
Qed.

Lemma dget_dset_same {V} (d : dict V) k v : dget (dset d k v) k = Some v.
Proof.
  induction d as [|[k' v'] r IH]; simpl; [rewrite String.eqb_refl; reflexivity|].
  destruct (String.eqb_spec k k') as [->|Hne]; simpl.
  - rewrite String.eqb_refl; reflexivity.
  - destruct (String.eqb_spec k k'); [congruence|exact IH].
Qed.

Lemma dget_dset_other {V} (d : dict V) k k' v : k' <> k -> dget (dset d k v) k' = dget d k'.
Proof.
  intros Hne. induction d as [|[k1 v1] r IH]; simpl.
  - destruct (String.eqb_spec k' k); [congruence|reflexivity].
  - destruct (String.eqb_spec k k1) as [->|H1]; simpl.
    + destruct (String.eqb_spec k' k1); [congruence|reflexivity].
    + rewrite IH; reflexivity.
Qed.

Lemma dkeys_dset {V} (d : dict V) k v :
  dkeys (dset d k v) = if dmem k d then dkeys d else dkeys d ++ [k].
Proof.
  induction d as [|[k' v'] r IH]; [reflexivity|]. unfold dmem in *; simpl.
  destruct (String.eqb_spec k k') as [->|Hne]; simpl; [reflexivity|].
  rewrite IH. destruct (smem k (dkeys r)); reflexivity.
Qed.

Lemma In_dkeys_dset {V} (d : dict V) k v x :
  In x (dkeys (dset d k v)) <-> x = k \/ In x (dkeys d).
Proof.
  rewrite dkeys_dset. destruct (dmem k d) eqn:E.
  - apply dmem_spec in E. split; [auto|intros [->|H]; auto].
  - rewrite in_app_iff; simpl; intuition congruence.
Qed.

Lemma NoDup_dset {V} (d : dict V) k v : NoDup (dkeys d) -> NoDup (dkeys (dset d k v)).
Proof.
  intros HN. rewrite dkeys_dset. destruct (dmem k d) eqn:E; [exact HN|].
  apply dmem_false in E.
  induction (dkeys d) as [|a l IH]; simpl; [constructor; [tauto|constructor]|].
  inversion HN; subst. constructor.
  - rewrite in_app_iff; simpl. intros [H|[H|[]]]; [tauto|]. subst. apply E; left; reflexivity.
  - apply IH; [assumption|]. intros H; apply E; right; exact H.
Qed.

Lemma dupdate_nil {V} (d : dict V) : dupdate d [] = d.
Proof. reflexivity. Qed.

Lemma dupdate_cons {V} (d : dict V) kv e : dupdate d (kv :: e) = dupdate (dset d (fst kv) (snd kv)) e.
Proof. reflexivity. Qed.

Lemma In_dkeys_dupdate {V} (e d : dict V) x :
  In x (dkeys (dupdate d e)) <-> In x (dkeys d) \/ In x (dkeys e).
Proof.
  revert d; induction e as [|[k v] e IH]; intros d; [simpl; tauto|].
  rewrite dupdate_cons, IH; simpl. rewrite In_dkeys_dset. intuition congruence.
Qed.

Lemma NoDup_dupdate {V} (e d : dict V) : NoDup (dkeys d) -> NoDup (dkeys (dupdate d e)).
Proof.
  revert d; induction e as [|[k v] e IH]; intros d H; [exact H|].
  rewrite dupdate_cons. apply IH. apply NoDup_dset; exact H.
Qed.

(** value after update: the right dict wins *)
Lemma dget_dupdate {V} (e d : dict V) x :
  NoDup (dkeys e) ->
  dget (dupdate d e) x = match dget e x with Some v => Some v | None => dget d x end.
Proof.
  revert d; induction e as [|[k v] e IH]; intros d HN; [reflexivity|].
  rewrite dupdate_cons. inversion HN as [|? ? Hni HN']; subst. rewrite IH by assumption; simpl.
  destruct (String.eqb_spec x k) as [->|Hne].
  - destruct (dget e k) as [w|] eqn:E.
    + exfalso. apply Hni. apply dget_Some_key in E; exact E.
    + apply dget_dset_same.
  - destruct (dget e x); [reflexivity|]. apply dget_dset_other; exact Hne.
Qed.

Lemma In_sadd l x y : In y (sadd l x) <-> In y l \/ y = x.
Proof.
  unfold sadd. destruct (smem x l) eqn:E.
  - apply smem_spec in E. split; [auto|intros [H| ->]; auto].
  - rewrite in_app_iff; simpl; intuition congruence.
Qed.

Lemma In_sunion b a y : In y (sunion a b) <-> In y a \/ In y b.
Proof.
  unfold sunion. revert a; induction b as [|x b IH]; intros a; simpl; [tauto|].
  rewrite IH, In_sadd. intuition congruence.
Qed.

Lemma NoDup_app_single {A} (l : list A) x : NoDup l -> ~ In x l -> NoDup (l ++ [x]).
Proof.
  induction l as [|a l IH]; simpl; intros HN HI; [constructor; [tauto|constructor]|].
  inversion HN; subst. constructor.
  - rewrite in_app_iff; simpl. intuition congruence.
  - apply IH; [assumption|tauto].
Qed.

Lemma NoDup_sadd l x : NoDup l -> NoDup (sadd l x).
Proof.
  intros H. unfold sadd. destruct (smem x l) eqn:E; [exact H|].
  apply smem_false in E. apply NoDup_app_single; assumption.
Qed.

Lemma NoDup_sunion b a : NoDup a -> NoDup (sunion a b).
Proof.
  unfold sunion; revert a; induction b as [|x b IH]; intros a H; simpl; [exact H|].
  apply IH, NoDup_sadd, H.
Qed.

Lemma list_eqb_spec {A} (eqb : A -> A -> bool)
  (H : forall x y, eqb x y = true <-> x = y) a b : list_eqb eqb a b = true <-> a = b.
Proof.
  revert b; induction a as [|x a IH]; intros [|y b]; simpl; try (split; congruence).
  rewrite andb_true_iff, H, IH. split; [intros [-> ->]; reflexivity|intros E; injection E; auto].
Qed.

Lemma shape_eqb_spec a b : shape_eqb a b = true <-> a = b.
Proof. apply list_eqb_spec. exact Nat.eqb_eq. Qed.

Lemma shape_eqb_refl a : shape_eqb a a = true.
Proof. apply shape_eqb_spec; reflexivity. Qed.

Lemma prod_app a b : prod (a ++ b) = prod a * prod b.
Proof. induction a as [|x a IH]; simpl; [lia|]. rewrite IH; lia. Qed.

Lemma NoDup_app_iff {A} (a b : list A) :
  NoDup (a ++ b) <-> NoDup a /\ NoDup b /\ (forall x, In x a -> In x b -> False).
Proof.
  induction a as [|x a IH]; simpl.
  - split; [intros H; repeat split; [constructor|exact H|tauto]|tauto].
  - split.
    + intros H; inversion H as [|? ? Hni Hnd]; subst. apply IH in Hnd. destruct Hnd as (Ha & Hb & Hd).
      rewrite in_app_iff in Hni. repeat split; auto.
      * constructor; tauto.
      * intros y [->|Hy] Hyb; [tauto|eauto].
    + intros (Ha & Hb & Hd). inversion Ha; subst. constructor.
      * rewrite in_app_iff. intros [H|H]; [tauto|]. eapply Hd; [left; reflexivity|exact H].
      * apply IH. repeat split; auto. intros y Hy1 Hy2. eapply Hd; eauto.
Qed.
