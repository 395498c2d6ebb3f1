(** Programs that differ in names. *)
From Verif Require Import PyBase NamesModel PromotionsModel PromotionsSpec PromotionsProofs ExprModel ExprProofs UnflatModel WorldModel WorldSpec WorldProofs RenameSpec.
From Coq Require Import Lia.
Local Open Scope list_scope.

Definition eo (o : obj) : obj := Obj (ob_kind o) 0%N EmptyString (ob_deps o) (ob_outs o) (ob_decomp o) (ob_defined o).
Definition hrel (h h' : list obj) : Prop := map eo h = map eo h'.
Lemma hrel_length h h' : hrel h h' -> length h = length h'.
Proof. intros E. rewrite <- (map_length eo h), E. apply map_length. Qed.
Lemma hrel_nth h h' i : hrel h h' -> option_map eo (nth_error h i) = option_map eo (nth_error h' i).
Proof. intros E. rewrite <- !nth_error_map. unfold hrel in E. rewrite E. reflexivity. Qed.
Lemma map_upd {A} (g f f' : A -> A) l i : (forall x, g (f x) = f' (g x)) -> map g (upd l i f) = upd (map g l) i f'.
Proof. intros H. revert i. induction l as [|x l IH]; intros [|i]; cbn; f_equal; auto. Qed.
Lemma hrel_upd h h' i f : hrel h h' -> (forall x, eo (f x) = f (eo x)) -> hrel (upd h i f) (upd h' i f).
Proof. intros E H. unfold hrel in *. rewrite !(map_upd eo f f) by exact H. rewrite E. reflexivity. Qed.
Lemma hrel_name h i n : hrel (upd h i (set_name n)) h.
Proof. unfold hrel. rewrite (map_upd eo (set_name n) (fun x => x)) by reflexivity. revert i. induction h as [|x l IH]; intros [|i]; cbn; f_equal; auto. Qed.
Lemma upd_same {A} (l : list A) i : upd l i (fun x => x) = l.
Proof. revert i. induction l as [|x l IH]; intros [|i]; cbn; f_equal; auto. Qed.

Definition brel (s s' : bst) : Prop := hrel (b_heap s) (b_heap s') /\ b_ins s = b_ins s' /\ b_outs s = b_outs s' /\ b_decls s = b_decls s'.
Lemma brel_kind f s s' i : brel s s' -> (forall o, f (eo o) = f o) -> kind_is f s i = kind_is f s' i.
Proof.
  intros [E _] H. unfold kind_is. pose proof (hrel_nth _ _ i E) as K. destruct (nth_error (b_heap s) i) as [o|], (nth_error (b_heap s') i) as [o'|]; try discriminate K; [|reflexivity].
  cbn in K. injection K as K1 K2 K3 K4 K5. rewrite <- (H o), <- (H o'). unfold eo. rewrite K1, K2, K3, K4, K5. reflexivity.
Qed.
Lemma brel_alloc s s' k n n' d : brel s s' -> brel (fst (alloc s k n d)) (fst (alloc s' k n' d)) /\ snd (alloc s k n d) = snd (alloc s' k n' d).
Proof.
  intros (E & I & O & D). split; [|apply hrel_length, E]. split; [|cbn; auto]. cbn. unfold hrel. rewrite !map_app. unfold hrel in E. rewrite E. reflexivity.
Qed.
Lemma brel_upd s s' i f : brel s s' -> (forall x, eo (f x) = f (eo x)) -> brel (with_objs s (upd (b_heap s) i f)) (with_objs s' (upd (b_heap s') i f)).
Proof. intros (E & R) H. split; [apply hrel_upd; assumption|exact R]. Qed.
Lemma brel_outputs op : forall ns ns' s s', length ns = length ns' -> brel s s' -> brel (fst (new_outputs s op ns)) (fst (new_outputs s' op ns')) /\ snd (new_outputs s op ns) = snd (new_outputs s' op ns').
Proof.
  induction ns as [|n ns IH]; intros [|n' ns'] s s' L R; try discriminate; [auto|]. cbn [new_outputs]. destruct (brel_alloc s s' KOut n n' [op] R) as [A B].
  destruct (alloc s KOut n [op]) as [s1 v], (alloc s' KOut n' [op]) as [s1' v']. cbn [fst snd] in *. subst v'. injection L as L. destruct (IH ns' s1 s1' L A) as [A2 B2].
  destruct (new_outputs s1 op ns) as [s2 vs], (new_outputs s1' op ns') as [s2' vs']. cbn [fst snd] in *. subst vs'. auto.
Qed.
Lemma brel_op s s' args ns ns' : length ns = length ns' -> brel s s' -> brel (fst (new_op s args ns)) (fst (new_op s' args ns')) /\ snd (new_op s args ns) = snd (new_op s' args ns').
Proof.
  intros L R. unfold new_op. destruct (brel_alloc s s' (KOp false) None None args R) as [A B]. destruct (alloc s (KOp false) None args) as [s1 v], (alloc s' (KOp false) None args) as [s1' v']. cbn [fst snd] in *. subst v'.
  destruct (brel_outputs v ns ns' s1 s1' L A) as [A2 B2]. destruct (new_outputs s1 v ns) as [s2 vs], (new_outputs s1' v ns') as [s2' vs']. cbn [fst snd] in *. subst vs'. split; [|reflexivity]. apply brel_upd; [exact A2|reflexivity].
Qed.
Lemma brel_dedup : forall args seen s s', brel s s' -> brel (fst (dedup_args s seen args)) (fst (dedup_args s' seen args)) /\ snd (dedup_args s seen args) = snd (dedup_args s' seen args).
Proof.
  induction args as [|a args IH]; intros seen s s' R; [auto|]. cbn [dedup_args]. destruct (memn a seen).
  - destruct (brel_op s s' [a] [None] [None] eq_refl R) as [A B]. destruct (new_op s [a] [None]) as [s1 vs], (new_op s' [a] [None]) as [s1' vs']. cbn [fst snd] in *. subst vs'.
    set (a' := match vs with v :: _ => v | [] => a end). destruct (IH (a' :: seen) s1 s1' A) as [A2 B2]. destruct (dedup_args s1 _ args) as [s2 l], (dedup_args s1' _ args) as [s2' l']. cbn [fst snd] in *. subst l'. auto.
  - destruct (IH (a :: seen) s s' R) as [A2 B2]. destruct (dedup_args s _ args) as [s2 l], (dedup_args s' _ args) as [s2' l']. cbn [fst snd] in *. subst l'. auto.
Qed.
Lemma brel_forallb f s s' l : brel s s' -> (forall o, f (eo o) = f o) -> forallb (kind_is f s) l = forallb (kind_is f s') l.
Proof. intros R H. induction l as [|x l IH]; [reflexivity|]. cbn. rewrite IH, (brel_kind f s s' x R H). reflexivity. Qed.
(** An accepted registration. *)
Lemma register_accepted s n v : length (b_outs (register s n v)) <> length (b_outs s) -> brel (register s n v) (add_out s v).
Proof.
  intros H. unfold register in *. repeat match goal with |- context [if ?b then _ else _] => destruct b; [destruct (H eq_refl)|] end. split; [|cbn; auto]. apply hrel_name.
Qed.
Lemma register_keeps s n v : b_ins (register s n v) = b_ins s /\ b_decls (register s n v) = b_decls s.
Proof. unfold register. repeat match goal with |- context [if ?b then _ else _] => destruct b; [auto|] end. auto. Qed.
Lemma brel_trans a b c : brel a b -> brel b c -> brel a c.
Proof. intros (E & I & O & D) (E' & I' & O' & D'). split; [unfold hrel in *; congruence|]. repeat split; congruence. Qed.
Lemma brel_sym a b : brel a b -> brel b a.
Proof. intros (E & I & O & D). split; [unfold hrel in *; congruence|]. repeat split; congruence. Qed.
Lemma brel_add_out s s' v : brel s s' -> brel (add_out s v) (add_out s' v).
Proof. intros (E & I & O & D). split; [exact E|]. cbn. repeat split; congruence. Qed.
Definition marks (e : event) : bool := match e with EInput _ | ECreateOut _ | ERegister _ _ => true | _ => false end.
Definition bsize (s : bst) : nat := length (b_ins s) + length (b_outs s).
Lemma create_accepted s n : bsize (bstep s (ECreateOut n)) <> bsize s -> brel (bstep s (ECreateOut n)) (add_out (fst (alloc s KConcat None [])) (length (b_heap s))).
Proof.
  intros H. cbn [bstep] in *. destruct (is_ok (check_banned_chars n)); [|destruct (H eq_refl)]. cbn [alloc] in *. set (s1 := bump _ _) in *. set (v := length (b_heap s)) in *.
  destruct (memn v (b_outs (register s1 n v))); [|destruct (H eq_refl)]. destruct (register_keeps s1 n v) as [I _].
  assert (G : length (b_outs (register s1 n v)) <> length (b_outs s1)) by (intros X; apply H; unfold bsize; rewrite I, X; reflexivity).
  eapply brel_trans; [exact (register_accepted s1 n v G)|]. cbn [fst]. apply brel_add_out. split; [|cbn; auto]. cbn. unfold hrel. rewrite !map_app. reflexivity.
Qed.
Lemma brel_step s s' e e' : brel s s' -> anonymous e = anonymous e' -> (marks e = true -> bsize (bstep s e) <> bsize s) -> (marks e' = true -> bsize (bstep s' e') <> bsize s') -> brel (bstep s e) (bstep s' e').
Proof.
  intros R Q A A'. pose proof R as (E & I & O & D).
  destruct e as [k|n|n|n|args nouts|args outs| |op args outs|x fr|y x|v op|n v|on], e' as [k'|n'|n'|n'|args' nouts'|args' outs'| |op' args' outs'|x' fr'|y' x'|v' op'|n' v'|on']; try discriminate Q; cbn [anonymous] in Q.
  - injection Q as <-. exact R.
  - specialize (A eq_refl). specialize (A' eq_refl). cbn [bstep] in *. destruct (is_ok (check_banned_chars n)); [|destruct (A eq_refl)]. destruct (is_ok (check_banned_chars n')); [|destruct (A' eq_refl)].
    destruct (brel_alloc s s' KIn (Some n) (Some n') [] R) as [B1 B2]. destruct (alloc s _ _ _) as [s1 v], (alloc s' _ _ _) as [s1' v']. cbn [fst snd] in *. subst v'. destruct B1 as (B1 & B3 & B4 & B5). split; [exact B1|]. cbn. repeat split; congruence.
  - cbn [bstep]. destruct (brel_alloc s s' KDecl (Some n) (Some n') [] R) as [B1 B2]. destruct (alloc s _ _ _) as [s1 v], (alloc s' _ _ _) as [s1' v']. cbn [fst snd] in *. subst v'. destruct B1 as (B1 & B3 & B4 & B5). split; [exact B1|]. cbn. repeat split; congruence.
  - eapply brel_trans; [exact (create_accepted s n (A eq_refl))|]. apply brel_sym. eapply brel_trans; [exact (create_accepted s' n' (A' eq_refl))|]. apply brel_sym.
    rewrite (hrel_length _ _ E). apply brel_add_out. apply brel_alloc, R.
  - injection Q as <- <-. cbn [bstep]. rewrite (brel_forallb is_variable s s' args R) by reflexivity. destruct (forallb _ _); [|exact R]. destruct (brel_dedup args [] s s' R) as [B1 B2].
    destruct (dedup_args s [] args) as [s1 l], (dedup_args s' [] args) as [s1' l']. cbn [fst snd] in *. subst l'. apply brel_op; [reflexivity|exact B1].
  - injection Q as <- Q. cbn [bstep]. rewrite (brel_forallb is_variable s s' args R) by reflexivity. destruct (forallb _ _); [|exact R]. apply brel_op; [|exact R].
    rewrite !map_length. rewrite <- (map_length (fun _ => ""%string) outs), Q. apply map_length.
  - cbn [bstep]. apply brel_alloc, R.
  - injection Q as <- <- Q. cbn [bstep]. rewrite (brel_forallb is_variable s s' args R) by reflexivity. rewrite (brel_kind _ s s' op R) by reflexivity. destruct (_ && _); [|exact R].
    assert (B : brel (with_objs s (upd (b_heap s) op (app_deps args))) (with_objs s' (upd (b_heap s') op (app_deps args)))) by (apply brel_upd; [exact R|reflexivity]).
    assert (Le : length (map Some outs) = length (map Some outs')) by (rewrite !map_length; rewrite <- (map_length (fun _ => ""%string) outs), Q; apply map_length).
    destruct (brel_outputs op (map Some outs) (map Some outs') _ _ Le B) as [B1 B2]. destruct (new_outputs _ op (map Some outs)) as [s2 vs], (new_outputs _ op (map Some outs')) as [s2' vs']. cbn [fst snd] in *. subst vs'.
    apply brel_upd; [exact B1|reflexivity].
  - injection Q as <- <-. cbn [bstep]. pose proof (hrel_nth _ _ x E) as K. destruct (nth_error (b_heap s) x) as [o|], (nth_error (b_heap s') x) as [o'|]; try discriminate K; [|exact R].
    cbn in K. injection K as K1 K2 K3 K4 K5. unfold is_variable, is_op. rewrite K1. destruct (negb _); [|exact R]. rewrite K4.
    assert (G : forall t t' d, brel t t' -> brel (if fr then let (s2, v) := alloc t KOut None [d] in with_objs s2 (upd (b_heap s2) d (add_outs v)) else t) (if fr then let (s2, v) := alloc t' KOut None [d] in with_objs s2 (upd (b_heap s2) d (add_outs v)) else t')).
    { intros t t' d B. destruct fr; [|exact B]. destruct (brel_alloc t t' KOut None None [d] B) as [B1 B2]. destruct (alloc t _ _ _) as [t1 v], (alloc t' _ _ _) as [t1' v']. cbn [fst snd] in *. subst v'. apply brel_upd; [exact B1|reflexivity]. }
    destruct (ob_decomp o') as [d|]; [apply G, R|]. destruct (brel_alloc s s' (KOp false) None None [x] R) as [B1 B2]. destruct (alloc s _ _ _) as [t1 v], (alloc s' _ _ _) as [t1' v']. cbn [fst snd] in *. subst v'. apply G. apply brel_upd; [exact B1|reflexivity].
  - injection Q as <- <-. cbn [bstep]. pose proof (hrel_nth _ _ y E) as K. destruct (nth_error (b_heap s) y) as [o|], (nth_error (b_heap s') y) as [o'|]; try discriminate K; [|exact R].
    cbn in K. injection K as K1 K2 K3 K4 K5. rewrite K1, K5, K2. destruct (ob_kind o'); try exact R. rewrite (brel_kind is_variable s s' x R) by reflexivity. destruct (kind_is _ _ _); [|exact R]. destruct (ob_defined o').
    + destruct (ob_deps o') as [|op r]; [exact R|]. apply brel_upd; [exact R|reflexivity].
    + destruct (brel_alloc s s' (KOp false) None None [x] R) as [B1 B2]. destruct (alloc s _ _ _) as [t1 v], (alloc s' _ _ _) as [t1' v']. cbn [fst snd] in *. subst v'.
      destruct B1 as [B1 B3]. split; [|exact B3]. apply hrel_upd; [apply hrel_upd; [exact B1|reflexivity]|reflexivity].
  - injection Q as <- <-. cbn [bstep]. pose proof (hrel_nth _ _ v E) as K. destruct (nth_error (b_heap s) v) as [o|], (nth_error (b_heap s') v) as [o'|]; try discriminate K; [|exact R].
    cbn in K. injection K as K1 K2 K3 K4 K5. unfold is_variable. unfold is_op at 1 3. rewrite K1, K2, (brel_kind is_op s s' op R) by reflexivity. destruct (_ && _); [|exact R]. apply brel_upd; [exact R|reflexivity].
  - injection Q as <-. assert (G : forall t n0, (bsize (bstep t (ERegister n0 v)) <> bsize t) -> brel (bstep t (ERegister n0 v)) (add_out t v)).
    { intros t n0 X. cbn [bstep] in *. apply register_accepted. intros Y. apply X. destruct (register_keeps t n0 v) as [Z _]. unfold bsize. rewrite Z, Y. reflexivity. }
    eapply brel_trans; [exact (G s n (A eq_refl))|]. apply brel_sym. eapply brel_trans; [exact (G s' n' (A' eq_refl))|]. apply brel_add_out, brel_sym, R.
  - destruct on as [n|], on' as [n'|]; cbn [bstep]; repeat match goal with |- context [if ?b then _ else _] => destruct b end; exact R.
Qed.
