(** Property theorems C116: consistent renaming of programs. *)
From Verif Require Import PyBase NamesModel PromotionsModel PromotionsSpec HierModel HierSpec Digraph TopoModel FlatModel ExprModel UnflatModel UnflatSpec
  FlattenModel FlattenSpec CompileModel CompileSpec AcceptSpec WorldModel WorldSpec WorldSpec2 Prop_World IterModel IterSpec Prop_Iter Prop_Iter2 DependSpec Prop_Extend WorldCheck
  ViewProofs LinkSpec LinkProofs LinkCheck RenameSpec RenameProofs Prop_Rename ConsistentSpec ConsistentProofs3 ConsistentSpec2 ConsistentProofs4 Prop_Consistent.
From Coq Require Import Ascii.
Local Open Scope string_scope.
Local Open Scope list_scope.

Lemma legal_ok n : is_ok (check_banned_chars n) = true <-> legal n.
Proof.
  unfold check_banned_chars, legal. transitivity (all_chars char_ok n = true); [destruct (all_chars char_ok n); split; auto; discriminate|].
  induction n as [|c n IH]; [split; [intros _ c []|reflexivity]|]. cbn [all_chars list_ascii_of_string]. rewrite andb_true_iff, IH. unfold char_ok. rewrite orb_true_iff. split.
  - intros [[A|A] B] x [<-|Hx]; auto. right. apply Ascii.eqb_eq, A.
  - intros H. split; [destruct (H c (or_introl eq_refl)) as [A|A]; [auto|right; apply Ascii.eqb_eq, A]|]. intros x Hx. apply H. now right.
Qed.
Lemma legal_same r : (forall n, legal (r n) <-> legal n) -> forall n, is_ok (check_banned_chars (r n)) = is_ok (check_banned_chars n).
Proof. intros H n. apply Bool.eq_true_iff_eq. rewrite !legal_ok. apply H. Qed.

(** C116, programs: when all names in a program are replaced one to one, by names that are accepted
    when the old ones are, the same calls are accepted: the new program makes the same objects, and
    each of its models is the model of the old program with all names replaced. *)
Theorem c116_tree : forall r s l shp f k,
  renaming r s -> (forall n, legal (r n) <-> legal n) -> all_named l ->
  same_objects (w_heap (whistory l)) (w_heap (whistory (rename_program r l))) /\
  tree f (whistory (rename_program r l)) shp k = match tree f (whistory l) shp k with Some (um, m) => Some (rename_um r um, rename_model r m) | None => None end.
Proof.
  intros r s l shp f k RN LG A. pose proof (wren_history r s RN (legal_same r LG) l A) as W. split.
  - destruct W as [E _]. unfold same_objects. eapply RenameProofs3.Forall2_map_eq; [|exact E]. intros a b Q. injection Q as E1 E2 E3 E4 E5. split; auto.
  - rewrite (wren_tree r _ _ shp W). destruct (tree f (whistory l) shp k) as [[um m]|]; reflexivity.
Qed.
Print Assumptions c116_tree.

Lemma rules_named l : follows_rules l -> all_named l.
Proof. intros F k pr c H. apply in_split in H. destruct H as (a & b & E). destruct (F a _ b E) as (n & Q & _). discriminate. Qed.

(** C116, programs: the renamed program compiles if and only if the old one does, and computes the
    same values when they are supplied under the new names. *)
Theorem c116_program : forall V r s it it' l shp dflt dflt' f k um m um' m',
  let l' := rename_program r l in let h := w_heap (whistory l) in let h' := w_heap (whistory l') in
  renaming r s -> (forall n, legal (r n) <-> legal n) -> lawful it -> lawful it' ->
  follows_rules l -> finished l -> follows_rules l' -> finished l' ->
  tree f (whistory l) shp k = Some (um, m) -> tree f (whistory l') shp k = Some (um', m') ->
  inputs_not_targets h um m ->
  (sizes_agree m -> valid_promotes m -> ((exists c, compile_in it h shp dflt um m = Ok c) <-> (exists c', compile_in it' h' shp dflt' um' m' = Ok c'))) /\
  forall c c' (apply : nat -> list V -> nat -> V) init init',
    compile_in it h shp dflt um m = Ok c -> compile_in it' h' shp dflt' um' m' = Ok c' -> (forall n, init n = init' (r n)) ->
    forall p o, occurs h um p o -> variable h o -> result h' shp dflt' apply init' c' (map r p) o = result h shp dflt apply init c p o.
Proof.
  intros V r s it it' l shp dflt dflt' f k um m um' m' l' h h' RN LG L L' FR FI FR' FI' T T' TI.
  destruct (c116_tree r s l shp f k RN LG (rules_named l FR)) as [SO E]. fold l' in E. rewrite T, T' in E. injection E as -> ->.
  pose proof (c89_well_formed _ _ _ _ _ _ FR FI T) as WF. pose proof (c89_well_formed _ _ _ _ _ _ FR' FI' T') as WF'. split.
  - intros SA VP. exact (c116_compiles r s it it' h h' shp dflt dflt' um m RN L L' SO WF WF' TI SA VP).
  - intros c c' apply init init' C C' IN p o Ho Vo. exact (c116_values V r s it it' h h' shp shp dflt dflt' um m c c' apply init init' RN L L' SO WF WF' TI C C' IN p o Ho Vo).
Qed.
Print Assumptions c116_program.

Lemma swapped_alnum c : is_alnum (swapped c) = is_alnum c.
Proof. unfold swapped. destruct (Ascii.eqb_spec c "u") as [->|N1]; [reflexivity|]. destruct (Ascii.eqb_spec c "w") as [->|N2]; [reflexivity|]. destruct (Ascii.eqb_spec c "A") as [->|N3]; [reflexivity|]. destruct (Ascii.eqb_spec c "B") as [->|N4]; reflexivity. Qed.
Lemma swap_chars n : list_ascii_of_string (swap n) = map swapped (list_ascii_of_string n).
Proof. induction n as [|c n IH]; [reflexivity|]. cbn. f_equal. exact IH. Qed.
Lemma swap_legal n : legal (swap n) <-> legal n.
Proof.
  unfold legal. rewrite swap_chars. assert (U : swapped "_" = "_"%char) by reflexivity. split; intros H c Hc.
  - destruct (H (swapped c) (in_map swapped _ _ Hc)) as [A|A]; [rewrite swapped_alnum in A; auto|right]. rewrite <- (swapped_twice c), A. exact U.
  - apply in_map_iff in Hc. destruct Hc as (x & <- & Hx). rewrite swapped_alnum. destruct (H x Hx) as [A|A]; [auto|right]. rewrite A. exact U.
Qed.
Example c116_program_nonvacuous : exists um m c c', let h := w_heap (whistory cs1) in let h' := w_heap (whistory cs2) in
  rename_program swap cs1 = cs2 /\ renaming swap swap /\ (forall n, legal (swap n) <-> legal n) /\ follows_rules cs1 /\ finished cs1 /\ follows_rules cs2 /\ finished cs2 /\
  tree 3 (whistory cs1) gsh 0 = Some (um, m) /\ tree 3 (whistory cs2) gsh 0 = Some (rename_um swap um, rename_model swap m) /\ inputs_not_targets h um m /\
  compile_in insertion_order h gsh (fun _ => true) um m = Ok c /\ compile_in backwards h' gsh (fun _ => true) (rename_um swap um) (rename_model swap m) = Ok c'.
Proof.
  destruct c116_nonvacuous as (um & m & c & c' & A). cbv zeta in A. destruct A as (A1 & _ & _ & _ & A5 & _ & _ & A8 & A9 & A10 & A11 & _). exists um, m, c, c'. cbv zeta.
  split; [reflexivity|]. split; [exact A1|]. split; [exact swap_legal|]. split; [apply rules_check; vm_compute; reflexivity|]. split; [apply finished_check; vm_compute; reflexivity|].
  split; [apply rules_check; vm_compute; reflexivity|]. split; [apply finished_check; vm_compute; reflexivity|]. repeat (split; [assumption|]). assumption.
Qed.
