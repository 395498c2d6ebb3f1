(** Property theorems C47 (all histories), C101 (reshaping methods) and C102 (bessel). *)
From Verif Require Import PyBase NamesModel PromotionsModel ApiModel ApiSpec ApiProofs ApiProofs3 ShapeModel Prop_Shape MethodModel.
Local Open Scope string_scope.
Local Open Scope list_scope.

(** Object [o] of a history is the result of one of its create_output calls. *)
Definition by_create_output (l : list call) (o : nat) : Prop :=
  exists before n sh v after, l = before ++ CreateOutput n sh v :: after /\
    length (s_heap (build before)) = o /\ o < length (s_heap (fst (step (build before) (CreateOutput n sh v)))).

Definition sizes_right (s : mst) : Prop :=
  (forall v, In v (s_inputs s) \/ In v (s_decls s) -> v_size v = prod (v_shape v)).

Lemma register_objects s n o : let s' := fst (register_output s n o) in
  s_inputs s' = s_inputs s /\ s_decls s' = s_decls s /\ length (s_heap s') = length (s_heap s) /\
  forall i v', nth_error (s_heap s') i = Some v' -> exists v, nth_error (s_heap s) i = Some v /\ v_size v' = v_size v /\ v_shape v' = v_shape v.
Proof.
  cbv zeta. destruct (register_cases s n o) as [[e ->]|(i & v & _ & Hi & _ & _ & _ & _ & _ & ->)]; cbn [fst s_inputs s_decls s_heap].
  - repeat split; auto. eauto.
  - repeat split; auto; [apply set_nth_length|]. intros j v' E. rewrite nth_error_set_nth in E. destruct (Nat.eqb i j) eqn:Eb; [|eauto].
    apply Nat.eqb_eq in Eb. subst j. rewrite Hi in E. injection E as <-. exists v. auto.
Qed.

Lemma sizes_step s c : sizes_right s -> sizes_right (fst (step s c)).
Proof.
  unfold sizes_right. intros H. destruct c; cbn [step].
  - destruct (check_banned_chars n); [|exact H]. destruct (check_default_val_type v) as [v'|] eqn:Ec; [|exact H].
    destruct (new_variable n sh v' false) as [vi|] eqn:En; [|exact H]. cbn [fst s_inputs s_decls]. intros w [W|W]; [|apply H; auto].
    apply in_app_iff in W. destruct W as [W|[<-|[]]]; [apply H; auto|]. exact (proj1 (proj2 (new_variable_ok _ _ _ _ _ _ Ec En))).
  - destruct (check_default_val_type _) as [v'|] eqn:Ec; [|exact H].
    destruct (new_variable n sh v' _) as [vi|] eqn:En; [|exact H]. cbn [fst s_inputs s_decls]. intros w [W|W]; [apply H; auto|].
    apply in_app_iff in W. destruct W as [W|[<-|[]]]; [apply H; auto|]. exact (proj1 (proj2 (new_variable_ok _ _ _ _ _ _ Ec En))).
  - destruct (check_banned_chars n); [|exact H]. destruct (check_default_val_type v) as [v'|] eqn:Ec; [|exact H].
    destruct (new_concatenation n sh v') as [vi|]; [|exact H].
    destruct (register_objects (tick (with_heap s (s_heap s ++ [vi])) 1) n (Some (length (s_heap s)))) as (-> & -> & _). exact H.
  - exact H.
  - destruct (register_objects s n o) as (-> & -> & _). exact H.
  - destruct (nth_error (s_heap s) o) as [v|]; [|exact H].
    match goal with |- context [register_output ?a ?b ?c] => destruct (register_objects a b c) as (-> & -> & _) end. exact H.
  - destruct (match n with None => Ok tt | Some _ => _ end) as [[]|]; [|exact H]. destruct (negb is_model); [exact H|].
    destruct (match n with None => false | Some _ => _ end); exact H.
  - destruct (String.eqb a b); [exact H|]. destruct (existsb _ _); exact H.
  - destruct (s_obj s); exact H.
  - destruct (negb _); [exact H|]. destruct (dmem _ _); exact H.
  - destruct (dmem _ _); [exact H|]. match goal with |- context [match ?x with Ok _ => _ | Err _ => _ end] => destruct x end; exact H.
Qed.

(** The objects a call adds, and that it changes no size and no shape. *)
Lemma heap_step s c :
  (forall i v', i < length (s_heap s) -> nth_error (s_heap (fst (step s c))) i = Some v' ->
     exists v, nth_error (s_heap s) i = Some v /\ v_size v' = v_size v /\ v_shape v' = v_shape v) /\
  (forall i v', length (s_heap s) <= i -> nth_error (s_heap (fst (step s c))) i = Some v' ->
     i = length (s_heap s) /\
     (v_size v' = prod (v_shape v') /\ (forall n sh v, c <> CreateOutput n sh v) \/
      v_size v' = 1 /\ exists n sh v, c = CreateOutput n sh v)).
Proof.
  assert (Same : forall i v', length (s_heap s) <= i -> nth_error (s_heap s) i = Some v' -> False).
  { intros i v' L E. assert (i < length (s_heap s)) by (apply nth_error_Some; congruence). lia. }
  assert (Unchanged : forall s', s_heap s' = s_heap s ->
    (forall i v', i < length (s_heap s) -> nth_error (s_heap s') i = Some v' -> exists v, nth_error (s_heap s) i = Some v /\ v_size v' = v_size v /\ v_shape v' = v_shape v) /\
    (forall i v', length (s_heap s) <= i -> nth_error (s_heap s') i = Some v' -> i = length (s_heap s) /\
       (v_size v' = prod (v_shape v') /\ (forall n sh v, c <> CreateOutput n sh v) \/ v_size v' = 1 /\ exists n sh v, c = CreateOutput n sh v))).
  { intros s' ->. split; [eauto|]. intros i v' L E. destruct (Same i v' L E). }
  assert (Added : forall x k n o, (v_size x = prod (v_shape x) /\ (forall n sh v, c <> CreateOutput n sh v) \/ v_size x = 1 /\ exists n sh v, c = CreateOutput n sh v) ->
    let s' := fst (register_output (tick (with_heap s (s_heap s ++ [x])) k) n o) in
    (forall i v', i < length (s_heap s) -> nth_error (s_heap s') i = Some v' -> exists v, nth_error (s_heap s) i = Some v /\ v_size v' = v_size v /\ v_shape v' = v_shape v) /\
    (forall i v', length (s_heap s) <= i -> nth_error (s_heap s') i = Some v' -> i = length (s_heap s) /\
       (v_size v' = prod (v_shape v') /\ (forall n sh v, c <> CreateOutput n sh v) \/ v_size v' = 1 /\ exists n sh v, c = CreateOutput n sh v))).
  { intros x k n o Hx s'. destruct (register_objects (tick (with_heap s (s_heap s ++ [x])) k) n o) as (_ & _ & Ln & R). fold s' in Ln, R. cbn [s_heap tick with_heap] in Ln, R.
    rewrite app_length in Ln. cbn [length] in Ln. split.
    - intros i v' L E. destruct (R i v' E) as (v & Ev & A & B). rewrite nth_error_app1 in Ev by exact L. eauto.
    - intros i v' L E. assert (Li : i < length (s_heap s')) by (apply nth_error_Some; congruence). assert (i = length (s_heap s)) as -> by lia. split; [reflexivity|].
      destruct (R _ v' E) as (v & Ev & A & B). rewrite nth_error_app2, Nat.sub_diag in Ev by lia. injection Ev as <-. rewrite A, B. exact Hx. }
  destruct c; cbn [step].
  - destruct (check_banned_chars n); [|auto]. destruct (check_default_val_type v) as [v'|]; [|auto]. destruct (new_variable n sh v' false); apply Unchanged; reflexivity.
  - destruct (check_default_val_type _) as [v'|]; [|auto]. destruct (new_variable n sh v' _); apply Unchanged; reflexivity.
  - destruct (check_banned_chars n); [|auto]. destruct (check_default_val_type v) as [v'|] eqn:Ec; [|auto].
    destruct (new_concatenation n sh v') as [vi|] eqn:En; [|auto]. apply Added. right. split; [exact (proj1 (proj2 (new_concatenation_ok _ _ _ _ _ Ec En)))|eauto].
  - cbn [fst s_heap tick with_heap]. split.
    + intros i v' L E. rewrite nth_error_app1 in E by exact L. eauto.
    + intros i v' L E. assert (i = length (s_heap s)) as ->.
      { assert (Li : i < length (s_heap s ++ [VInfo (match gen_hex_name (s_count s + k)%N with Some x => x | None => "" end) sh None (prod sh) false])) by (apply nth_error_Some; congruence).
        rewrite app_length in Li. cbn in Li. lia. }
      split; [reflexivity|]. left. split; [|intros; discriminate]. rewrite nth_error_app2, Nat.sub_diag in E by lia. injection E as <-. reflexivity.
  - destruct (register_objects s n o) as (_ & _ & Ln & R). split; [intros i v' _ E; exact (R i v' E)|].
    intros i v' L E. destruct (R i v' E) as (v & Ev & _). destruct (Same i v L Ev).
  - destruct (nth_error (s_heap s) o) as [v|]; [|auto]. apply Added. left. split; [reflexivity|intros; discriminate].
  - destruct (match n with None => Ok tt | Some _ => _ end) as [[]|]; [|auto]. destruct (negb is_model); [auto|].
    destruct (match n with None => false | Some _ => _ end); apply Unchanged; reflexivity.
  - destruct (String.eqb a b); [auto|]. destruct (existsb _ _); apply Unchanged; reflexivity.
  - destruct (s_obj s); apply Unchanged; reflexivity.
  - destruct (negb _); [auto|]. destruct (dmem _ _); apply Unchanged; reflexivity.
  - destruct (dmem _ _); [auto|]. match goal with |- context [match ?x with Ok _ => _ | Err _ => _ end] => destruct x end; apply Unchanged; reflexivity.
Qed.
Lemma heap_grows s c : length (s_heap s) <= length (s_heap (fst (step s c))).
Proof.
  assert (R : forall x k n o, length (s_heap s) <= length (s_heap (fst (register_output (tick (with_heap s (s_heap s ++ [x])) k) n o)))).
  { intros. destruct (register_objects (tick (with_heap s (s_heap s ++ [x])) k) n o) as (_ & _ & -> & _). cbn. rewrite app_length. lia. }
  destruct c; cbn [step].
  - destruct (check_banned_chars n); [|auto]. destruct (check_default_val_type v) as [v'|]; [|auto]. destruct (new_variable n sh v' false); auto.
  - destruct (check_default_val_type _) as [v'|]; [|auto]. destruct (new_variable n sh v' _); auto.
  - destruct (check_banned_chars n); [|auto]. destruct (check_default_val_type v) as [v'|]; [|auto]. destruct (new_concatenation n sh v'); [apply R|auto].
  - cbn [fst s_heap tick with_heap]. rewrite app_length. lia.
  - destruct (register_objects s n o) as (_ & _ & -> & _). lia.
  - destruct (nth_error (s_heap s) o); [apply R|auto].
  - destruct (match n with None => Ok tt | Some _ => _ end) as [[]|]; [|auto]. destruct (negb is_model); [auto|].
    destruct (match n with None => false | Some _ => _ end); auto.
  - destruct (String.eqb a b); [auto|]. destruct (existsb _ _); auto.
  - destruct (s_obj s); auto.
  - destruct (negb _); [auto|]. destruct (dmem _ _); auto.
  - destruct (dmem _ _); [auto|]. match goal with |- context [match ?x with Ok _ => _ | Err _ => _ end] => destruct x end; auto.
Qed.

(** C47: over every history of calls, the size attribute of inputs, declared variables and
    outputs is the number of their elements, except for the outputs made by create_output,
    for which it is 1: partial. *)
Theorem c47_size_attribute_partial : forall l,
  (forall v, In v (s_inputs (build l)) \/ In v (s_decls (build l)) -> v_size v = prod (v_shape v)) /\
  (forall o v, nth_error (s_heap (build l)) o = Some v ->
     (~ by_create_output l o -> v_size v = prod (v_shape v)) /\ (by_create_output l o -> v_size v = 1)).
Proof.
  intros l. split; [apply build_ind; [intros v [[]|[]]|intros s c; apply sizes_step]|].
  induction l as [|c l IH] using rev_ind; intros o v E; [destruct o; discriminate|]. rewrite build_snoc in E.
  destruct (heap_step (build l) c) as [Old New].
  assert (Keep : forall o, o < length (s_heap (build l)) -> (by_create_output (l ++ [c]) o <-> by_create_output l o)).
  { intros j Lj. split; intros (b & n & sh & w & a & El & Lb & Lt).
    - destruct a as [|x a] using rev_ind.
      + apply app_inj_tail in El. destruct El as [-> _]. lia.
      + clear IHa. change (b ++ CreateOutput n sh w :: a ++ [x]) with (b ++ (CreateOutput n sh w :: a) ++ [x]) in El. rewrite app_assoc in El. apply app_inj_tail in El. destruct El as [-> _].
        exists b, n, sh, w, a. auto.
    - exists b, n, sh, w, (a ++ [c]). rewrite El, <- app_assoc. auto. }
  destruct (Nat.lt_ge_cases o (length (s_heap (build l)))) as [L|L].
  - destruct (Old o v L E) as (v0 & E0 & -> & ->). rewrite (Keep o L). exact (IH o v0 E0).
  - destruct (New o v L E) as [-> [[S Nc]|[S (n & sh & w & Ec)]]].
    + split; [auto|]. intros (b & n & sh & w & a & El & Lb & Lt). destruct a as [|x a] using rev_ind.
      * apply app_inj_tail in El. destruct El as [_ ->]. destruct (Nc n sh w eq_refl).
      * exfalso. clear IHa. change (b ++ CreateOutput n sh w :: a ++ [x]) with (b ++ (CreateOutput n sh w :: a) ++ [x]) in El. rewrite app_assoc in El. apply app_inj_tail in El. destruct El as [El _].
        assert (G : length (s_heap (fst (step (build b) (CreateOutput n sh w)))) <= length (s_heap (build l))).
        { rewrite El. change (b ++ CreateOutput n sh w :: a) with (b ++ [CreateOutput n sh w] ++ a). rewrite app_assoc, build_app, build_snoc. generalize (fst (step (build b) (CreateOutput n sh w))). clear. induction a as [|d a IH]; intros s; [cbn; lia|].
          cbn [fold_left]. eapply Nat.le_trans; [apply (heap_grows s d)|apply IH]. }
        lia.
    + split; [|auto]. intros Nb. exfalso. apply Nb. subst c. exists l, n, sh, w, []. repeat split. apply nth_error_Some. congruence.
Qed.
Print Assumptions c47_size_attribute_partial.
Example c47_nonvacuous :
  let l := [CreateInput "x" [2; 3] (VNum 1); NewOutput [2; 3] 1; CreateOutput "y" [4] (VNum 0)] in
  map v_size (s_inputs (build l)) = [6] /\ map v_size (s_heap (build l)) = [6; 1] /\ by_create_output l 1 /\ ~ by_create_output l 0.
Proof.
  cbv zeta. split; [reflexivity|]. split; [reflexivity|]. split.
  - exists [CreateInput "x" [2; 3] (VNum 1); NewOutput [2; 3] 1], "y", [4], (VNum 0), []. vm_compute. auto.
  - intros (b & n & sh & v & a & E & L & _). destruct b as [|c0 [|c1 [|c2 b]]]; [discriminate|discriminate| |destruct b; discriminate].
    injection E as <- <- <- <- _. vm_compute in L. discriminate.
Qed.

(** ** C101: reshaping *)
(** The three spellings agree: lengths one by one, in one tuple, and csdl.reshape. *)
Theorem c101_same_spellings : forall sh dims,
  method_reshape sh [PTup dims] = csdl_reshape (Some sh) (PTup dims) /\
  (forall zs, dims = map Some zs -> method_reshape sh (map PInt zs) = csdl_reshape (Some sh) (PTup dims)) /\
  (forall z, dims = [Some z] -> csdl_reshape (Some sh) (PInt z) = csdl_reshape (Some sh) (PTup dims)).
Proof.
  intros sh dims. split; [reflexivity|]. split; [|intros z ->; reflexivity].
  intros zs ->. unfold method_reshape. destruct zs as [|z [|z' zs]]; [reflexivity|reflexivity|]. cbn [map]. do 3 f_equal. f_equal. f_equal. rewrite map_map. reflexivity.
Qed.
Print Assumptions c101_same_spellings.

(** A reshaping to lengths that are not negative is accepted exactly when the number of elements
    stays the same, and gives these lengths; other objects than ints raise TypeError. *)
Theorem c101_reshape : forall sh dims,
  (prod dims = prod sh -> method_reshape sh (map (fun d => PInt (Z.of_nat d)) dims) = Ok (map Z.of_nat dims)) /\
  (prod dims <> prod sh -> method_reshape sh (map (fun d => PInt (Z.of_nat d)) dims) = Err ValueError) /\
  (forall args, length args <> 1 -> Exists (fun a => forall z, a <> PInt z) args -> method_reshape sh args = Err TypeError) /\
  method_reshape sh [PElse] = Err TypeError /\
  (forall l, In None l -> method_reshape sh [PTup l] = Err TypeError).
Proof.
  intros sh dims. pose proof (C40_reshape sh dims) as C. cbv zeta in C.
  assert (E : method_reshape sh (map (fun d => PInt (Z.of_nat d)) dims) = reshape_shape (Some sh) (map (fun d => Some (Z.of_nat d)) dims)).
  { destruct (c101_same_spellings sh (map (fun d => Some (Z.of_nat d)) dims)) as (_ & H & _). specialize (H (map Z.of_nat dims)). rewrite !map_map in H. apply H. reflexivity. }
  assert (Bad : forall l, In None l -> ints l = Err TypeError).
  { induction l as [|[z|] l IH]; [intros []| |reflexivity]. intros [D|D]; [discriminate|]. cbn [ints]. rewrite IH by exact D. reflexivity. }
  rewrite E. split; [apply C|]. split; [apply C|]. split; [|split].
  - intros args L Ex. assert (I : In None (map item args)).
    { clear L. induction Ex as [a l Ha|a l _ IH]; [left|right; exact IH]. destruct a; [destruct (Ha z eq_refl)|reflexivity|reflexivity]. }
    unfold method_reshape. destruct args as [|a [|b args]]; [destruct I|destruct (L eq_refl)|]. 
    destruct a; cbn [csdl_reshape reshape_shape]; rewrite Bad by exact I; reflexivity.
  - reflexivity.
  - intros l I. unfold method_reshape, csdl_reshape, reshape_shape. rewrite Bad by exact I. reflexivity.
Qed.
Print Assumptions c101_reshape.

Lemma by_create_output_dec l o : by_create_output l o \/ ~ by_create_output l o.
Proof.
  induction l as [|c l IH] using rev_ind; [right; intros (b & n & sh & w & a & El & _); destruct b; discriminate|].
  destruct IH as [(b & n & sh & w & a & -> & H)|N]; [left; exists b, n, sh, w, (a ++ [c]); rewrite <- app_assoc; auto|].
  assert (Last : by_create_output (l ++ [c]) o -> exists n sh w, c = CreateOutput n sh w /\ length (s_heap (build l)) = o /\ o < length (s_heap (fst (step (build l) c)))).
  { intros (b & n & sh & w & a & El & Lb & Lt). destruct a as [|x a] using rev_ind.
    - apply app_inj_tail in El. destruct El as [-> ->]. exists n, sh, w. auto.
    - exfalso. clear IHa. change (b ++ CreateOutput n sh w :: a ++ [x]) with (b ++ (CreateOutput n sh w :: a) ++ [x]) in El. rewrite app_assoc in El. apply app_inj_tail in El. destruct El as [-> _].
      apply N. exists b, n, sh, w, a. auto. }
  destruct c as [| |n sh w| | | | | | | |]; try (right; intros Hb; destruct (Last Hb) as (? & ? & ? & D & _); discriminate).
  destruct (Nat.eq_dec (length (s_heap (build l))) o) as [D|D]; [|right; intros Hb; destruct (Last Hb) as (? & ? & ? & _ & ? & _); congruence].
  destruct (Nat.lt_ge_cases o (length (s_heap (fst (step (build l) (CreateOutput n sh w)))))) as [G|G]; [left; exists l, n, sh, w, []; auto|].
  right. intros Hb. destruct (Last Hb) as (? & ? & ? & _ & _ & G'). lia.
Qed.

(** Flattening any variable of any history gives as many elements in one dimension, except for
    outputs of create_output, which raise ValueError unless they have one element: partial. *)
Theorem c101_flatten_partial : forall l,
  (forall v, In v (s_inputs (build l)) \/ In v (s_decls (build l)) -> method_flatten v = Ok [Z.of_nat (prod (v_shape v))]) /\
  (forall o v, nth_error (s_heap (build l)) o = Some v ->
     (~ by_create_output l o \/ prod (v_shape v) = 1 -> method_flatten v = Ok [Z.of_nat (prod (v_shape v))]) /\
     (by_create_output l o -> prod (v_shape v) <> 1 -> method_flatten v = Err ValueError) /\
     method_reshape (v_shape v) [PInt (Z.of_nat (prod (v_shape v)))] = Ok [Z.of_nat (prod (v_shape v))]).
Proof.
  intros l. destruct (c47_size_attribute_partial l) as [A B].
  assert (F : forall v, v_size v = prod (v_shape v) -> method_flatten v = Ok [Z.of_nat (prod (v_shape v))]).
  { intros v E. unfold method_flatten, csdl_flatten. apply (proj1 (C40_flatten (v_shape v) (v_size v))), E. }
  split; [intros v Hv; apply F, A, Hv|]. intros o v E. destruct (B o v E) as [B1 B2].
  pose proof (by_create_output_dec l o) as Dec.
  split; [|split].
  - intros [N|O]; [exact (F v (B1 N))|]. apply F. destruct Dec as [D|D]; [rewrite (B2 D); congruence|exact (B1 D)].
  - intros Hb Q. unfold method_flatten, csdl_flatten. apply (proj2 (C40_flatten (v_shape v) (v_size v))). rewrite (B2 Hb). congruence.
  - pose proof (proj1 (c101_reshape (v_shape v) [prod (v_shape v)])) as R. cbn [map] in R. apply R. cbn. lia.
Qed.
Print Assumptions c101_flatten_partial.

(** create_output('y', shape=(2, 3)).flatten() raises. *)
Theorem c101_flatten_refuted : exists l o v, nth_error (s_heap (build l)) o = Some v /\ v_shape v = [2; 3] /\
  Forall (fun k => snd (step (build (firstn k l)) (nth k l (Connect "" ""))) = Ok tt) (seq 0 (length l)) /\
  method_flatten v = Err ValueError.
Proof. exists [CreateOutput "y" [2; 3] (VNum 0)], 0. eexists. split; [reflexivity|]. split; [reflexivity|]. split; [repeat constructor|reflexivity]. Qed.
Print Assumptions c101_flatten_refuted.
Example c101_nonvacuous :
  method_reshape [2; 3] [PInt 3; PInt 2] = Ok [3; 2]%Z /\ method_reshape [2; 3] [PInt 5] = Err ValueError /\
  method_reshape [1] [] = Ok [] /\ method_reshape [6] [PTup [Some 2; None]%Z] = Err TypeError /\
  method_flatten (VInfo "x" [2; 3] None 6 false) = Ok [6%Z].
Proof. repeat split. Qed.

(** ** C102: bessel *)
(** Accepted exactly for a variable, the kinds 1 and 2, and an order that is a number or an
    array of the shape of the variable; the result has the shape of the variable and the
    operation carries kind and order as given.  Otherwise TypeError is raised, or ValueError
    when the kind is an array. *)
Theorem c102_bessel : forall x kind order,
  (forall sh, x = Some sh -> (kind = BKInt 1 \/ kind = BKInt 2) -> ((exists z, order = BONumber z) \/ order = BOArray sh) ->
     bessel x kind order = Ok (sh, kind, order)) /\
  (forall r, bessel x kind order = Ok r ->
     exists sh, x = Some sh /\ (kind = BKInt 1 \/ kind = BKInt 2) /\ ((exists z, order = BONumber z) \/ order = BOArray sh) /\ r = (sh, kind, order)) /\
  (forall e, bessel x kind order = Err e -> e = TypeError \/ e = ValueError /\ kind = BKArray).
Proof.
  intros x kind order. split; [|split].
  - intros sh -> [->| ->] [(z & ->)| ->]; try reflexivity; cbn; rewrite (proj2 (shape_eqb_spec sh sh) eq_refl); reflexivity.
  - unfold bessel. destruct x as [sh|]; [|discriminate]. destruct kind as [z| |]; try discriminate.
    destruct (Z.eqb_spec z 1) as [->|N1]; [|destruct (Z.eqb_spec z 2) as [->|N2]]; cbn [negb orb]; try discriminate;
    (destruct order as [q|so|]; [|destruct (shape_eqb sh so) eqn:Es; [apply shape_eqb_spec in Es; subst so|]|]; try discriminate; intros r [= <-]; eauto 10).
  - unfold bessel. intros e. destruct x as [sh|]; [|intros [= <-]; auto]. destruct kind as [z| |]; [|intros [= <-]; auto|intros [= <-]; auto].
    destruct (negb _); [intros [= <-]; auto|]. destruct order as [q|so|]; [discriminate| |intros [= <-]; auto]. destruct (shape_eqb sh so); [discriminate|intros [= <-]; auto].
Qed.
Print Assumptions c102_bessel.
Example c102_nonvacuous : bessel (Some [2; 3]) (BKInt 2) (BOArray [2; 3]) = Ok ([2; 3], BKInt 2, BOArray [2; 3]) /\
  bessel (Some [2; 3]) (BKInt 1) (BOArray [3]) = Err TypeError /\ bessel (Some [1]) (BKInt 3) (BONumber 1) = Err TypeError.
Proof. repeat split. Qed.
