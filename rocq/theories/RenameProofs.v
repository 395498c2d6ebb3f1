(** Names do not matter. *)
From Verif Require Import PyBase NamesModel PromotionsModel PromotionsSpec HierModel HierSpec Digraph TopoModel FlatModel ExprModel UnflatModel UnflatSpec
  FlattenModel FlattenSpec FlattenProofs3 CompileModel CompileSpec HierProofs CompileProofs IterModel IterSpec Prop_Iter LookupProofs AcceptSpec DependSpec DependProofs SubProofs ViewProofs LinkSpec LinkProofs WorldModel RenameSpec.
Local Open Scope list_scope.

Lemma objects_at h h' : same_objects h h' -> forall i a, nth_error h i = Some a -> exists b, nth_error h' i = Some b /\ same_object a b.
Proof. intros S. induction S as [|a b h h' Ha S IH]; intros [|i] x E; try discriminate; cbn in *; [injection E as <-; eauto|eauto]. Qed.
Lemma objects_sym h h' : same_objects h h' -> same_objects h' h.
Proof. intros S. induction S as [|a b h h' (A & B & C) S IH]; constructor; [split; [|split]; congruence|exact IH]. Qed.
Lemma models_sym um um' : same_models um um' -> same_models um' um.
Proof. intros S. induction S as [ins outs decls subs subs' E S IH]. constructor; [auto|]. intros i a b A B. eapply IH; eassumption. Qed.
Lemma place_sym um um' p p' : same_place um um' p p' -> same_place um' um p' p.
Proof. intros S. induction S; econstructor; eassumption. Qed.
Lemma same_is_op a b : same_object a b -> is_op a = is_op b.
Proof. intros (K & _). unfold is_op. rewrite K. reflexivity. Qed.

Section Same.
  Context (h h' : list obj) (SO : same_objects h h').
  Lemma reads_same x y : reads h x y -> reads h' x y.
  Proof. intros (ob & E & Hi). destruct (objects_at _ _ SO _ _ E) as (ob' & E' & _ & D & _). exists ob'. rewrite <- D. auto. Qed.
  Lemma writes_same x y : writes h x y -> writes h' x y.
  Proof. intros (ob & E & O & Hi). destruct (objects_at _ _ SO _ _ E) as (ob' & E' & S). exists ob'. split; [exact E'|]. rewrite <- (same_is_op _ _ S). destruct S as (_ & _ & <-). auto. Qed.
  Lemma needed_same l x : needed h l x -> needed h' l x.
  Proof. induction 1; [apply needed_leaf; assumption|eapply needed_dep; [eassumption|apply reads_same; assumption]|eapply needed_out; [eassumption|apply writes_same; assumption]]. Qed.
  Lemma variable_same o : variable h o -> variable h' o.
  Proof. intros (ob & E & O). destruct (objects_at _ _ SO _ _ E) as (ob' & E' & S). exists ob'. rewrite <- (same_is_op _ _ S). auto. Qed.
  (** Every place has its counterpart. *)
  Lemma place_at um p sub : um_at um p sub -> forall um', same_models um um' -> exists p' sub', same_place um um' p p' /\ um_at um' p' sub' /\ same_models sub sub'.
  Proof.
    induction 1 as [um|ins outs decls subs s sm p sub Hs A IH]; intros um' S.
    - exists [], um'. split; [constructor|]. split; [constructor|exact S].
    - inversion S as [i o d x subs' E F]; subst. apply In_nth_error in Hs. destruct Hs as (i & Hi).
      destruct (nth_error subs' i) as [[s' sm']|] eqn:Hi'; [|apply nth_error_None in Hi'; rewrite <- E in Hi'; apply nth_error_None in Hi'; congruence].
      destruct (IH sm' (F i _ _ Hi Hi')) as (p' & sub' & P & A' & S'). exists (s' :: p'), sub'. split; [econstructor; eassumption|]. split; [|exact S']. econstructor; [eapply nth_error_In; exact Hi'|exact A'].
  Qed.
  Lemma occurs_at um um' p o : same_models um um' -> occurs h um p o -> exists p', same_place um um' p p' /\ occurs h' um' p' o.
  Proof.
    intros S (ins & outs & decls & subs & A & Ho). destruct (place_at _ _ _ A _ S) as (p' & sub' & P & A' & S'). inversion S' as [i o' d x subs' E F]; subst. exists p'. split; [exact P|].
    exists ins, outs, decls, subs'. split; [exact A'|]. destruct Ho as [Ho|Ho]; [auto|right; apply needed_same, Ho].
  Qed.
  Lemma member_at um um' p k o x : same_models um um' -> member h um p k o x -> exists p' x', same_place um um' p p' /\ member h' um' p' k o x'.
  Proof.
    intros S ((ob & E & _) & ins & outs & decls & subs & A & Ho). destruct (place_at _ _ _ A _ S) as (p' & sub' & P & A' & S'). inversion S' as [i o' d y subs' El F]; subst.
    destruct (objects_at _ _ SO _ _ E) as (ob' & E' & _). exists p', (ob_name ob'). split; [exact P|]. split; [exists ob'; auto|]. exists ins, outs, decls, subs'. auto.
  Qed.
End Same.

(** The counterpart of a path, when names of submodels are distinct. *)
Fixpoint find_sub (s : string) (l l' : list (string * umodel)) : option (umodel * (string * umodel)) :=
  match l, l' with
  | a :: r, b :: r' => if String.eqb s (fst a) then Some (snd a, b) else find_sub s r r'
  | _, _ => None
  end.
Fixpoint place (um um' : umodel) (p : list string) : list string :=
  match p with
  | [] => []
  | s :: r => match um, um' with UM _ _ _ subs, UM _ _ _ subs' =>
                match find_sub s subs subs' with Some (sm, (s', sm')) => s' :: place sm sm' r | None => [] end end
  end.
Definition subs_distinct (um : umodel) : Prop := forall p ins outs decls subs, um_at um p (UM ins outs decls subs) -> NoDup (map fst subs).
Lemma find_at s l : forall l' i sm b, NoDup (map fst l) -> nth_error l i = Some (s, sm) -> nth_error l' i = Some b -> find_sub s l l' = Some (sm, b).
Proof.
  induction l as [|[a u] l IH]; intros [|b' l'] [|i] sm b N E E'; try discriminate; cbn in *.
  - injection E as -> ->. injection E' as ->. rewrite String.eqb_refl. reflexivity.
  - inversion N as [|? ? Ni N']; subst. destruct (String.eqb_spec s a) as [->|_]; [|eapply IH; eassumption]. exfalso. apply Ni. apply in_map_iff. exists (a, sm). split; [reflexivity|]. eapply nth_error_In, E.
Qed.
Lemma place_ok um um' p p' : same_place um um' p p' -> subs_distinct um -> place um um' p = p'.
Proof.
  induction 1 as [um um'|ins outs decls subs ins' outs' decls' subs' i n n' um um' p p' E E' S IH]; intros D; [reflexivity|]. cbn [place].
  rewrite (find_at n subs subs' i um (n', um') (D [] _ _ _ _ (um_here _)) E E'). f_equal. apply IH. intros q i1 i2 i3 i4 A. eapply (D (n :: q)). econstructor; [eapply nth_error_In, E|exact A].
Qed.
Lemma wf_distinct h shp um m : well_formed h um m shp -> subs_distinct um.
Proof.
  intros WF p ins outs decls subs A. destruct (FlattenProofs3.hier_at (f_hierarchy WF) A) as (m' & B & HI). destruct (f_named WF _ _ B) as (N & _).
  inversion HI as [? ? ? ? ? _ _ _ F _]; subst. replace (map fst subs) with (map (fun t => fst (fst t)) (m_subs m')); [exact N|]. clear -F. induction F; cbn; f_equal; auto.
Qed.

Section T.
  Context (it it' : iteration) (h h' : list obj) (shp shp' : nat -> shape) (dflt dflt' : nat -> bool) (um um' : umodel) (m m' : model) (c c' : compiled).
  Context (L : lawful it) (WF : well_formed h um m shp) (TI : inputs_not_targets h um m) (H : compile_in it h shp dflt um m = Ok c).
  Context (L' : lawful it') (WF' : well_formed h' um' m' shp') (TI' : inputs_not_targets h' um' m') (H' : compile_in it' h' shp' dflt' um' m' = Ok c').
  Context (SO : same_objects h h') (SM : same_models um um').
  Context (EQ : forall p q p' q' o o', same_place um um' p p' -> same_place um um' q q' -> (linked h um m p o q o' <-> linked h' um' m' p' o q' o')).
  Local Notation tr := (place um um').
  Lemma tr_ok p p' : same_place um um' p p' -> tr p = p'.
  Proof. intros P. apply place_ok; [exact P|eapply wf_distinct, WF]. Qed.
  Lemma r_called p k o n : called h um m p k o n -> exists p' n', same_place um um' p p' /\ called h' um' m' p' k o n'.
  Proof.
    intros (x & q & M & _). destruct (member_at h h' SO um um' p k o x SM M) as (p' & x' & P & M'). destruct (called_total h' shp' um' m' WF' p' k o x' M') as (q' & _ & C). eauto.
  Qed.
  Lemma r_back p' k o n' : called h' um' m' p' k o n' -> exists p n, same_place um um' p p' /\ called h um m p k o n.
  Proof.
    intros (x & q & M & _). destruct (member_at h' h (objects_sym _ _ SO) um' um p' k o x (models_sym _ _ SM) M) as (p & x' & P & M'). destruct (called_total h shp um m WF p k o x' M') as (q' & _ & C). exists p, (dotted q' x'). split; [apply place_sym, P|exact C].
  Qed.
  Lemma r_free p p' o n n' : same_place um um' p p' -> occurs h' um' p' o -> called h um m p KDeclared o n -> unsupplied h um m n -> called h' um' m' p' KDeclared o n' -> unsupplied h' um' m' n'.
  Proof.
    intros P Ho C U C'. destruct (free_or_fed it' h' shp' dflt' um' m' c' L' WF' TI' H' p' o n' Ho C') as [X|(p1' & k & o1 & n1 & K & C1 & NK)]; [exact X|exfalso].
    destruct (r_back _ _ _ _ C1) as (p1 & n3 & P1 & C3). apply (EQ p p1 p' p1' o o1 P P1) in K.
    destruct (proj1 (free_linked it h shp dflt um m c L WF TI H _ _ _ _ K) (ex_intro _ n (conj C U))) as (n2 & F & _).
    destruct (called_fun h shp um m WF _ _ _ _ _ _ C3 F) as [E _]. exact (NK E).
  Qed.
  Lemma rename_result V (apply : nat -> list V -> nat -> V) init init' :
    (forall p p' o n n', same_place um um' p p' -> called h um m p KInput o n -> called h' um' m' p' KInput o n' -> init n = init' n') ->
    (forall p p' o n n', same_place um um' p p' -> occurs h um p o -> called h um m p KDeclared o n -> called h' um' m' p' KDeclared o n' -> unsupplied h um m n -> unsupplied h' um' m' n' -> init n = init' n') ->
    forall p p' o, same_place um um' p p' -> occurs h um p o -> variable h o -> result h' shp' dflt' apply init' c' p' o = result h shp dflt apply init c p o.
  Proof.
    intros I1 I2. pose proof (in_solves it' h' shp' dflt' um' m' c' L' WF' TI' H' V apply init') as S. pose proof (linked_equal h' um' m' V apply init' _ S) as Q. destruct S as [S1 _ _ S4 S5].
    assert (OC : forall p o, occurs h um p o -> same_place um um' p (tr p) /\ occurs h' um' (tr p) o).
    { intros p o Ho. destruct (occurs_at h h' SO um um' p o SM Ho) as (p' & P & Ho'). rewrite (tr_ok _ _ P). auto. }
    assert (SV : solves h um m apply init (fun p o => result h' shp' dflt' apply init' c' (tr p) o)).
    { split.
      - intros p o ob k v Ho E O Hk. destruct (OC p o Ho) as [P Ho']. destruct (objects_at _ _ SO _ _ E) as (ob' & E' & S'). pose proof (same_is_op _ _ S') as Op. destruct S' as (_ & D & Os).
        rewrite D. apply (S1 (tr p) o ob' k v); [exact Ho'|exact E'|congruence|congruence].
      - intros p k o p' k' o' n Ho Ho' C C'. destruct (OC p o Ho) as [P _], (OC p' o' Ho') as [P' _]. apply Q, (EQ p p' _ _ o o' P P'). eapply l_name; eassumption.
      - intros p0 a b pa pb p k o p' k' o' D R R' Ho Ho' C C'. destruct (OC p o Ho) as [P _], (OC p' o' Ho') as [P' _]. symmetry. apply Q, (EQ p p' _ _ o o' P P'). eapply l_conn; eassumption.
      - intros p o n C. destruct (r_called _ _ _ _ C) as (p' & n' & P & C'). rewrite (tr_ok _ _ P), (I1 p p' o n n' P C C'). apply S4, C'.
      - intros p o n Ho C U1 U2. destruct (OC p o Ho) as [P Ho']. destruct (r_called _ _ _ _ C) as (p' & n' & P' & C'). rewrite (tr_ok _ _ P') in *.
        pose proof (r_free p p' o n n' P' Ho' C (conj U1 U2) C') as U'. rewrite (I2 p p' o n n' P' Ho C C' (conj U1 U2) U'). destruct U' as [U1' U2']. apply S5; assumption. }
    intros p p' o P Ho Vo. rewrite <- (tr_ok _ _ P). exact (in_unique it h shp dflt um m c L WF TI H V apply init _ SV p o Ho Vo).
  Qed.
End T.
