(** Property theorems C19, C20, C21, C25, C26, C27, C50, C51, C52: passes on the flattened
    graph. *)
From Verif Require Import PyBase NamesModel Digraph TopoModel TopoSpec TopoProofs FlatModel FlatSpec FlatProofs ConnProofs ConnProofs2
  PromotionsModel HierModel.
From Coq Require Import Permutation.
Local Open Scope string_scope.
Local Open Scope list_scope.

(** The node type [A] and its equality test are arbitrary throughout. *)
Definition decides {A} (eqb : A -> A -> bool) : Prop := forall x y, eqb x y = true <-> x = y.

(** ** C27: sorting *)
Theorem c27_sorted : forall A (eqb : A -> A -> bool) g l, decides eqb -> wf g -> flat_sorted_nodes eqb g = Ok l ->
  Permutation l (g_nodes g) /\ (forall a b, edge g a b -> precedes l a b).
Proof. intros A eqb g l D W. exact (@sorted_ok A eqb D g W l). Qed.
Print Assumptions c27_sorted.
Theorem c27_accepted_iff_acyclic : forall A (eqb : A -> A -> bool) g, decides eqb -> wf g ->
  (~ has_cycle g -> exists l, flat_sorted_nodes eqb g = Ok l) /\ (has_cycle g -> flat_sorted_nodes eqb g = Err KeyError).
Proof. intros A eqb g D W. exact (@sort_iff A eqb D g W). Qed.
Print Assumptions c27_accepted_iff_acyclic.
Example c27_nonvacuous : decides Nat.eqb /\ wf (DG [3; 1; 2; 0] [(0, 1); (1, 2); (0, 3); (3, 2)]) /\
  flat_sorted_nodes Nat.eqb (DG [3; 1; 2; 0] [(0, 1); (1, 2); (0, 3); (3, 2)]) = Ok [0; 1; 3; 2] /\
  flat_sorted_nodes Nat.eqb (DG [1; 2; 0] [(0, 1); (1, 2); (2, 1)]) = Err KeyError.
Proof.
  split; [exact Nat.eqb_eq|]. split; [|split; vm_compute; reflexivity]. split.
  - intros a b H. unfold edge, node in *. cbn in *. intuition (try congruence; match goal with H : (_, _) = (_, _) |- _ => injection H as <- <-; auto end).
  - cbn. repeat constructor; cbn; intuition congruence.
  - cbn. repeat constructor; cbn; intuition congruence.
Qed.

(** ** C25, C26: automatic connection *)
(** The candidates for the promoted name [n], in graph order. *)
Definition declared_with_name {A} (attr : A -> nattr) (g : digraph A) (n : string) : list A :=
  filter (fun x => match attr x with
                   | NVar v => match va_class v with CDeclared => String.eqb (va_pname v) n | _ => false end
                   | NOp _ => false end) (g_nodes g).
(** C25: the pass succeeds, every declared variable is replaced by the source with its
    promoted name, or else by one declared variable with that name, the same for all; all
    other nodes are untouched; edges are redirected and none is added or lost. *)
Theorem c25_one_node_per_name : forall A (eqb : A -> A -> bool) attr g, decides eqb -> wf g ->
  no_var_var_edge attr g -> sources_distinct attr g ->
  exists g' rep, merge_auto eqb attr g = Ok g' /\ wf g' /\ quotient g g' rep /\
    (forall x, (forall v, ~ target_node attr x v) -> rep x = x) /\
    (forall t v, node g t -> target_node attr t v ->
       (forall s sv, node g s -> source_node attr s sv -> va_pname sv = va_pname v -> rep t = s) /\
       ((forall s sv, node g s -> source_node attr s sv -> va_pname sv <> va_pname v) ->
          In (rep t) (declared_with_name attr g (va_pname v)) /\
          forall t', In t' (declared_with_name attr g (va_pname v)) -> rep t' = rep t)).
Proof. exact auto_one_node. Qed.
Print Assumptions c25_one_node_per_name.
(** C26, partial: which declared variable survives.  Missing: distance from the root is
    measured by the dots of the model path, which are as many for the main model as for its
    direct submodels (refuted below). *)
Theorem c26_survivor_partial : forall A (eqb : A -> A -> bool) attr g, decides eqb -> wf g ->
  no_var_var_edge attr g -> sources_distinct attr g ->
  exists g' rep, merge_auto eqb attr g = Ok g' /\ quotient g g' rep /\
    (forall t v, node g t -> target_node attr t v ->
       (forall s sv, node g s -> source_node attr s sv -> va_pname sv <> va_pname v) ->
       preferred attr (declared_with_name attr g (va_pname v)) (rep t)).
Proof. exact auto_survivor. Qed.
Print Assumptions c26_survivor_partial.

(** Nodes: 0 input x; 1 operation; 2 output y; 3, 4 declared x in A and A.B; 5, 6, 7
    declared z in A.B, A and C (explicit value); 8 operation reading them. *)
Definition exattr (n : nat) : nattr :=
  match n with
  | 0 => NVar (VA "x" false "" "" [2] CInput false)
  | 2 => NVar (VA "y" false "" "" [2] COutput false)
  | 3 => NVar (VA "x" false "" "A" [2] CDeclared true)
  | 4 => NVar (VA "x" false "" "A.B" [2] CDeclared false)
  | 5 => NVar (VA "z" false "" "A.B" [2] CDeclared false)
  | 6 => NVar (VA "z" false "" "A" [2] CDeclared true)
  | 7 => NVar (VA "z" false "" "C" [2] CDeclared false)
  | _ => NOp false
  end.
Definition exg : digraph nat := DG [0; 1; 2; 3; 4; 5; 6; 7; 8] [(0, 1); (1, 2); (3, 8); (4, 1); (5, 1); (6, 8); (7, 8)].
Lemma exg_hyps : wf exg /\ no_var_var_edge exattr exg /\ sources_distinct exattr exg.
Proof.
  split; [|split].
  - split.
    + intros a b H. unfold edge, node in *. cbn in *. intuition (try congruence; match goal with H : (_, _) = (_, _) |- _ => injection H as <- <-; intuition end).
    + cbn. repeat constructor; cbn; intuition congruence.
    + cbn. repeat constructor; cbn; intuition congruence.
  - intros a b va vb H Ha Hb. unfold edge, var_node in *. cbn in H.
    repeat match goal with H : _ \/ _ |- _ => destruct H as [H|H] | H : False |- _ => destruct H end;
      injection H as <- <-; discriminate.
  - intros t a b vt va vb _ Ha Hb _ [Sa Ca] [Sb Cb] E0 E1. assert (E : va_pname va = va_pname vb) by congruence. clear E0 E1. unfold node in *. cbn in Ha, Hb.
    repeat match goal with H : _ \/ _ |- _ => destruct H as [H|H] | H : False |- _ => destruct H end; subst; cbn in *;
      try discriminate; try (injection Sa as <-); try (injection Sb as <-); cbn in *; try discriminate; reflexivity.
Qed.
Example c25_nonvacuous : wf exg /\ no_var_var_edge exattr exg /\ sources_distinct exattr exg /\
  merge_auto Nat.eqb exattr exg = Ok (DG [0; 1; 2; 7; 8] [(0, 1); (1, 2); (7, 8); (7, 1); (0, 8)]).
Proof. destruct exg_hyps as (H1 & H2 & H3). split; [exact H1|]. split; [exact H2|]. split; [exact H3|]. vm_compute. reflexivity. Qed.

(** C26 as stated fails: the main model declares z with value, so does its submodel A, and
    the node of the submodel survives. *)
Definition exattr26 (n : nat) : nattr :=
  match n with
  | 0 => NVar (VA "z" false "" "" [1] CDeclared false)
  | 1 => NVar (VA "z" false "" "A" [1] CDeclared false)
  | _ => NOp false
  end.
Theorem c26_survivor_refuted :
  merge_auto Nat.eqb exattr26 (DG [0; 2; 1; 3] [(0, 2); (1, 3)]) = Ok (DG [2; 1; 3] [(1, 3); (1, 2)]).
Proof. vm_compute. reflexivity. Qed.
Print Assumptions c26_survivor_refuted.

(** ** C52: the mapping from variables to nodes (attribute rep_node) *)
Theorem c52_mapping_partial : forall A (eqb : A -> A -> bool) attr g g' t v, decides eqb -> wf g -> no_var_var_edge attr g ->
  merge_auto eqb attr g = Ok g' -> node g t -> target_node attr t v ->
  (declared_with_name attr g (va_pname v) = [t] \/
   forall s sv, node g s -> source_node attr s sv -> va_pname sv <> va_pname v) ->
  node g' (rep_node eqb (auto_mapping eqb attr g) t).
Proof. intros A eqb attr g g' t v D W HB. exact (@mapping_ok A eqb D attr g W HB g' t v). Qed.
Print Assumptions c52_mapping_partial.
(** It fails in general: in the example above x of A.B is mapped to the node of x of A,
    which is not in the graph any more. *)
Theorem c52_mapping_refuted : exists g', merge_auto Nat.eqb exattr exg = Ok g' /\
  target_node exattr 3 (VA "x" false "" "A" [2] CDeclared true) /\
  ~ node g' (rep_node Nat.eqb (auto_mapping Nat.eqb exattr exg) 4).
Proof.
  eexists. split; [vm_compute; reflexivity|]. split; [split; reflexivity|]. vm_compute. intuition discriminate.
Qed.
Print Assumptions c52_mapping_refuted.

(** ** C19, C20, C21, C50, C51: user connections *)
(** C19: recorded pairs (target, source) are, in order, the nodes denoted by the declared
    connections; targets are distinct; each pair is admissible. *)
Theorem c19_connections : forall A (eqb : A -> A -> bool) attr g cs p2u u2p g' p2n u2n conns, decides eqb -> wf g ->
  no_var_var_edge attr g -> merge_connections eqb attr g cs p2u u2p = Ok (g', p2n, u2n, conns) ->
  Forall2 (fun c ts => denotes attr g p2u (prepend_namespace (snd c) (fst (fst c))) (snd ts) /\
                       denotes attr g p2u (prepend_namespace (snd c) (snd (fst c))) (fst ts)) cs conns /\
  NoDup (map fst conns) /\ (forall t s, In (t, s) conns -> admissible attr g t s).
Proof. intros A eqb attr g cs p2u u2p g' p2n u2n conns D. exact (@connections_sound A eqb D attr g cs p2u u2p g' p2n u2n conns). Qed.
Print Assumptions c19_connections.
(** C19: a name denotes at most one variable of an accepted graph. *)
Theorem c19_names_unambiguous : forall A (eqb : A -> A -> bool) attr g cs p2u u2p r x y v w ns ns', decides eqb ->
  merge_connections eqb attr g cs p2u u2p = Ok r ->
  named_node attr g p2u x v ns -> named_node attr g p2u y w ns' -> (exists un, In un ns /\ In un ns') -> x = y.
Proof. exact names_unambiguous. Qed.
Print Assumptions c19_names_unambiguous.

(** C21, partial: targets are declared variables.  Missing: inputs as targets, which the
    code accepts (C20), break it (below). *)
Theorem c21_consumers_redirected_partial :
  forall A (eqb : A -> A -> bool) attr g cs p2u u2p g' p2n u2n conns, decides eqb -> wf g -> no_var_var_edge attr g ->
  merge_connections eqb attr g cs p2u u2p = Ok (g', p2n, u2n, conns) ->
  (forall t s, In (t, s) conns -> exists v, target_node attr t v) ->
  exists rep, wf g' /\ quotient g g' rep /\ (forall t s, In (t, s) conns -> rep t = s /\ rep s = s /\ t <> s) /\
    (forall x, ~ In x (map fst conns) -> rep x = x).
Proof. intros A eqb attr g cs p2u u2p g' p2n u2n conns D. exact (@connections_redirect A eqb D attr g cs p2u u2p g' p2n u2n conns). Qed.
Print Assumptions c21_consumers_redirected_partial.

(** C50: connections that obey the rules are accepted. *)
Theorem c50_admissible_accepted : forall A (eqb : A -> A -> bool) attr g cs p2u u2p maps conns, decides eqb -> wf g ->
  no_var_var_edge attr g -> (forall pn names, dget p2u pn = Some names -> names <> []) ->
  scan_nodes eqb attr g p2u u2p (g_nodes g) [] [] = Ok maps ->
  Forall2 (fun c ts => denotes attr g p2u (prepend_namespace (snd c) (fst (fst c))) (snd ts) /\
                       denotes attr g p2u (prepend_namespace (snd c) (snd (fst c))) (fst ts)) cs conns ->
  NoDup (map fst conns) -> (forall t s, In (t, s) conns -> admissible attr g t s /\ exists v, target_node attr t v) ->
  exists g', merge_connections eqb attr g cs p2u u2p = Ok (g', fst maps, snd maps, conns).
Proof. intros A eqb attr g cs p2u u2p maps conns D. exact (@connections_complete A eqb D attr g cs p2u u2p maps conns). Qed.
Print Assumptions c50_admissible_accepted.

(** C19: the returned tables are exact: the promoted name table holds each user-named variable
    under its promoted name and nothing else, the unpromoted name table under each of its
    unpromoted names and nothing else. *)
Theorem c19_maps_exact : forall A (eqb : A -> A -> bool) attr g cs p2u u2p g' p2n u2n conns,
  (forall pn names, dget p2u pn = Some names -> names <> []) ->
  merge_connections eqb attr g cs p2u u2p = Ok (g', p2n, u2n, conns) ->
  (forall pn x, dget p2n pn = Some x <-> exists v names, named_node attr g p2u x v names /\ va_pname v = pn) /\
  (forall un x, dget u2n un = Some x <-> exists v names, named_node attr g p2u x v names /\ In un names).
Proof. exact @maps_exact. Qed.
Print Assumptions c19_maps_exact.

(** C50: with consistent names nothing but an inadmissible connection is rejected. *)
Theorem c50_consistent_accepted : forall A (eqb : A -> A -> bool) attr g cs p2u u2p conns, decides eqb -> wf g ->
  no_var_var_edge attr g -> (forall pn names, dget p2u pn = Some names -> names <> []) ->
  names_consistent attr g p2u u2p ->
  Forall2 (fun c ts => denotes attr g p2u (prepend_namespace (snd c) (fst (fst c))) (snd ts) /\
                       denotes attr g p2u (prepend_namespace (snd c) (snd (fst c))) (fst ts)) cs conns ->
  NoDup (map fst conns) -> (forall t s, In (t, s) conns -> admissible attr g t s /\ exists v, target_node attr t v) ->
  exists g' p2n u2n, merge_connections eqb attr g cs p2u u2p = Ok (g', p2n, u2n, conns).
Proof.
  intros A eqb attr g cs p2u u2p conns D W B NE C F ND AD. destruct (@scan_accepts A eqb D attr g p2u u2p W C) as [maps E].
  destruct (@connections_complete A eqb D attr g cs p2u u2p maps conns W B NE E F ND AD) as [g' E']. eauto.
Qed.
Print Assumptions c50_consistent_accepted.

(** 0 input x; 1 operation x -> y; 2 output y; 3 declared a in A (promoted name A.a);
    4 operation a -> b; 5 output b of A (A.b); 6 declared c; 7 operation reading c. *)
Definition exattrC (n : nat) : nattr :=
  match n with
  | 0 => NVar (VA "x" false "" "" [2; 3] CInput false)
  | 2 => NVar (VA "y" false "" "" [6] COutput false)
  | 3 => NVar (VA "a" false "A" "A" [6] CDeclared true)
  | 5 => NVar (VA "b" false "A" "A" [6] COutput false)
  | 6 => NVar (VA "c" false "" "B" [6] CDeclared true)
  | _ => NOp false
  end.
Definition exgC : digraph nat := DG [0; 1; 2; 3; 4; 5; 6; 7] [(0, 1); (1, 2); (3, 4); (4, 5); (6, 7); (6, 1)].
Definition exp2u : dict (list string) := [("x", ["x"]); ("y", ["y"]); ("A.a", ["A.a"]); ("A.b", ["A.b"]); ("c", ["B.c"])].
Definition exconnsC := [("x", "A.a", ""); ("b", "c", "A")].
Example c19_nonvacuous : wf exgC /\ no_var_var_edge exattrC exgC /\
  merge_connections Nat.eqb exattrC exgC [("x", "A.a", ""); ("A.b", "B.c", "")] exp2u (create_reverse_map exp2u)
  = Ok (DG [0; 1; 2; 4; 5; 7] [(0, 1); (1, 2); (4, 5); (0, 4); (5, 7); (5, 1)],
        [("x", 0); ("y", 2); ("A.a", 3); ("A.b", 5); ("c", 6)], [("x", 0); ("y", 2); ("A.a", 3); ("A.b", 5); ("B.c", 6)],
        [(3, 0); (6, 5)]) /\ target_node exattrC 3 (VA "a" false "A" "A" [6] CDeclared true) /\
  target_node exattrC 6 (VA "c" false "" "B" [6] CDeclared true).
Proof.
  split; [|split; [|split; [vm_compute; reflexivity|split; split; reflexivity]]].
  - split.
    + intros a b H. unfold edge, node in *. cbn in *. intuition (try congruence; match goal with H : (_, _) = (_, _) |- _ => injection H as <- <-; intuition end).
    + cbn. repeat constructor; cbn; intuition congruence.
    + cbn. repeat constructor; cbn; intuition congruence.
  - intros a b va vb H Ha Hb. unfold edge, var_node in *. cbn in H.
    repeat match goal with H : _ \/ _ |- _ => destruct H as [H|H] | H : False |- _ => destruct H end;
      injection H as <- <-; discriminate.
Qed.

Example c50_consistent_nonvacuous : names_consistent exattrC exgC exp2u (create_reverse_map exp2u).
Proof.
  assert (HN : forall x, node exgC x -> x = 0 \/ x = 1 \/ x = 2 \/ x = 3 \/ x = 4 \/ x = 5 \/ x = 6 \/ x = 7).
  { intros x H. cbn in H. intuition. }
  split.
  - intros x v Hx Ha. apply HN in Hx. split.
    + intros p q Hp Hq. unfold edge in Hp, Hq. cbn in Hp, Hq.
      repeat match goal with H : _ \/ _ |- _ => destruct H as [H|H] end; subst; try contradiction; try discriminate;
        try (injection Hp as <-); try (injection Hq as <-); try reflexivity; try congruence.
    + intros _. repeat match goal with H : _ \/ _ |- _ => destruct H as [H|H] end; subst; try discriminate; cbn in Ha; injection Ha as <-;
        cbn; (split; [repeat constructor; cbn; tauto|intros un [<-|[]]; tauto]).
  - intros x v names y w ns un (X1 & X2 & X3 & X4) (Y1 & Y2 & Y3 & Y4) HI HJ. apply HN in X1, Y1.
    repeat match goal with H : _ \/ _ |- _ => destruct H as [H|H] end; subst; try reflexivity; try discriminate;
      cbn in X2, Y2; injection X2 as <-; injection Y2 as <-; cbn in X4, Y4; injection X4 as <-; injection Y4 as <-; cbn in HI, HJ;
      intuition congruence.
Qed.

(** C20, partial: a variable computed by an operation (every output) is rejected as target;
    this is the last part of C19.  As stated the property fails: input y is accepted. *)
Theorem c20_computed_target_rejected_partial :
  forall A (eqb : A -> A -> bool) attr g cs p2u u2p g' p2n u2n conns, decides eqb -> wf g -> no_var_var_edge attr g ->
  merge_connections eqb attr g cs p2u u2p = Ok (g', p2n, u2n, conns) -> forall t s op, In (t, s) conns -> ~ edge g op t.
Proof. exact computed_target_rejected. Qed.
Print Assumptions c20_computed_target_rejected_partial.
Definition exattr20 (n : nat) : nattr :=
  match n with
  | 0 => NVar (VA "x" false "" "" [1] CInput false)
  | 1 => NVar (VA "y" false "" "" [1] CInput false)
  | 2 => NVar (VA "z" false "" "" [1] CDeclared true)
  | _ => NOp false
  end.
Definition exp2u20 : dict (list string) := [("x", ["x"]); ("y", ["y"]); ("z", ["z"])].
Theorem c20_target_declared_refuted :
  merge_connections Nat.eqb exattr20 (DG [0; 1; 2; 3; 4] [(1, 3); (2, 4)]) [("x", "y", "")] exp2u20 (create_reverse_map exp2u20)
  = Ok (DG [0; 2; 3; 4] [(2, 4); (0, 3)], [("x", 0); ("y", 1); ("z", 2)], [("x", 0); ("y", 1); ("z", 2)], [(1, 0)]).
Proof. vm_compute. reflexivity. Qed.
Print Assumptions c20_target_declared_refuted.
(** C21 then fails too: x is connected to the input y and y to z, and the operation that
    read z reads y, which is back in the graph, not x. *)
Theorem c21_consumers_redirected_refuted : exists g' p2n u2n,
  merge_connections Nat.eqb exattr20 (DG [0; 1; 2; 3; 4] [(1, 3); (2, 4)]) [("x", "y", ""); ("y", "z", "")] exp2u20 (create_reverse_map exp2u20)
  = Ok (g', p2n, u2n, [(1, 0); (2, 1)]) /\ node g' 1 /\ edge g' 1 4 /\ ~ edge g' 0 4.
Proof. do 3 eexists. split; [vm_compute; reflexivity|]. vm_compute. intuition discriminate. Qed.
Print Assumptions c21_consumers_redirected_refuted.

(** C51: a connection declared both in the parent and in the submodel is listed once in the
    representation (C18) but raises when it is applied: the undeduplicated list is used. *)
Definition exDup := Mdl [("u", [1])] [] [] [("A.x", "A.z")] [] [] None
  [("A", Some [], Mdl [("x", [1])] [] [("z", [1])] [("x", "z")] [] [] None [])].
Definition exattr51 (n : nat) : nattr :=
  match n with
  | 0 => NVar (VA "u" false "" "" [1] CInput false)
  | 1 => NVar (VA "x" false "A" "A" [1] CInput false)
  | 2 => NVar (VA "z" false "A" "A" [1] CDeclared true)
  | _ => NOp false
  end.
Theorem c51_duplicate_connection_refuted : exists mp,
  maps_of exDup = Ok mp /\ rep_connections exDup = Ok [("A.x", "A.z")] /\
  merge_connections Nat.eqb exattr51 (DG [0; 1; 2; 3] [(2, 3)]) (collect_connections exDup "") (fst mp) (snd mp) = Err KeyError.
Proof. eexists. split; [vm_compute; reflexivity|]. split; vm_compute; reflexivity. Qed.
Print Assumptions c51_duplicate_connection_refuted.
