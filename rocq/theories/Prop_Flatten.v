(** Property theorems C54, C55, C56, C57: flattening of a hierarchy. *)
From Verif Require Import PyBase ExprProofs2 NamesModel NamesProofs PromotionsModel PromotionsSpec PromotionsProofs3 HierSpec Digraph FlatModel FlatSpec
  ExprModel ExprSpec UnflatModel UnflatSpec UnflatProofs UnflatProofs2 Prop_Unflat FlattenModel FlattenSpec FlattenProofs4.
Local Open Scope string_scope.
Local Open Scope list_scope.

(** The maps that resolve_promotions produced. *)
Definition flattened (h : list obj) (r : rp) (u : ugraph) : res (digraph irnode * nslog) :=
  flatten h (rp_p2u r) (create_reverse_map (rp_p2u r)) u.

(** C54: the flat graph has the nodes and edges of the graphs of all models, without the
    nodes that stand for submodels. *)
Theorem c54_flat_graph_is_union : forall h p2u u2p um u g log,
  inputs_exist h um -> built h um u -> flatten h p2u u2p u = Ok (g, log) ->
  wf g /\
  (forall x, node g x <-> ~ model_node x /\ exists p gp, graph_at u p gp /\ node gp x) /\
  (forall a b, edge g a b <-> ~ model_node a /\ ~ model_node b /\ exists p gp, graph_at u p gp /\ edge gp a b).
Proof. exact flat_union. Qed.
Print Assumptions c54_flat_graph_is_union.

(** C55: in the flat graph every input, output and declared variable carries the promoted
    name given by the promotion rule, and the path of its model. *)
Theorem c55_promoted_names : forall h shp dflt um m r u g log p k o x q,
  hierarchy h shp um m -> well_named m -> resolve m None = Ok r -> inputs_exist h um -> built h um u ->
  flattened h r u = Ok (g, log) ->
  member h um p k o x -> node g (NObj p o) -> promoted_ns m p x q ->
  exists v, node_attr h shp dflt log (NObj p o) = NVar v /\ va_name v = x /\ va_pname v = dotted q x /\ va_uns v = ns_of p /\
    va_class v = match k with KInput => CInput | KOutput => COutput | KDeclared => CDeclared end.
Proof. exact promoted_names. Qed.
Print Assumptions c55_promoted_names.
(** C55: results without a user-chosen name keep their generated name. *)
Theorem c55_generated_names : forall h shp dflt um m r u g log p o,
  hierarchy h shp um m -> well_named m -> resolve m None = Ok r -> inputs_exist h um -> built h um u ->
  chosen_names_only h m -> flattened h r u = Ok (g, log) ->
  node g (NObj p o) -> variable h o -> auto_named h o ->
  exists v, node_attr h shp dflt log (NObj p o) = NVar v /\ named h o (va_pname v) /\ va_uns v = ns_of p.
Proof. exact generated_names. Qed.
Print Assumptions c55_generated_names.

(** C56: flattening and automatic connection succeed; a declared variable, wherever it is
    in the hierarchy, is replaced by the input or output with its promoted name, if any is
    in the graph; all declared variables with one promoted name become one node; all other
    nodes stay. *)
Theorem c56_declared_meets_source : forall h shp dflt um m r u,
  hierarchy h shp um m -> well_named m -> resolve m None = Ok r -> inputs_exist h um -> built h um u ->
  uses_own h um -> chosen_names_only h m -> alternates h -> op_names_apart h ->
  exists g log g' rep, flattened h r u = Ok (g, log) /\
    merge_auto irnode_eqb (node_attr h shp dflt log) g = Ok g' /\ wf g' /\ quotient g g' rep /\
    no_var_var_edge (node_attr h shp dflt log) g' /\
    (forall p o, node g (NObj p o) -> ~ declared_object h o -> rep (NObj p o) = NObj p o) /\
    (forall p o x q, node g (NObj p o) -> member h um p KDeclared o x -> promoted_ns m p x q ->
       (forall p' o' k', node g (NObj p' o') -> member h um p' k' o' x -> k' <> KDeclared -> promoted_ns m p' x q ->
          rep (NObj p o) = NObj p' o') /\
       (forall p' o', node g (NObj p' o') -> member h um p' KDeclared o' x -> promoted_ns m p' x q ->
          rep (NObj p o) = rep (NObj p' o'))).
Proof. exact end_to_end. Qed.
Print Assumptions c56_declared_meets_source.

(** ** A concrete hierarchy *)
(** Main model: input x, declared y, output z computed from y.  Submodel A, fully promoted:
    declared x, output y computed from x. *)
Definition exh : list obj :=
  [Obj KIn 0 "x" [] [] None false; Obj KDecl 1 "x" [] [] None false;
   Obj (KOp false) 2 "_0002" [1] [3] None false; Obj KOut 3 "y" [2] [] None false;
   Obj KDecl 4 "y" [] [] None false; Obj (KOp false) 5 "_0005" [4] [6] None false; Obj KOut 6 "z" [5] [] None false].
Definition exum : umodel := UM [0] [6] [4] [("A", UM [] [3] [1] [])].
Definition exm : model := Mdl [("x", [2])] [("z", [2])] [("y", [2])] [] [] [] None
  [("A", None, Mdl [] [("y", [2])] [("x", [2])] [] [] [] None [])].
Definition exshp (o : nat) : shape := [2].

Ltac cases_in := repeat match goal with H : _ \/ _ |- _ => destruct H as [H|H] | H : False |- _ => destruct H end.

Lemma ex_hierarchy : hierarchy exh exshp exum exm.
Proof.
  assert (N : forall o ob, nth_error exh o = Some ob -> named exh o (ob_name ob)) by (intros o ob E; exists ob; auto).
  assert (HA : hierarchy exh exshp (UM [] [3] [1] []) (Mdl [] [("y", [2])] [("x", [2])] [] [] [] None [])).
  { constructor; cbn; repeat constructor.
    - eexists. split; [reflexivity|auto].
    - eexists. split; reflexivity.
    - eexists. split; reflexivity.
    - eexists. split; reflexivity.
    - intros [|k] a b Ha; discriminate. }
  constructor; cbn; repeat constructor.
  all: try (eexists; split; [reflexivity|]; auto; fail).
  intros [|k] a b Ha Hb; cbn in Ha, Hb; [|destruct k; discriminate]. injection Ha as <-. injection Hb as <-. exact HA.
Qed.
Lemma ex_resolves : exists r, resolve exm None = Ok r /\ rp_p2u r = [("x", ["x"; "A.x"]); ("z", ["z"]); ("y", ["y"; "A.y"])].
Proof. eexists. split; vm_compute; reflexivity. Qed.

Lemma exh_get o ob : nth_error exh o = Some ob -> In (o, ob) (combine (seq 0 7) exh).
Proof.
  intros E. assert (L : o < 7) by (change 7 with (length exh); apply nth_error_Some; congruence).
  do 7 (destruct o as [|o]; [cbn in E; injection E as <-; cbn; tauto|]). lia.
Qed.
Lemma ex_um_at p um' : um_at exum p um' -> (p = [] /\ um' = exum) \/ (p = ["A"] /\ um' = UM [] [3] [1] []).
Proof.
  intros A. inversion A as [|? ? ? ? s sm p' m' Hs A']; subst; [left; auto|]. cbn in Hs. destruct Hs as [E|[]]. injection E as <- <-.
  inversion A' as [|? ? ? ? ? ? ? ? Hs' ?]; subst; [right; auto|destruct Hs'].
Qed.
Lemma ex_uses_own : uses_own exh exum.
Proof.
  intros p ins outs decls subs o A S (ob & E & O). apply ex_um_at in A.
  assert (K : forall l, (forall x, In x l -> x = 4 \/ x = 6) -> forall o, needed exh l o -> In o [4; 5; 6]).
  { intros l Hl o' N. induction N as [x Hx|x y _ IH (b & Eb & Hd)|x y _ IH (b & Eb & Ob & Hd)].
    - destruct (Hl x Hx) as [->| ->]; cbn; auto.
    - apply exh_get in Eb. cbn in Eb, IH. cases_in; try injection Eb as <- <-; try discriminate; cbn in Hd; cases_in; subst; cbn; auto.
    - apply exh_get in Eb. cbn in Eb, IH. cases_in; try injection Eb as <- <-; try discriminate; cbn in Hd; cases_in; subst; cbn; auto. }
  assert (K' : forall l, (forall x, In x l -> x = 1 \/ x = 3) -> forall o, needed exh l o -> In o [1; 2; 3]).
  { intros l Hl o' N. induction N as [x Hx|x y _ IH (b & Eb & Hd)|x y _ IH (b & Eb & Ob & Hd)].
    - destruct (Hl x Hx) as [->| ->]; cbn; auto.
    - apply exh_get in Eb. cbn in Eb, IH. cases_in; try injection Eb as <- <-; try discriminate; cbn in Hd; cases_in; subst; cbn; auto.
    - apply exh_get in Eb. cbn in Eb, IH. cases_in; try injection Eb as <- <-; try discriminate; cbn in Hd; cases_in; subst; cbn; auto. }
  right. destruct A as [[-> A]|[-> A]]; injection A as -> -> -> ->; cbn [app] in *.
  - destruct S as [[<-|[]]|S]; [cbn; auto|]. apply K in S; [|intros x Hx; cbn in Hx; intuition lia].
    cbn in S. cases_in; subst; cbn; auto. cbn in E. injection E as <-. discriminate.
  - destruct S as [[]|S]. apply K' in S; [|intros x Hx; cbn in Hx; intuition lia].
    cbn in S. cases_in; subst; cbn; auto. cbn in E. injection E as <-. discriminate.
Qed.
Example c54_c55_c56_nonvacuous : exists r u,
  hierarchy exh exshp exum exm /\ well_named exm /\ resolve exm None = Ok r /\ inputs_exist exh exum /\ construct_all exh [] exum = Ok u /\
  uses_own exh exum /\ chosen_names_only exh exm /\ alternates exh /\ op_names_apart exh /\
  member exh exum ["A"] KDeclared 1 "x" /\ member exh exum [] KInput 0 "x" /\
  promoted_ns exm ["A"] "x" [] /\ promoted_ns exm [] "x" [] /\
  (exists g log, flattened exh r u = Ok (g, log) /\ node g (NObj ["A"] 1) /\ node g (NObj [] 0) /\
     merge_auto irnode_eqb (node_attr exh exshp (fun _ => true) log) g =
     Ok (DG [NObj [] 0; NObj [] 5; NObj [] 6; NObj ["A"] 2; NObj ["A"] 3]
            [(NObj [] 5, NObj [] 6); (NObj ["A"] 2, NObj ["A"] 3); (NObj [] 0, NObj ["A"] 2); (NObj ["A"] 3, NObj [] 5)])).
Proof.
  destruct ex_resolves as (r & R & P). let t := eval vm_compute in (construct_all exh [] exum) in
    match t with Ok ?u => exists r, u; assert (C : construct_all exh [] exum = Ok u) by (vm_compute; reflexivity) end.
  split; [apply ex_hierarchy|]. split; [apply well_namedb_sound; vm_compute; reflexivity|]. split; [exact R|]. clear R. split.
  { intros p ins outs decls subs i A Hi. apply ex_um_at in A. destruct A as [[-> A]|[-> A]]; injection A as -> -> -> ->; cbn in Hi; cbn; intuition lia. }
  split; [exact C|]. clear C. split; [apply ex_uses_own|]. split.
  { intros p k x s (m' & A & Hv) i ob Ei.
    assert (U : (ob_num ob < 100)%N) by (destruct i as [|[|[|[|[|[|[|[|[|[|[|[|i]]]]]]]]]]]]; cbn in Ei; try discriminate; injection Ei as <-; vm_compute; reflexivity).
    assert (L : String.length x <> 5); [|refine (@other_length 100 x _ L _ U); vm_compute; discriminate].
    inversion A as [|? nm pr sm p' ? Hs A']; subst; [destruct k; cbn in Hv; cases_in; injection Hv as <- <-; cbn; lia|].
    cbn in Hs. destruct Hs as [E|[]]. injection E as <- <- <-. inversion A' as [|? ? ? ? ? ? Hs' ?]; subst; [|destruct Hs'].
    destruct k; cbn in Hv; cases_in; injection Hv as <- <-; cbn; lia. }
  assert (KN : forall o, o < 7 -> exists ob, nth_error exh o = Some ob).
  { intros o L. destruct (nth_error exh o) as [ob|] eqn:E; [eauto|]. apply nth_error_None in E. cbn in E. lia. }
  split.
  { intros a b Hf.
    assert (L : In (a, b) [(1, 2); (2, 3); (4, 5); (5, 6)]).
    { destruct Hf as [(ob & E & Hd)|(ob & E & O & Hd)]; apply exh_get in E; cbn in E; cases_in; injection E as <- <-; cbn in Hd; try discriminate; cases_in; subst; cbn; auto. }
    cbn in L. cases_in; injection L as <- <-; [left|right|left|right]; split; eexists; split; reflexivity. }
  split.
  { intros a b n (oa & Ea & Oa) (ob & Eb & Ob) (oa' & Ea' & Na) (ob' & Eb' & Nb). rewrite Ea in Ea'. injection Ea' as <-. rewrite Eb in Eb'. injection Eb' as <-.
    assert (LB : (String.length (ob_name ob) < 5)%nat).
    { apply exh_get in Eb. cbn [combine seq exh In] in Eb. cases_in; injection Eb as <- <-; try discriminate; cbn; lia. }
    rewrite Nb, <- Na in LB. apply exh_get in Ea. cbn [combine seq exh In] in Ea. cases_in; injection Ea as <- <-; try discriminate; vm_compute in LB; lia. }
  split. { split; [eexists; split; reflexivity|]. exists [], [3], [1], []. split; [|left; reflexivity]. econstructor; [left; reflexivity|constructor]. }
  split. { split; [eexists; split; reflexivity|]. exists [0], [6], [4], [("A", UM [] [3] [1] [])]. split; [constructor|left; reflexivity]. }
  split. { eapply pn_lifted; [left; reflexivity|constructor|exact I]. }
  split; [constructor|].
  unfold flattened. rewrite P.
  do 2 eexists. split; [vm_compute; reflexivity|]. split; [vm_compute; auto 10|]. split; [vm_compute; auto 10|].
  vm_compute. reflexivity.
Qed.

(** ** C57: names that stay inside a submodel *)
(** C57 fails: submodel S promotes nothing; its custom operation returns y, which S does
    not register.  The main model declares a y of its own, the only variable y of the
    hierarchy, and it is replaced by the result of the operation in S. *)
Definition leakh : list obj :=
  [Obj KDecl 0 "y" [] [] None false; Obj (KOp false) 1 "_0001" [0] [2] None false; Obj KOut 2 "z" [1] [] None false;
   Obj KDecl 3 "a" [] [] None false; Obj (KOp true) 4 "_0004" [3] [5] None false; Obj KOut 5 "y" [4] [] None false;
   Obj (KOp false) 6 "_0006" [5] [7] None false; Obj KOut 7 "b" [6] [] None false].
Definition leakum : umodel := UM [] [2] [0] [("S", UM [] [7] [3] [])].
Definition leakm : model := Mdl [] [("z", [2])] [("y", [2])] [] [] [] None
  [("S", Some [], Mdl [] [("b", [2])] [("a", [2])] [] [] [] None [])].
Theorem c57_private_names_refuted : exists r u g log g',
  well_named leakm /\ resolve leakm None = Ok r /\ construct_all leakh [] leakum = Ok u /\ flattened leakh r u = Ok (g, log) /\
  (forall p k s, has_var leakm p k "y" s -> p = []) /\
  member leakh leakum [] KDeclared 0 "y" /\ edge g (NObj [] 0) (NObj [] 1) /\
  merge_auto irnode_eqb (node_attr leakh exshp (fun _ => true) log) g = Ok g' /\
  ~ node g' (NObj [] 0) /\ edge g' (NObj ["S"] 5) (NObj [] 1).
Proof.
  let t := eval vm_compute in (resolve leakm None) in let t' := eval vm_compute in (construct_all leakh [] leakum) in
    match t with Ok ?r => match t' with Ok ?u => exists r, u;
      let t2 := eval vm_compute in (flattened leakh r u) in match t2 with Ok (?g, ?log) => exists g, log;
        let t3 := eval vm_compute in (merge_auto irnode_eqb (node_attr leakh exshp (fun _ => true) log) g) in
        match t3 with Ok ?g' => exists g' end end end end.
  split; [apply well_namedb_sound; vm_compute; reflexivity|]. split; [vm_compute; reflexivity|]. split; [vm_compute; reflexivity|].
  split; [vm_compute; reflexivity|]. split.
  { intros p k s (m' & A & Hv). inversion A as [|? nm pr sm p' ? Hs A']; subst; [reflexivity|]. exfalso.
    cbn in Hs. destruct Hs as [E|[]]. injection E as <- <- <-. inversion A' as [|? ? ? ? ? ? Hs' ?]; subst; [|destruct Hs'].
    destruct k; cbn in Hv; cases_in; discriminate. }
  split. { split; [eexists; split; reflexivity|]. exists [], [2], [0], [("S", UM [] [7] [3] [])]. split; [constructor|left; reflexivity]. }
  split; [vm_compute; tauto|]. split; [vm_compute; reflexivity|]. split; [vm_compute; intuition discriminate|vm_compute; tauto].
Qed.
Print Assumptions c57_private_names_refuted.
(** C57, partial: a variable the hierarchy lists gets its promoted name only (theorem
    c55_promoted_names), so two listed variables share a node name only if the promotion
    rule gives them the same name.  Missing: results of custom operations that are not
    registered. *)
Theorem c57_private_names_partial : forall h shp dflt um m r u g log p k o x q p' k' o' x' q' v v',
  hierarchy h shp um m -> well_named m -> resolve m None = Ok r -> inputs_exist h um -> built h um u ->
  flattened h r u = Ok (g, log) ->
  member h um p k o x -> node g (NObj p o) -> promoted_ns m p x q ->
  member h um p' k' o' x' -> node g (NObj p' o') -> promoted_ns m p' x' q' ->
  node_attr h shp dflt log (NObj p o) = NVar v -> node_attr h shp dflt log (NObj p' o') = NVar v' ->
  (va_pname v = va_pname v' <-> q = q' /\ x = x').
Proof. exact same_name_iff. Qed.
Print Assumptions c57_private_names_partial.
