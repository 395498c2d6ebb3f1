(** Property theorem C87: compiling a model gives a program that computes the model. *)
From Verif Require Import PyBase ExprProofs2 NamesModel NamesProofs PromotionsModel PromotionsSpec PromotionsProofs3 HierModel HierSpec HierProofs Digraph TopoModel TopoSpec
  FlatModel FlatSpec ExprModel ExprSpec UnflatModel UnflatSpec Prop_Unflat FlattenModel FlattenSpec CompileModel CompileSpec CompileProofs CompileProofs2.
Local Open Scope string_scope.
Local Open Scope list_scope.

(** C87: running the operations of a compiled model in the order of the representation,
    on one memory cell per node, gives values that satisfy the equations of the model: each
    operation is applied to the values of its own arguments, variables with one promoted
    name have one value, so have the two ends of a connection, and inputs and unconnected
    declared variables have the supplied values. *)
Theorem c87_program_solves_model : forall V h shp dflt um m c (apply : nat -> list V -> nat -> V) init,
  well_formed h um m shp -> inputs_not_targets h um m -> compile h shp dflt um m = Ok c ->
  solves h um m apply init (result h shp dflt apply init c).
Proof. intros V h shp dflt um m c apply init WF TI H. apply compiles_solves; [exact WF|exact TI|apply compile_compiles, H]. Qed.
Print Assumptions c87_program_solves_model.

(** C87: the equations have no other solution. *)
Theorem c87_model_has_one_solution : forall V h shp dflt um m c (apply : nat -> list V -> nat -> V) init val,
  well_formed h um m shp -> inputs_not_targets h um m -> compile h shp dflt um m = Ok c ->
  solves h um m apply init val ->
  forall p o, occurs h um p o -> variable h o -> val p o = result h shp dflt apply init c p o.
Proof. intros V h shp dflt um m c apply init val WF TI H. exact (@compiles_unique V h shp dflt um m c apply init val WF TI (compile_compiles _ _ _ _ _ _ H)). Qed.
Print Assumptions c87_model_has_one_solution.

(** C87: every operation that some registered output needs is in the order, once; its
    predecessors and successors in the flat graph are the nodes of its arguments and results;
    producers come before consumers. *)
Theorem c87_order : forall h shp dflt um m c,
  well_formed h um m shp -> inputs_not_targets h um m -> compile h shp dflt um m = Ok c ->
  NoDup (c_order c) /\ (forall x, In x (c_order c) <-> node (c_graph c) x) /\
  (forall x, In x (c_order c) -> exists p o, x = NObj p o /\ occurs h um p o) /\
  (forall p o, occurs h um p o -> operation h o -> In (NObj p o) (c_order c)) /\
  (forall p o, occurs h um p o -> variable h o -> In (node_of h c p o) (c_order c)) /\
  (forall p o a, occurs h um p o -> operation h o ->
     (edge (c_graph c) a (NObj p o) <-> exists d, reads h o d /\ a = node_of h c p d)) /\
  (forall p o b, occurs h um p o -> operation h o ->
     (edge (c_graph c) (NObj p o) b <-> exists v, writes h o v /\ b = node_of h c p v)) /\
  (forall a b, edge (c_graph c) a b -> precedes (c_order c) a b).
Proof. intros h shp dflt um m c WF TI H. exact (@compiles_order h shp dflt um m c WF TI (compile_compiles _ _ _ _ _ _ H)). Qed.
Print Assumptions c87_order.

(** ** A concrete hierarchy *)
(** Main model: input x, declared y, output z computed from y, declared w connected to z,
    output v computed from w.  Submodel A, fully promoted: declared x, output y computed
    from x. *)
Definition cxh : list obj :=
  [Obj KIn 0 "x" [] [] None false; Obj KDecl 1 "x" [] [] None false;
   Obj (KOp false) 2 "_0002" [1] [3] None false; Obj KOut 3 "y" [2] [] None false;
   Obj KDecl 4 "y" [] [] None false; Obj (KOp false) 5 "_0005" [4; 0] [6] None false; Obj KOut 6 "z" [5] [] None false;
   Obj KDecl 7 "w" [] [] None false; Obj (KOp false) 8 "_0008" [7] [9] None false; Obj KOut 9 "v" [8] [] None false].
Definition cxum : umodel := UM [0] [6; 9] [4; 7] [("A", UM [] [3] [1] [])].
Definition cxm : model := Mdl [("x", [2])] [("z", [2]); ("v", [2])] [("y", [2]); ("w", [2])] [("z", "w")] [] [] None
  [("A", None, Mdl [] [("y", [2])] [("x", [2])] [] [] [] None [])].
Definition cxshp (o : nat) : shape := [2].
Ltac cases_in := repeat match goal with H : _ \/ _ |- _ => destruct H as [H|H] | H : False |- _ => destruct H end.

Lemma cxh_get o ob : nth_error cxh o = Some ob -> In (o, ob) (combine (seq 0 10) cxh).
Proof.
  intros E. assert (L : o < 10) by (change 10 with (length cxh); apply nth_error_Some; congruence).
  do 10 (destruct o as [|o]; [cbn in E; injection E as <-; cbn; tauto|]). lia.
Qed.
Lemma cx_reads x y : reads cxh x y -> In (x, y) [(2, 1); (3, 2); (5, 4); (5, 0); (6, 5); (8, 7); (9, 8)].
Proof. intros (ob & E & Hd). apply cxh_get in E. cbn in E. cases_in; injection E as <- <-; cbn in Hd; cases_in; subst; cbn; tauto. Qed.
Lemma cx_writes x y : writes cxh x y -> In (x, y) [(2, 3); (5, 6); (8, 9)].
Proof. intros (ob & E & O & Hd). apply cxh_get in E. cbn in E. cases_in; injection E as <- <-; try discriminate; cbn in Hd; cases_in; subst; cbn; tauto. Qed.
Lemma cx_named o n : named cxh o n -> In (o, n) [(0, "x"); (1, "x"); (2, "_0002"); (3, "y"); (4, "y"); (5, "_0005"); (6, "z"); (7, "w"); (8, "_0008"); (9, "v")].
Proof. intros (ob & E & <-). apply cxh_get in E. cbn in E. cases_in; injection E as <- <-; cbn; tauto. Qed.
Lemma cx_var o : variable cxh o -> In o [0; 1; 3; 4; 6; 7; 9].
Proof. intros (ob & E & O). apply cxh_get in E. cbn in E. cases_in; injection E as <- <-; try discriminate; cbn; tauto. Qed.
Lemma cx_op o : operation cxh o -> In o [2; 5; 8].
Proof. intros (ob & E & O). apply cxh_get in E. cbn in E. cases_in; injection E as <- <-; try discriminate; cbn; tauto. Qed.
Lemma cx_um_at p um' : um_at cxum p um' -> (p = [] /\ um' = cxum) \/ (p = ["A"] /\ um' = UM [] [3] [1] []).
Proof.
  intros A. inversion A as [|? ? ? ? s sm p' m' Hs A']; subst; [left; auto|]. cbn in Hs. destruct Hs as [E|[]]. injection E as <- <-.
  inversion A' as [|? ? ? ? ? ? ? ? Hs' ?]; subst; [right; auto|destruct Hs'].
Qed.
Lemma cx_needed (l L : list nat) : incl l L -> (forall x y, In x L -> reads cxh x y \/ writes cxh x y -> In y L) -> forall o, needed cxh l o -> In o L.
Proof. intros I C o N. induction N as [x Hx|x y _ IH H|x y _ IH H]; [apply I, Hx|apply (C x y IH); auto|apply (C x y IH); auto]. Qed.
Lemma cx_scope p ins outs decls subs : um_at cxum p (UM ins outs decls subs) -> exists L, incl (ins ++ outs ++ decls) L /\ (forall o, scope cxh ins (outs ++ decls) o -> In o L) /\
  ((p = [] /\ ins = [0] /\ outs = [6; 9] /\ decls = [4; 7] /\ map fst subs = ["A"] /\ L = [0; 4; 5; 6; 7; 8; 9]) \/
   (p = ["A"] /\ ins = [] /\ outs = [3] /\ decls = [1] /\ subs = [] /\ L = [1; 2; 3])).
Proof.
  intros A. apply cx_um_at in A. destruct A as [[-> A]|[-> A]]; injection A as -> -> -> ->.
  - exists [0; 4; 5; 6; 7; 8; 9]. assert (I : incl ([0] ++ [6; 9] ++ [4; 7]) [0; 4; 5; 6; 7; 8; 9]) by (intros o Ho; cbn in Ho |- *; intuition subst; auto 10).
    split; [exact I|]. split; [|left; auto 10]. intros o [Ho|Ho]; [apply I; cbn in Ho |- *; tauto|]. revert o Ho. apply cx_needed; [intros o Ho; apply I; cbn in Ho |- *; tauto|].
    intros x y Hx [H|H]; [apply cx_reads in H|apply cx_writes in H]; cbn in H; cases_in; injection H as <- <-; cbn in Hx |- *; cases_in; try discriminate; auto 10.
  - exists [1; 2; 3]. assert (I : incl ([] ++ [3] ++ [1]) [1; 2; 3]) by (intros o Ho; cbn in Ho |- *; intuition subst; auto 10).
    split; [exact I|]. split; [|right; auto 10]. intros o [[]|Ho]. revert o Ho. apply cx_needed; [intros o Ho; apply I; cbn in Ho |- *; tauto|].
    intros x y Hx [H|H]; [apply cx_reads in H|apply cx_writes in H]; cbn in H; cases_in; injection H as <- <-; cbn in Hx |- *; cases_in; try discriminate; auto 10.
Qed.
Lemma cx_hierarchy : hierarchy cxh cxshp cxum cxm.
Proof.
  assert (HA : hierarchy cxh cxshp (UM [] [3] [1] []) (Mdl [] [("y", [2])] [("x", [2])] [] [] [] None [])).
  { constructor; cbn; repeat constructor.
    - eexists. split; [reflexivity|auto].
    - eexists. split; reflexivity.
    - eexists. split; reflexivity.
    - eexists. split; reflexivity.
    - intros [|k] a b Ha; discriminate. }
  constructor; cbn; repeat constructor.
  all: try (eexists; split; [reflexivity|]; auto; fail).
  intros [|k] a b Ha Hb; cbn in Ha, Hb; [|destruct k; discriminate]. injection Ha as <-. injection Hb as <-. exact HA.
Qed.
Lemma cx_well_formed : well_formed cxh cxum cxm cxshp.
Proof.
  split.
  - exact cx_hierarchy.
  - apply well_namedb_sound. vm_compute. reflexivity.
  - intros p ins outs decls subs i A Hi. apply cx_um_at in A. destruct A as [[-> A]|[-> A]]; injection A as -> -> -> ->; cbn in Hi |- *; intuition lia.
  - intros x y [H|H]; [apply cx_reads in H|apply cx_writes in H]; cbn in H |- *; cases_in; injection H as <- <-; lia.
  - intros p ins outs decls subs o A S V. right. destruct (cx_scope _ _ _ _ _ A) as (L & _ & Sc & D). apply Sc in S. apply cx_var in V.
    destruct D as [(-> & -> & -> & -> & _ & ->)|(-> & -> & -> & -> & _ & ->)]; cbn in S, V |- *; cases_in; subst; try discriminate; auto 10.
  - intros p k x s (m' & A & Hv) i ob Ei.
    assert (U : (ob_num ob < 100)%N) by (destruct i as [|[|[|[|[|[|[|[|[|[|[|[|i]]]]]]]]]]]]; cbn in Ei; try discriminate; injection Ei as <-; vm_compute; reflexivity).
    assert (L : String.length x <> 5); [|refine (@other_length 100 x _ L _ U); vm_compute; discriminate].
    inversion A as [|? nm pr sm p' ? Hs A']; subst; [destruct k; cbn in Hv; cases_in; injection Hv as <- <-; cbn; lia|].
    cbn in Hs. destruct Hs as [E|[]]. injection E as <- <- <-. inversion A' as [|? ? ? ? ? ? Hs' ?]; subst; [|destruct Hs'].
    destruct k; cbn in Hv; cases_in; injection Hv as <- <-; cbn; lia.
  - intros a b [H|H]; [apply cx_reads in H|apply cx_writes in H]; cbn in H; cases_in; injection H as <- <-;
      (left; split; eexists; split; reflexivity) || (right; split; eexists; split; reflexivity).
  - intros a b n Oa Vb Na Nb. apply cx_op in Oa. apply cx_var in Vb. apply cx_named in Na, Nb. cbn in Oa, Vb, Na, Nb.
    cases_in; subst; try discriminate; congruence.
  - intros p ins outs decls subs A. destruct (cx_scope _ _ _ _ _ A) as (L & _ & Sc & D). split.
    + intros a b n Sa Sb Na Nb. apply Sc in Sa, Sb. apply cx_named in Na, Nb.
      destruct D as [(_ & _ & _ & _ & _ & ->)|(_ & _ & _ & _ & _ & ->)]; cbn in Sa, Sb, Na, Nb; cases_in; subst; try discriminate; congruence.
    + intros a n Sa Na Hs. apply Sc in Sa. apply cx_named in Na.
      destruct D as [(_ & _ & _ & _ & E & ->)|(_ & _ & _ & _ & -> & ->)]; [|destruct Hs]. rewrite E in Hs. cbn in Sa, Na, Hs. cases_in; subst; try discriminate; congruence.
  - intros o v Vv. apply cx_var in Vv. split.
    + intros H. apply cx_reads in H. cbn in H, Vv. cases_in; injection H as <- <-; try discriminate; eexists; (split; [reflexivity|split; [reflexivity|cbn; auto]]).
    + intros H. apply cx_writes in H. cbn in H. cases_in; injection H as <- <-; eexists; (split; [reflexivity|cbn; auto]).
  - intros a b v Ha Hb. apply cx_writes in Ha, Hb. cbn in Ha, Hb. cases_in; congruence.
  - intros o ob E O. apply cxh_get in E. cbn in E. cases_in; injection E as <- <-; try discriminate; cbn; repeat constructor; cbn; tauto.
  - intros o v H. apply cx_writes in H. cbn in H. cases_in; injection H as <- <-; eexists; (split; [reflexivity|cbn; auto]).
  - intros p o _ (ob & E & K). apply cxh_get in E. cbn in E. cases_in; injection E as <- <-; try discriminate; [exists 2|exists 5|exists 8]; eexists; (split; [reflexivity|split; [reflexivity|cbn; auto]]).
  - intros p o _ (ob' & E' & O) (ob & E & K). rewrite E in E'. injection E' as <-. apply cxh_get in E. cbn [combine seq cxh In] in E.
    cases_in; injection E as <- <-; vm_compute in K; discriminate.
Qed.

Lemma cx_not_target : inputs_not_targets cxh cxum cxm.
Proof.
  intros p o pn (p0 & a & b & (m0 & A0 & Hc) & Hr) (x & q & Hm & Hq & E).
  assert (MO : exists mp, maps_of cxm = Ok mp) by (eexists; vm_compute; reflexivity). destruct MO as (mp & MO).
  assert (W : well_named cxm) by (apply well_namedb_sound; vm_compute; reflexivity).
  assert (K : p0 = [] /\ b = "w").
  { inversion A0 as [|? nm pr sm p' ? Hs A']; subst; [cbn in Hc; destruct Hc as [Hc|[]]; injection Hc as <- <-; auto|].
    exfalso. cbn in Hs. destruct Hs as [Es|[]]. injection Es as <- <- <-. inversion A' as [|? ? ? ? ? ? Hs' ?]; subst; [destruct Hc|destruct Hs']. }
  destruct K as [-> ->]. destruct Hm as (Nx & ins & outs & decls & subs & A & Hi). destruct (cx_scope _ _ _ _ _ A) as (L & _ & _ & D).
  destruct D as [(-> & -> & _)|(_ & -> & _)]; [|destruct Hi]. destruct Hi as [<-|[]]. apply cx_named in Nx. cbn in Nx. cases_in; try discriminate. injection Nx as <-.
  inversion Hq; subst. cbn in Hr. assert (R2 : resolves_to cxm "w" "w").
  { exists [], KDeclared, "w", [2], []. split; [exists cxm; split; [constructor|cbn; auto]|]. split; [constructor|]. split; [reflexivity|]. left. reflexivity. }
  pose proof (resolves_fun _ _ _ _ _ W MO Hr R2). discriminate.
Qed.
(** Operations are numbered; operation [o] maps the sum of its arguments to that sum plus
    [o].  With x = 100: y = 102, z = y + x + 5 = 207, w = z, v = w + 8 = 215. *)
Example c87_nonvacuous : exists c, well_formed cxh cxum cxm cxshp /\ inputs_not_targets cxh cxum cxm /\
  compile cxh cxshp (fun _ => true) cxum cxm = Ok c /\
  map (fun po => result cxh cxshp (fun _ => true) (fun o args _ => N.of_nat o + fold_left N.add args 0)%N (fun _ => 100%N) c (fst po) (snd po))
      [(["A"], 1); (["A"], 3); ([], 4); ([], 6); ([], 7); ([], 9)] = [100; 102; 102; 207; 207; 215]%N /\
  c_order c = [NObj [] 0; NObj ["A"] 2; NObj ["A"] 3; NObj [] 5; NObj [] 6; NObj [] 8; NObj [] 9].
Proof.
  let t := eval vm_compute in (compile cxh cxshp (fun _ => true) cxum cxm) in match t with Ok ?c => exists c end.
  split; [exact cx_well_formed|]. split; [exact cx_not_target|]. split; [vm_compute; reflexivity|]. split; vm_compute; reflexivity.
Qed.
