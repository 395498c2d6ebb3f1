(** What compiling gives, whatever the order in which sets are visited. *)
From Verif Require Import PyBase NamesModel NamesProofs PromotionsModel PromotionsSpec PromotionsProofs3 HierModel HierSpec HierProofs Digraph TopoModel TopoSpec
  FlatModel FlatSpec ExprModel ExprSpec UnflatModel UnflatSpec FlattenModel FlattenSpec CompileModel CompileSpec CompileProofs.

Lemma compiles_solves : forall V h shp dflt um m c (apply : nat -> list V -> nat -> V) init,
  well_formed h um m shp -> inputs_not_targets h um m -> compiles h shp dflt um m c ->
  solves h um m apply init (result h shp dflt apply init c).
Proof.
  intros V h shp dflt um m c apply init WF TI H. destruct H as (r & u & g & g1 & R & B & _ & _ & F & M & MC & SO & _).
  destruct (@rep1_exists h shp dflt um m c WF r u g g1 R B F M) as (rep1 & H1).
  destruct (@rep2_exists h shp dflt um m c WF TI r u g g1 R B F MC rep1 H1) as (rep2 & H2).
  eapply final_solves; eassumption.
Qed.

Lemma compiles_unique : forall V h shp dflt um m c (apply : nat -> list V -> nat -> V) init val,
  well_formed h um m shp -> inputs_not_targets h um m -> compiles h shp dflt um m c ->
  solves h um m apply init val ->
  forall p o, occurs h um p o -> variable h o -> val p o = result h shp dflt apply init c p o.
Proof.
  intros V h shp dflt um m c apply init val WF TI H SV. destruct H as (r & u & g & g1 & R & B & _ & _ & F & M & MC & SO & _).
  destruct (@rep1_exists h shp dflt um m c WF r u g g1 R B F M) as (rep1 & H1).
  destruct (@rep2_exists h shp dflt um m c WF TI r u g g1 R B F MC rep1 H1) as (rep2 & H2).
  eapply final_unique; eassumption.
Qed.

Lemma compiles_order : forall h shp dflt um m c,
  well_formed h um m shp -> inputs_not_targets h um m -> compiles h shp dflt um m c ->
  NoDup (c_order c) /\ (forall x, In x (c_order c) <-> node (c_graph c) x) /\
  (forall x, In x (c_order c) -> exists p o, x = NObj p o /\ occurs h um p o) /\
  (forall p o, occurs h um p o -> operation h o -> In (NObj p o) (c_order c)) /\
  (forall p o, occurs h um p o -> variable h o -> In (node_of h c p o) (c_order c)) /\
  (forall p o a, occurs h um p o -> operation h o ->
     (edge (c_graph c) a (NObj p o) <-> exists d, reads h o d /\ a = node_of h c p d)) /\
  (forall p o b, occurs h um p o -> operation h o ->
     (edge (c_graph c) (NObj p o) b <-> exists v, writes h o v /\ b = node_of h c p v)) /\
  (forall a b, edge (c_graph c) a b -> precedes (c_order c) a b).
Proof.
  intros h shp dflt um m c WF TI H. destruct H as (r & u & g & g1 & R & B & _ & _ & F & M & MC & SO & _).
  destruct (@rep1_exists h shp dflt um m c WF r u g g1 R B F M) as (rep1 & H1).
  destruct (@rep2_exists h shp dflt um m c WF TI r u g g1 R B F MC rep1 H1) as (rep2 & H2).
  split; [eapply order_nodup; eassumption|]. split; [intros x; eapply order_nodes; eassumption|].
  split. { intros x Hx. eapply order_obj in Hx; try eassumption. destruct Hx as (p & o & E & Ho & _). eauto. }
  split; [intros p o Ho O; eapply order_op; eassumption|].
  split. { intros p o Ho Vo. erewrite node_of_rep; try eassumption. eapply order_nodes; try eassumption. eapply Q12; try eassumption.
    edestruct rep_var as (p' & o' & E & Ho' & V' & Fx); try exact Ho; try exact Vo; try eassumption. rewrite E. split; [eapply flat_node; eassumption|exact Fx]. }
  split; [|split].
  - intros p o a Ho O. split.
    + intros He. eapply Q12 in He; try eassumption. destruct He as (a' & b' & He & Ea & Eb). pose proof He as He0. eapply flat_edge in He; try eassumption.
      destruct He as (p' & x & y & -> & -> & Hf & ins & outs & decls & subs & A & Hx & Hy).
      assert (Oy : occurs h um p' y) by (exists ins, outs, decls, subs; auto). assert (Ox : occurs h um p' x) by (exists ins, outs, decls, subs; auto).
      assert (Yo : operation h y).
      { destruct (f_alternates WF x y Hf) as [[_ K]|[_ K]]; [exact K|exfalso]. edestruct rep_var as (p2 & o2 & E2 & _ & V2 & _); try exact Oy; try exact K; try eassumption.
        rewrite Eb in E2. injection E2 as <- <-. exact (op_not_var h o O V2). }
      erewrite rep_op in Eb; try eassumption. injection Eb as -> ->. exists x. split.
      * eapply reads_flows_op; eassumption.
      * rewrite <- Ea. symmetry. eapply node_of_rep; try eassumption. destruct (f_alternates WF x o Hf) as [[K _]|[_ K]]; [exact K|].
        exfalso. exact (op_not_var h o O K).
    + intros (d & Hr & ->). edestruct arg_edge as [He Hd]; try exact Ho; try exact O; try exact Hr; try eassumption.
      eapply Q12; try eassumption. exists (NObj p d), (NObj p o). split; [exact He|]. split; [|eapply rep_op; eassumption].
      symmetry. eapply node_of_rep; try eassumption. eapply arg_variable; eassumption.
  - intros p o b Ho O. split.
    + intros He. eapply Q12 in He; try eassumption. destruct He as (a' & b' & He & Ea & Eb). eapply flat_edge in He; try eassumption.
      destruct He as (p' & x & y & -> & -> & Hf & ins & outs & decls & subs & A & Hx & Hy).
      assert (Oy : occurs h um p' y) by (exists ins, outs, decls, subs; auto). assert (Ox : occurs h um p' x) by (exists ins, outs, decls, subs; auto).
      assert (Xo : operation h x).
      { destruct (f_alternates WF x y Hf) as [[K _]|[K _]]; [exfalso|exact K]. edestruct rep_var as (p2 & o2 & E2 & _ & V2 & _); try exact Ox; try exact K; try eassumption.
        rewrite Ea in E2. injection E2 as <- <-. exact (op_not_var h o O V2). }
      erewrite rep_op in Ea; try eassumption. injection Ea as -> ->.
      assert (Vy : variable h y) by (destruct (f_alternates WF o y Hf) as [[K _]|[_ K]]; [exfalso; exact (op_not_var h o O K)|exact K]).
      exists y. split; [eapply flows_into_var; eassumption|]. rewrite <- Eb. symmetry. eapply node_of_rep; eassumption.
    + intros (v & Hw & ->). edestruct res_edge as [He Hv]; try exact Ho; try exact Hw; try eassumption.
      eapply Q12; try eassumption. exists (NObj p o), (NObj p v). split; [exact He|]. split; [eapply rep_op; eassumption|].
      symmetry. eapply node_of_rep; try eassumption. eapply out_var. exact (f_outputs WF _ _ Hw).
  - intros a b He. eapply order_edge; eassumption.
Qed.


Lemma compiles_feeds : forall h shp dflt um m c p v p' d,
  well_formed h um m shp -> inputs_not_targets h um m -> compiles h shp dflt um m c ->
  occurs h um p v -> variable h v -> ~ declared_object h v -> occurs h um p' d -> variable h d ->
  (node_of h c p v = node_of h c p' d <-> feeds h um m p v p' d).
Proof.
  intros h shp dflt um m c p v p' d WF TI H. destruct H as (r & u & g & g1 & R & B & _ & _ & F & M & MC & SO & _).
  destruct (@rep1_exists h shp dflt um m c WF r u g g1 R B F M) as (rep1 & H1).
  destruct (@rep2_exists h shp dflt um m c WF TI r u g g1 R B F MC rep1 H1) as (rep2 & H2).
  eapply node_feeds; eassumption.
Qed.
