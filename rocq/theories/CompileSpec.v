(** What a model means, without graphs, and what running a compiled model computes. *)
From Verif Require Import PyBase NamesModel PromotionsModel PromotionsSpec HierSpec Digraph ExprModel UnflatModel UnflatSpec
  FlatModel FlattenModel FlattenSpec CompileModel.

(** ** The model *)
Section Source.
  Context (h : list obj) (um : umodel) (m : model).

  (** Object [o] takes part in the model at path [p]: it is an input or something the
      registered outputs depend on. *)
  Definition occurs (p : list string) (o : nat) : Prop :=
    exists ins outs decls subs, um_at um p (UM ins outs decls subs) /\ (In o ins \/ needed h outs o).
  (** [o] is an input, output or declared variable (according to [k]) of the model at path
      [p], and its promoted name is [pn]. *)
  Definition called (p : list string) (k : vkind) (o : nat) (pn : string) : Prop :=
    exists x q, member h um p k o x /\ promoted_ns m p x q /\ pn = dotted q x.
  (** Some connection leads to the variables with promoted name [pn]. *)
  Definition connection_target (pn : string) : Prop :=
    exists p a b, declared_conn m p a b /\ resolves_to m (dotted p b) pn.

  (** The equations of a model.  [apply o args k] is the [k]-th result of operation [o] for
      the given arguments, [init pn] the value supplied for the variable with promoted name
      [pn].  [val p o] is the value of variable [o] in the model at path [p]. *)
  Record solves {V} (apply : nat -> list V -> nat -> V) (init : string -> V) (val : list string -> nat -> V) : Prop := {
    s_operations : forall p o ob k v, occurs p o -> nth_error h o = Some ob -> is_op ob = true -> nth_error (ob_outs ob) k = Some v ->
      val p v = apply o (map (val p) (ob_deps ob)) k;
    s_promoted : forall p k o p' k' o' pn, occurs p o -> occurs p' o' -> called p k o pn -> called p' k' o' pn ->
      val p o = val p' o';
    s_connected : forall p0 a b pa pb p k o p' k' o', declared_conn m p0 a b ->
      resolves_to m (dotted p0 a) pa -> resolves_to m (dotted p0 b) pb ->
      occurs p o -> occurs p' o' -> called p k o pa -> called p' k' o' pb -> val p' o' = val p o;
    s_inputs : forall p o pn, called p KInput o pn -> val p o = init pn;
    s_free : forall p o pn, occurs p o -> called p KDeclared o pn ->
      (forall p' k' o', called p' k' o' pn -> k' = KDeclared) -> ~ connection_target pn -> val p o = init pn
  }.

  (** Variable [d] of the model at path [p'] holds the value of variable [v] of the model at
      path [p], which is not a declared variable: it is that variable, it has the same
      promoted name, or a connection leads from [v]'s promoted name to [d]'s. *)
  Definition feeds (p : list string) (v : nat) (p' : list string) (d : nat) : Prop :=
    (p = p' /\ v = d) \/
    (exists k k' pn, called p k v pn /\ called p' k' d pn) \/
    (exists p0 a b pa pb k k', declared_conn m p0 a b /\ resolves_to m (dotted p0 a) pa /\ resolves_to m (dotted p0 b) pb /\
       called p k v pa /\ called p' k' d pb).

  (** ** Conditions on the model *)
  (** An operation lists a variable as output exactly when the variable depends on it; a
      variable is an output of at most one operation, once; only outputs are computed. *)
  Definition results_listed : Prop := forall o v, variable h v -> (reads h v o <-> writes h o v).
  Definition one_producer : Prop := forall a b v, writes h a v -> writes h b v -> a = b.
  Definition results_distinct : Prop := forall o ob, nth_error h o = Some ob -> is_op ob = true -> NoDup (ob_outs ob).
  Definition only_outputs_computed : Prop := forall o v, writes h o v -> output_object h v.
  (** Outputs are computed: registered ones and those used. *)
  Definition outputs_computed : Prop := forall p o, occurs p o -> output_object h o -> exists a, writes h a o.
  (** In each model, different objects have different names, which are not those of the
      submodels. *)
  Definition distinct_names : Prop := forall p ins outs decls subs, um_at um p (UM ins outs decls subs) ->
    names_apart h (scope h ins (outs ++ decls)) (map fst subs).
  (** No connection leads to an input (the code accepts some: C20). *)
  Definition inputs_not_targets : Prop := forall p o pn, connection_target pn -> ~ called p KInput o pn.

  (** Only computed variables have generated names. *)
  Definition generated_names : Prop := forall p o, occurs p o -> variable h o -> auto_named h o -> output_object h o.

  Record well_formed (shp : nat -> shape) : Prop := {
    f_hierarchy : hierarchy h shp um m;
    f_named : well_named m;
    f_inputs : inputs_exist h um;
    f_no_dangling : no_dangling h;
    f_uses_own : uses_own h um;
    f_chosen : chosen_names_only h m;
    f_alternates : alternates h;
    f_op_names : op_names_apart h;
    f_names : distinct_names;
    f_listed : results_listed;
    f_one : one_producer;
    f_distinct : results_distinct;
    f_outputs : only_outputs_computed;
    f_computed : outputs_computed;
    f_generated : generated_names
  }.
End Source.

Arguments f_hierarchy {h um m shp}.
Arguments f_named {h um m shp}.
Arguments f_inputs {h um m shp}.
Arguments f_no_dangling {h um m shp}.
Arguments f_uses_own {h um m shp}.
Arguments f_chosen {h um m shp}.
Arguments f_alternates {h um m shp}.
Arguments f_op_names {h um m shp}.
Arguments f_names {h um m shp}.
Arguments f_listed {h um m shp}.
Arguments f_one {h um m shp}.
Arguments f_distinct {h um m shp}.
Arguments f_outputs {h um m shp}.
Arguments f_computed {h um m shp}.
Arguments f_generated {h um m shp}.

(** ** The program *)
Section Program.
  Context {V : Type} (h : list obj) (shp : nat -> shape) (dflt : nat -> bool).
  Context (apply : nat -> list V -> nat -> V) (init : string -> V).

  (** Where a back end keeps variable [o] of the model at path [p]: the variable's own node
      if its name was generated, otherwise the node found under its unpromoted name, replaced
      by the source it is connected to. *)
  Definition node_of (c : compiled) (p : list string) (o : nat) : irnode :=
    match nth_error h o with
    | None => NObj p o
    | Some ob =>
      if String.eqb (ob_name ob) (hex_id (ob_num ob)) then NObj p o
      else match dget (c_u2n c) (dotted p (ob_name ob)) with
           | None => NObj p o
           | Some x => match cget irnode_eqb (c_conns c) x with Some s => s | None => x end
           end
    end.

  (** Position of a node in a list. *)
  Fixpoint position (x : irnode) (l : list irnode) : option nat :=
    match l with
    | [] => None
    | y :: r => if irnode_eqb x y then Some 0 else option_map S (position x r)
    end.
  (** Write the [k]-th result into the [k]-th node. *)
  Definition store (env : irnode -> V) (outs : list irnode) (f : nat -> V) : irnode -> V :=
    fun x => match position x outs with Some k => f k | None => env x end.
  (** Execute one node of the program: operations compute, variables do nothing. *)
  Definition exec (c : compiled) (env : irnode -> V) (x : irnode) : irnode -> V :=
    match x with
    | NModel _ _ => env
    | NObj p o =>
      match nth_error h o with
      | None => env
      | Some ob => if is_op ob
                   then store env (map (node_of c p) (ob_outs ob)) (apply o (map env (map (node_of c p) (ob_deps ob))))
                   else env
      end
    end.
  (** Run the nodes in order, starting from the supplied values. *)
  Definition run (c : compiled) : irnode -> V :=
    fold_left (exec c) (c_order c) (fun x => init (pname (node_attr h shp dflt (c_log c)) x)).
  Definition result (c : compiled) (p : list string) (o : nat) : V := run c (node_of c p o).
End Program.
