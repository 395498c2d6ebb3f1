(** Which hierarchies compile: conditions on a model, without graphs. *)
From Verif Require Import PyBase NamesModel PromotionsModel PromotionsSpec HierSpec Digraph ExprModel UnflatModel UnflatSpec FlattenModel FlattenSpec CompileSpec.

Section Accept.
  Context (h : list obj) (shp : nat -> shape) (um : umodel) (m : model).

  (** All connections of the hierarchy with the path of the model that declares them. *)
  Definition conns_declared : list (list string * (string * string)) :=
    flat_map (fun pm => map (fun ab => (fst pm, ab)) (m_conns (snd pm))) (postorder m).

  (** A connection is in order: both names stand for variables; the source is an input or a
      registered output; the variables of the target name are all declared variables, at least
      one is used, and it has as many elements as the source. *)
  Definition connection_ok (p : list string) (a b : string) : Prop :=
    exists pa pb, resolves_to m (dotted p a) pa /\ resolves_to m (dotted p b) pb /\
      (forall p' k' o', called h um m p' k' o' pb -> k' = KDeclared) /\
      exists ps ks os pt ot, called h um m ps ks os pa /\ ks <> KDeclared /\
        occurs h um pt ot /\ called h um m pt KDeclared ot pb /\ prod (shp os) = prod (shp ot).

  (** [rank] is compatible with the flow of data: it grows from the arguments of an operation
      to the operation and on to its results, and is the same for variables that share a
      promoted name or are connected. *)
  Record ranking (rank : list string -> nat -> nat) : Prop := {
    k_argument : forall p o d, occurs h um p o -> operation h o -> reads h o d -> rank p d < rank p o;
    k_result : forall p o v, occurs h um p o -> writes h o v -> rank p o < rank p v;
    k_promoted : forall p k o p' k' o' pn, occurs h um p o -> occurs h um p' o' -> called h um m p k o pn -> called h um m p' k' o' pn ->
      rank p o = rank p' o';
    k_connected : forall p0 a b pa pb p k o p' k' o', declared_conn m p0 a b ->
      resolves_to m (dotted p0 a) pa -> resolves_to m (dotted p0 b) pb ->
      occurs h um p o -> occurs h um p' o' -> called h um m p k o pa -> called h um m p' k' o' pb -> rank p o = rank p' o'
  }.

  (** Design variables (constraints) name variables, each another one. *)
  Definition options_ok (sel : model -> list string) : Prop :=
    exists ns, Forall2 (fun t n2 => exists n1, resolves_to (snd (fst t)) (snd t) n1 /\ resolves_to m (dotted (fst (fst t)) n1) n2)
                 (opts_declared sel m) ns /\ NoDup ns.
  (** At most one model has an objective, and that names a variable. *)
  Definition objective_ok : Prop :=
    match filter (fun pm => match m_obj (snd pm) with Some _ => true | None => false end) (preorder m) with
    | [] => True
    | [(p, m')] => exists k n1 n2, m_obj m' = Some k /\ resolves_to m' k n1 /\ resolves_to m (dotted p n1) n2
    | _ => False
    end.

  (** Connections lead to different variables. *)
  Definition targets_distinct : Prop :=
    exists pns, Forall2 (fun t pn => resolves_to m (dotted (fst t) (snd (snd t))) pn) conns_declared pns /\ NoDup pns.

  Record acceptable : Prop := {
    a_sources : unique_sources m;
    a_sizes : sizes_agree m;
    a_promotes : valid_promotes m;
    a_connections : forall p a b, declared_conn m p a b -> connection_ok p a b;
    a_targets : targets_distinct;
    a_design_variables : options_ok m_dvs;
    a_constraints : options_ok m_cons;
    a_objective : objective_ok;
    a_no_feedback : exists rank, ranking rank
  }.
End Accept.
