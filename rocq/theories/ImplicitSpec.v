(** What an implicit operation is supposed to check, record and return. *)
From Coq Require Import Permutation.
From Verif Require Import PyBase NamesModel PromotionsModel ExprModel ApiModel ImplicitModel.

(** [y] is an argument of an operation that computes [x]. *)
Definition step (h : list obj) (x y : nat) : Prop := exists op, In op (deps_of h x) /\ In y (deps_of h op).
(** [y] is used, directly or not, to compute [x], without passing through a variable named
    [self]. *)
Inductive uses (h : list obj) (self : string) : nat -> nat -> Prop :=
| uses_one x y : step h x y -> name_of h y <> self -> uses h self x y
| uses_more x y z : uses h self x y -> step h y z -> name_of h z <> self -> uses h self x z.
Definition leaf (h : list obj) (v : nat) : Prop := deps_of h v = [].
(** The inputs of the expression that computes [r]. *)
Definition inputs_of (h : list obj) (r v : nat) : Prop := uses h (name_of h r) r v /\ leaf h v.

(** The last variable of a list with a given name. *)
Definition last_named (m : imodel) (vs : list nat) (n : string) (v : nat) : Prop :=
  exists a b, vs = a ++ v :: b /\ name_of (im_heap m) v = n /\ forall w, In w b -> name_of (im_heap m) w <> n.
Definition declared (m : imodel) := last_named m (im_decls m).
Definition registered (m : imodel) := last_named m (im_regs m).

(** A state, its residual, their variables. *)
Definition state_pair (m : imodel) (states residuals : list string) (s r : string) (sv rv : nat) : Prop :=
  exists k, nth_error states k = Some s /\ nth_error residuals k = Some r /\ declared m s sv /\ registered m r rv.

(** Conditions under which an implicit operation is accepted. *)
Record acceptable (m : imodel) (args : list (string * shape)) (states residuals expose : list string) : Prop := {
  no_inputs : im_inputs m = [];
  args_distinct : NoDup (map fst args);
  states_distinct : NoDup states;
  residuals_distinct : NoDup residuals;
  as_many : length states = length residuals;
  args_declared : forall n s, In (n, s) args -> exists d, declared m n d /\ im_shape m d = s;
  states_declared : forall s, In s states -> exists d, declared m s d;
  residuals_registered : forall r, In r residuals -> exists v, registered m r v;
  exposed_registered : forall e, In e expose -> exists v, registered m e v;
  shapes_agree : forall s r sv rv, state_pair m states residuals s r sv rv -> im_shape m rv = im_shape m sv;
  residual_depends : forall s r sv rv, state_pair m states residuals s r sv rv -> exists v, inputs_of (im_heap m) rv v /\ name_of (im_heap m) v = s
}.

(** What is recorded. *)
Record recorded (m : imodel) (args : list (string * shape)) (states residuals expose : list string) (mp : maps) : Prop := {
  rec_states : dkeys (out_res mp) = states;
  rec_residuals : dkeys (res_out mp) = residuals;
  rec_pairs : forall s r sv rv, state_pair m states residuals s r sv rv -> dget (out_res mp) s = Some rv /\ dget (res_out mp) r = Some sv;
  rec_inputs_keys : dkeys (out_in mp) = states;
  rec_inputs : forall s r sv rv, state_pair m states residuals s r sv rv ->
    exists l, dget (out_in mp) s = Some l /\
      forall v, In v l <-> inputs_of (im_heap m) rv v /\ (In (name_of (im_heap m) v) (map fst args) \/ In (name_of (im_heap m) v) states);
  rec_exposed : forall e v, In e expose -> registered m e v ->
    exists l, dget (exp_in mp) e = Some l /\
      forall u, In u l <-> inputs_of (im_heap m) v u /\ (In (name_of (im_heap m) u) (map fst args) \/ In (name_of (im_heap m) u) states);
  rec_exposed_residuals : forall e, In e (exposed_residuals mp) <-> In e expose /\ In e residuals
}.
