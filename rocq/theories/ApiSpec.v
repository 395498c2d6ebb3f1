(** Specification vocabulary for the model-building API. *)
From Verif Require Import PyBase PromotionsModel ApiModel.

(** Nothing observable about a model changed: variables, registered outputs and their
    names, submodels, connections, optimisation data, existing output objects. *)
Definition same_data (s s' : mst) : Prop :=
  s_inputs s' = s_inputs s /\ s_decls s' = s_decls s /\ s_outs s' = s_outs s /\
  s_out_names s' = s_out_names s /\ s_obj s' = s_obj s /\ s_cons s' = s_cons s /\
  s_dvs s' = s_dvs s /\ s_conns s' = s_conns s /\ s_subs s' = s_subs s /\
  (forall o v, nth_error (s_heap s) o = Some v -> nth_error (s_heap s') o = Some v).

(** Names of the submodels that were added with an explicit name. *)
Definition explicit_names (s : mst) : list string := map sb_name (filter (fun b => negb (sb_auto b)) (s_subs s)).
(** Entry [i] of a bound: a number or a one-element array stands for every entry. *)
Definition bound_at (b : bound) (i : nat) : option Z :=
  match b with
  | BNum z | BArr [z] => Some z
  | BArr l => nth_error l i
  | BOther => None
  end.
Definition nowhere_above (lo hi : bound) : Prop :=
  forall i a b, bound_at lo i = Some a -> bound_at hi i = Some b -> (a <= b)%Z.

(** The variable [vi] has a value of its own shape, built from the argument [v] passed
    with shape [sh]: a number fills the shape; an array is used as it is and must have
    that shape, unless the shape was left at its default (1,). *)
Definition val_ok (sh : shape) (v : pyval) (vi : vinfo) : Prop :=
  exists a, v_val vi = Some a /\ a_shape a = v_shape vi /\
    match v with
    | VNum z => v_shape vi = sh /\ a_data a = repeat z (prod sh)
    | VArr a0 | VList a0 => a = a0 /\ (sh = [1] \/ a_shape a0 = sh)
    | VOther => False
    end.

