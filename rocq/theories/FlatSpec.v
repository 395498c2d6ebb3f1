(** Specification vocabulary for the merging passes on the flattened graph. *)
From Verif Require Import PyBase NamesModel Digraph FlatModel.

Section Spec.
  Context {A : Type} (attr : A -> nattr).

  (** Variable nodes; source nodes hold an input or an output, target nodes a declared
      variable. *)
  Definition var_node (x : A) (v : vattr) : Prop := attr x = NVar v.
  Definition source_node (x : A) (v : vattr) : Prop := attr x = NVar v /\ (va_class v = CInput \/ va_class v = COutput).
  Definition target_node (x : A) (v : vattr) : Prop := attr x = NVar v /\ va_class v = CDeclared.

  (** No edge joins two variables: dependencies go through operations. *)
  Definition no_var_var_edge (g : digraph A) : Prop :=
    forall a b va vb, edge g a b -> var_node a va -> var_node b vb -> False.

  (** Different source nodes with the promoted name of a declared variable have different
      promoted names. *)
  Definition sources_distinct (g : digraph A) : Prop :=
    forall t a b vt va vb, node g t -> node g a -> node g b -> target_node t vt -> source_node a va -> source_node b vb ->
      va_pname va = va_pname vt -> va_pname vb = va_pname vt -> a = b.

  (** [g'] is [g] where every node [x] has been replaced by [rep x]: the nodes left are
      those that represent themselves, and every edge of [g] is redirected, no other edge
      is added. *)
  Definition quotient (g g' : digraph A) (rep : A -> A) : Prop :=
    (forall x, node g' x <-> node g x /\ rep x = x) /\
    (forall a b, edge g' a b <-> exists a' b', edge g a' b' /\ rep a' = a /\ rep b' = b).

  (** Distance from the root as the code measures it: dots in the path of the model. *)
  Definition depth (x : A) : nat := match attr x with NVar v => count_dots (va_uns v) | NOp _ => 0 end.
  Definition has_default (x : A) : bool := match attr x with NVar v => va_default v | NOp _ => true end.

  (** [r] is the preferred one of the candidates (listed in graph order): none is less deep,
      and among those of least depth it is the last one with an explicit value, or the
      first one if none has an explicit value. *)
  Definition preferred (cands : list A) (r : A) : Prop :=
    exists l1 l2, cands = l1 ++ r :: l2 /\
      (forall t, In t cands -> depth r <= depth t) /\
      (forall t, In t l2 -> depth t = depth r -> has_default t = true) /\
      (has_default r = true -> forall t, In t l1 -> depth r < depth t).
End Spec.

Section ConnSpec.
  Context {A : Type} (attr : A -> nattr).

  (** A user-named variable node of the graph whose promoted name is in the promotion map. *)
  Definition named_node (g : digraph A) (p2u : dict (list string)) (x : A) (v : vattr) (names : list string) : Prop :=
    node g x /\ attr x = NVar v /\ va_auto v = false /\ dget p2u (va_pname v) = Some names.

  (** The dotted name [full] used in a connection denotes the variable node [x]: it is its
      promoted name or, when it is nobody's promoted name, one of its unpromoted names. *)
  Definition denotes (g : digraph A) (p2u : dict (list string)) (full : string) (x : A) : Prop :=
    exists v names, named_node g p2u x v names /\
      (va_pname v = full \/
       (In full names /\ forall y w ns, named_node g p2u y w ns -> va_pname w <> full)).

  (** A pair (target, source) is an admissible connection in [g]. *)
  Definition admissible (g : digraph A) (t s : A) : Prop :=
    (exists sv, source_node attr s sv /\ exists tv, var_node attr t tv /\ prod (va_shape sv) = prod (va_shape tv)) /\
    (forall p, ~ edge g p t).
End ConnSpec.

(** The names of the variable nodes are consistent with the promotion maps: every variable is
    computed by at most one operation; a user-named variable without an entry is an output of a
    custom operation; otherwise its unpromoted names are distinct and known; different variables
    share no unpromoted name. *)
Definition names_consistent {A} (attr : A -> nattr) (g : digraph A) (p2u : dict (list string)) (u2p : dict string) : Prop :=
  (forall x v, node g x -> attr x = NVar v ->
     (forall p q, edge g p x -> edge g q x -> p = q) /\
     (va_auto v = false ->
        match dget p2u (va_pname v) with
        | Some names => NoDup names /\ forall un, In un names -> In un (dkeys u2p)
        | None => exists p, edge g p x /\ attr p = NOp true
        end)) /\
  (forall x v names y w ns un, named_node attr g p2u x v names -> named_node attr g p2u y w ns -> In un names -> In un ns -> x = y).
