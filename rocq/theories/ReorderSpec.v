(** Hierarchies that differ in the order of what they list. *)
From Verif Require Import PyBase PromotionsModel ExprModel UnflatModel WorldModel.
From Coq Require Import Permutation.
Local Open Scope list_scope.

(** The objects of the models. *)
Inductive um_reorder : umodel -> umodel -> Prop :=
| um_reorder_intro ins outs decls subs ins' outs' decls' subs' subs2 :
    Permutation ins ins' -> Permutation outs outs' -> Permutation decls decls' ->
    Permutation subs' subs2 -> Forall2 (fun a b => fst a = fst b /\ um_reorder (snd a) (snd b)) subs subs2 ->
    um_reorder (UM ins outs decls subs) (UM ins' outs' decls' subs').

(** What the models list: variables, connections, design variables, constraints and submodels. *)
Inductive reorder : model -> model -> Prop :=
| reorder_intro m m' subs2 :
    Permutation (m_inputs m) (m_inputs m') -> Permutation (m_outputs m) (m_outputs m') -> Permutation (m_declared m) (m_declared m') ->
    Permutation (m_conns m) (m_conns m') -> Permutation (m_dvs m) (m_dvs m') -> Permutation (m_cons m) (m_cons m') -> m_obj m = m_obj m' ->
    Permutation (m_subs m') subs2 -> Forall2 (fun a b => fst a = fst b /\ reorder (snd a) (snd b)) (m_subs m) subs2 ->
    reorder m m'.

(** ** Programs *)
(** Calls that declare something about the objects and models that are there. *)
Definition declares (e : wevent) : bool :=
  match e with
  | WAdd _ (Some _) _ _ | WConnect _ _ _ | WDesign _ _ | WConstraint _ _ | WObjective _ _ => true
  | _ => false
  end.
(** Two calls whose order does not matter: declarations, except two submodels with the same name in
    one model and two objectives of one model; a connection or constraint, and a call that creates,
    uses or registers variables. *)
Definition independent (e1 e2 : wevent) : Prop :=
  match e1, e2 with
  | WAdd k (Some n) _ _, WAdd k' (Some n') _ _ => k <> k' \/ n <> n'
  | WObjective k _, WObjective k' _ => k <> k'
  | (WConnect _ _ _ | WConstraint _ _), WOn _ _ => True
  | WOn _ _, (WConnect _ _ _ | WConstraint _ _) => True
  | _, _ => declares e1 = true /\ declares e2 = true
  end.
(** The same calls in another order that respects this. *)
Inductive reordered : list wevent -> list wevent -> Prop :=
| reordered_same l : reordered l l
| reordered_swap l e1 e2 r : independent e1 e2 -> reordered (l ++ e1 :: e2 :: r) (l ++ e2 :: e1 :: r)
| reordered_trans a b c : reordered a b -> reordered b c -> reordered a c.
