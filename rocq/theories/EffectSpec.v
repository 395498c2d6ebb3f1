(** Vocabulary for what one call records while expressions are built. *)
From Verif Require Import PyBase NamesModel ExprModel.

(** Objects that existed before and are still the same; the lists of the model are the same. *)
Definition kept_except (changed : list nat) (s s' : bst) : Prop :=
  forall i o, nth_error (b_heap s) i = Some o -> ~ In i changed -> nth_error (b_heap s') i = Some o.
Definition same_lists (s s' : bst) : Prop :=
  b_ins s' = b_ins s /\ b_outs s' = b_outs s /\ b_decls s' = b_decls s /\ b_subs s' = b_subs s.
(** A new object. *)
Definition new (s s' : bst) (i : nat) (o : obj) : Prop :=
  nth_error (b_heap s) i = None /\ nth_error (b_heap s') i = Some o.
Definition variable_in (s : bst) (i : nat) : Prop :=
  exists o, nth_error (b_heap s) i = Some o /\ match ob_kind o with KOp _ => False | _ => True end.

(** [computes s s' op args vs]: [op] is a new operation with exactly the arguments [args], in this
    order, and [vs] are its results, all new, each computed by [op] and by nothing else. *)
Definition result_of (s s' : bst) (op v : nat) : Prop :=
  exists o, new s s' v o /\ ob_kind o = KOut /\ ob_deps o = [op].
Definition computes (s s' : bst) (op : nat) (args vs : list nat) : Prop :=
  (exists o, new s s' op o /\ ob_kind o = KOp false /\ ob_deps o = args /\ ob_outs o = vs) /\
  NoDup vs /\ (forall v, In v vs -> result_of s s' op v).
(** [a'] is [a * 1], made by the call itself. *)
Definition copy_of (s s' : bst) (a a' : nat) : Prop := exists op, computes s s' op [a] [a'].
