(** What it means that a program was extended: more objects, more variables, more connections, more
    submodels, and everything that was there is still there. *)
From Verif Require Import PyBase PromotionsModel PromotionsSpec ExprModel UnflatModel UnflatSpec FlatModel FlattenModel FlattenSpec CompileSpec DependSpec WorldModel WorldSpec.

(** Every object is still there, of the same sort, with the same arguments; an operation may
    have got more results. *)
Definition keeps (h h' : list obj) : Prop := forall o ob, nth_error h o = Some ob ->
  exists ob', nth_error h' o = Some ob' /\ is_op ob' = is_op ob /\ ob_deps ob' = ob_deps ob /\ exists more, ob_outs ob' = ob_outs ob ++ more.

(** The inputs, outputs, declared variables and submodels are still there, in every model. *)
Inductive um_grows : umodel -> umodel -> Prop :=
| um_grows_intro ins outs decls subs ins' outs' decls' subs' :
    incl ins ins' -> incl outs outs' -> incl decls decls' ->
    (forall s sm, In (s, sm) subs -> exists sm', In (s, sm') subs' /\ um_grows sm sm') ->
    um_grows (UM ins outs decls subs) (UM ins' outs' decls' subs').

(** Likewise, with the connections; submodels keep their names and what they promote. *)
Inductive grows : model -> model -> Prop :=
| grows_intro m m' :
    (forall k, incl (vars k m) (vars k m')) -> incl (m_conns m) (m_conns m') ->
    (forall nm pr sm, In (nm, pr, sm) (m_subs m) -> exists sm', In (nm, pr, sm') (m_subs m') /\ grows sm sm') ->
    grows m m'.

(** The inputs, outputs and declared variables keep their names. *)
Definition names_kept (h h' : list obj) (um : umodel) : Prop := forall p k o x, member h um p k o x -> named h' o x.

(** A declared variable whose value has to be supplied before still has to be supplied after. *)
Definition supplies_nothing (h : list obj) (um : umodel) (m : model) (h' : list obj) (um' : umodel) (m' : model) : Prop :=
  forall p o n, occurs h um p o -> called h um m p KDeclared o n -> unsupplied h um m n -> unsupplied h' um' m' n.

(** ** Programs *)
(** The calls [l'] made after the calls [l] assign to no output created by [l] and apply no custom
    operation constructed by [l]. *)
Definition leaves_alone (l l' : list wevent) : Prop := forall k e, In (WOn k e) l' ->
  match e with
  | ESetitem y _ => length (w_heap (whistory l)) <= y
  | ECustom op _ _ => length (w_heap (whistory l)) <= op
  | _ => True
  end.
