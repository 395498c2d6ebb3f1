(** Hierarchies and programs without their optimization problem. *)
From Verif Require Import PyBase PromotionsModel HierModel CompileModel WorldModel.
Local Open Scope list_scope.

(** The hierarchy without design variables, constraints and objectives. *)
Fixpoint plain (m : model) : model :=
  match m with
  | Mdl ins outs decls conns _ _ _ subs => Mdl ins outs decls conns [] [] None (map (fun t => (fst t, plain (snd t))) subs)
  end.
(** The program without the calls that declare them. *)
Definition states_problem (e : wevent) : bool :=
  match e with WDesign _ _ | WConstraint _ _ | WObjective _ _ => true | _ => false end.
Definition without_problem (l : list wevent) : list wevent := filter (fun e => negb (states_problem e)) l.

(** Two compiled models that agree in everything but the optimization problem. *)
Record same_but_problem (c c' : compiled) : Prop := {
  sp_promoted : c_p2u c = c_p2u c'; sp_unpromoted : c_u2p c = c_u2p c'; sp_connections : c_connections c = c_connections c';
  sp_names : c_log c = c_log c'; sp_graph : c_graph c = c_graph c'; sp_p2n : c_p2n c = c_p2n c'; sp_u2n : c_u2n c = c_u2n c';
  sp_merged : c_conns c = c_conns c'; sp_order : c_order c = c_order c' }.
