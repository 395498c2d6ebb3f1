(** What the models of a program contain, in terms of its calls. *)
From Verif Require Import PyBase NamesModel PromotionsModel ExprModel UnflatModel WorldModel WorldSpec.
Local Open Scope list_scope.

(** Call [e] was made, when [P] held of the calls before it. *)
Definition called_when (l : list wevent) (e : wevent) (P : list wevent -> Prop) : Prop :=
  exists before after, l = before ++ e :: after /\ P before.
(** Model [k] had been created. *)
Definition created (l : list wevent) (k : nat) : Prop := k < length (filter (fun e => match e with WNew => true | _ => false end) l).

(** Model [k] after the calls [l]. *)
Definition the_model (l : list wevent) (k : nat) : wmodel := match nth_error (w_models (whistory l)) k with Some m => m | None => wm0 end.
Definition name_of (l : list wevent) (o : nat) : string := name_in (w_heap (whistory l)) o.
Definition kind_of (l : list wevent) (o : nat) : option okind := option_map ob_kind (nth_error (w_heap (whistory l)) o).

(** The path [p] of submodel names leads from model [k] to model [j]. *)
Inductive leads (w : world) : nat -> list string -> nat -> Prop :=
| leads_here k : leads w k [] k
| leads_sub k m n pr c p j : nth_error (w_models w) k = Some m -> In (n, pr, c) (wm_subs m) -> leads w c p j -> leads w k (n :: p) j.

(** What the compiler reads of model [mj]: its objects, and their names and shapes. *)
Definition reads_model (w : world) (shp : nat -> shape) (mj : wmodel) (um : umodel) (m : model) : Prop :=
  let entry i := (name_in (w_heap w) i, shp i) in
  (exists subs, um = UM (wm_ins mj) (wm_outs mj) (wm_decls mj) subs /\ map fst subs = sub_names mj) /\
  m_inputs m = map entry (wm_ins mj) /\ m_outputs m = map entry (wm_outs mj) /\ m_declared m = map entry (wm_decls mj) /\
  m_conns m = wm_conns mj /\ m_dvs m = wm_dvs mj /\ m_cons m = wm_cons mj /\ m_obj m = wm_obj mj /\
  map fst (m_subs m) = map fst (wm_subs mj).
