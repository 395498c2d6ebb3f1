(** Property theorems C67, C68: which calls are accepted and what they record. *)
From Verif Require Import PyBase NamesModel PromotionsModel ApiModel ApiSpec ApiProofs ApiSpec2 ApiProofs2.
Local Open Scope string_scope.
Local Open Scope list_scope.

(** C67: after any history, a call is accepted exactly when it is valid. *)
Theorem c67_accepted_iff_valid :
  forall l c, snd (step (build l) c) = Ok tt <-> valid (build l) c.
Proof. exact step_iff. Qed.
Print Assumptions c67_accepted_iff_valid.
Definition ex_hist2 : list call :=
  [CreateInput "x" [2] (VNum 3); DeclareVariable "d" [1] None; NewOutput [2] 1; RegisterOutput "y" (Some 0);
   CreateOutput "z" [2] (VNum 0); Add (Some "A") true 7 None].
Example c67_nonvacuous :
  valid (build ex_hist2) (RegisterOutput "q" (Some 0)) -> False.
Proof. intros (_ & _ & i & E & _ & H). injection E as <-. apply H. left. reflexivity. Qed.
Example c67_nonvacuous_accept :
  valid (build ex_hist2) (AddConstraint "y" (Some (BArr [1; 2]%Z)) (Some (BArr [3]%Z)) None) /\
  valid (build ex_hist2) (PrintVar 0).
Proof. split; apply c67_accepted_iff_valid; vm_compute; reflexivity. Qed.

(** C68: an accepted call records exactly what it was given, and nothing else changes. *)
Theorem c68_effect_of_accepted_call :
  forall s c, snd (step s c) = Ok tt -> let s' := fst (step s c) in
  map v_name (s_inputs s') = want_inputs s c /\ firstn (length (s_inputs s)) (s_inputs s') = s_inputs s /\
  map v_name (s_decls s') = want_decls s c /\ firstn (length (s_decls s)) (s_decls s') = s_decls s /\
  s_obj s' = want_obj s c /\ s_cons s' = want_cons s c /\ s_dvs s' = want_dvs s c /\
  (forall p, In p (s_conns s') <-> want_conn s c p) /\
  (match registers s c with
   | Some (i, n) => s_outs s' = s_outs s ++ [i] /\ out_name s' i = n
   | None => s_outs s' = s_outs s
   end) /\
  same_objects s s' (registers s c).
Proof. exact step_effect. Qed.
Print Assumptions c68_effect_of_accepted_call.
Example c68_nonvacuous :
  s_cons (fst (step (build ex_hist2) (AddConstraint "y" (Some (BNum 0)) (Some (BNum 1)) None))) =
    [("y", Cons (Some (BNum 0)) (Some (BNum 1)) None)] /\
  registers (build ex_hist2) (PrintVar 0) = Some (2, "y_print").
Proof. split; vm_compute; reflexivity. Qed.
