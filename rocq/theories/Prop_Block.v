(** Property theorems C97: create_submodel blocks. *)
From Verif Require Import PyBase NamesModel PromotionsModel ExprModel WorldModel BlockModel BlockSpec BlockProofs.
Local Open Scope string_scope.
Local Open Scope list_scope.

(** C97: the block gets an empty model; when it ends, normally or by an exception, that model
    with everything the body recorded is added at the end of the submodels the parent has then,
    nothing else changes, and the exception of the body, if any, goes on.  If the parent cannot
    accept the name, that is noticed only now: what the body did to other models stays, the
    model is not added, and ValueError or KeyError replaces the exception of the body. *)
Theorem c97_block :
  forall w k on pr body, k < length (w_models w) ->
  let m := length (w_models w) in let after := run body (wstep w WNew) in let w1 := fst after in
  nth_error (w_models (wstep w WNew)) m = Some wm0 /\
  (name_free w1 k on ->
     exists n mk, match on with Some x => n = x | None => True end /\ nth_error (w_models w1) k = Some mk /\
       let w2 := fst (exec (PBlock k on pr body) w) in
       w_heap w2 = w_heap w1 /\ length (w_models w2) = length (w_models w1) /\
       (forall j, nth_error (w_models w2) j = if Nat.eqb j k then Some (app_sub (n, pr, m) mk) else nth_error (w_models w1) j) /\
       snd (exec (PBlock k on pr body) w) = snd after) /\
  (~ name_free w1 k on ->
     fst (exec (PBlock k on pr body) w) = w1 /\
     exists e, snd (exec (PBlock k on pr body) w) = Some e /\ (e = ValueError \/ e = KeyError)).
Proof. exact block_effect. Qed.
Print Assumptions c97_block.

(** C97: a program with blocks nested in any way, none of which raises, builds what the program
    with Model() and add in the place of the blocks builds. *)
Theorem c97_blocks_are_adds :
  forall l w, Forall plain l -> snd (run l w) = None ->
    fst (run l w) = fold_left wstep (calls_of (length (w_models w)) l) w.
Proof. intros l w H N. exact (proj1 (proj2 blocks_are_adds l H w N)). Qed.
Print Assumptions c97_blocks_are_adds.

(** C97: whatever raises and is caught, a program with blocks leaves the process in a state that
    a sequence of calls without blocks reaches, so C89 to C93 apply to it. *)
Theorem c97_history :
  forall l, exists h, fst (run l world0) = whistory h.
Proof. intros l. exact (proj2 is_history l world0). Qed.
Print Assumptions c97_history.

(** Nested blocks, one of them left by an exception, one with a name already in use: the inner
    block is added first; the model of the failed block is kept with what it recorded. *)
Definition ex_blocks : list prog :=
  [PCall WNew;
   PBlock 0 (Some "a") None
     [PCall (WOn 1 (EInput "x"));
      PBlock 0 (Some "b") None [PCall (WOn 2 (EDeclare "x"))];
      PTry [PBlock 1 (Some "c") None [PCall (WOn 3 (EInput "y")); PRaise TypeError; PCall (WOn 3 (EInput "z"))]]];
   PTry [PBlock 0 (Some "a") None [PCall (WOn 4 (EInput "u"))]]].
Example c97_nonvacuous :
  let w := fst (run ex_blocks world0) in
  snd (run ex_blocks world0) = None /\
  map sub_names (w_models w) = [["b"; "a"]; ["c"]; []; []; []] /\
  map (fun m => map (name_in (w_heap w)) (wm_ins m)) (w_models w) = [[]; ["x"]; []; ["y"]; ["u"]].
Proof. vm_compute. repeat split. Qed.
Definition ex_plain : list prog :=
  [PCall WNew; PBlock 0 (Some "a") None [PBlock 1 (Some "b") None [PCall (WOn 2 (EInput "x"))]]; PBlock 0 (Some "c") None []].
Example c97_plain_nonvacuous :
  Forall plain ex_plain /\ snd (run ex_plain world0) = None /\
  calls_of 0 ex_plain = [WNew; WNew; WNew; WOn 2 (EInput "x"); WAdd 1 (Some "b") None 2; WAdd 0 (Some "a") None 1; WNew; WAdd 0 (Some "c") None 3].
Proof. split; [repeat constructor|]. split; vm_compute; reflexivity. Qed.
