(** Model of csdl/lang/define_models_recursively.py: running the [define] methods of a
    hierarchy of model objects.
    Model objects are numbers; the heap gives for each what it contains and whether it is
    marked as defined.  A user's [define] method appends to the contents of its own
    model, or raises; contents that user code gives to a model object elsewhere (inline
    models) are part of the initial heap.  Only the contents that define_models_recursively
    looks at are represented. *)
From Verif Require Import PyBase.
Set Implicit Arguments.
Open Scope list_scope.

(** [k_outs]: registered outputs, with [false] for an output created by create_output to
    which nothing has been assigned (concatenation.py: [defined]). *)
Record contents := Contents {
  k_inputs : list string;
  k_dvs : list string;
  k_outs : list (string * bool);
  k_subs : list nat
}.
Definition append (a b : contents) : contents :=
  Contents (k_inputs a ++ k_inputs b) (k_dvs a ++ k_dvs b) (k_outs a ++ k_outs b) (k_subs a ++ k_subs b).

Definition heap := nat -> contents * bool.
Definition upd (h : heap) (i : nat) (x : contents * bool) : heap :=
  fun j => if Nat.eqb j i then x else h j.

Section Define.
  (** What the [define] method of each model object does. *)
  Variable defs : nat -> res contents.

  (** define_models_recursively.py:26-52; warnings are not modelled. *)
  Definition checks (c : contents) : res unit :=
    raise_if (Nat.eqb (length (k_outs c)) 0 && Nat.eqb (length (k_subs c)) 0 && Nat.eqb (length (k_inputs c)) 0) ValueError
      (raise_if (negb (forallb (fun n => smem n (k_inputs c)) (k_dvs c))) KeyError
        (raise_if (existsb (fun o => negb (snd o)) (k_outs c)) ValueError (Ok tt))).

  (** define_models_recursively.py:15-53.  Result: the heap, the models whose [define] was
      called, in order, and the outcome.  Python's recursion limit is the fuel. *)
  Fixpoint define_rec (fuel : nat) (h : heap) (i : nat) : heap * list nat * res unit :=
    match fuel with
    | 0 => (h, [], Err RuntimeError)
    | S fuel =>
      if snd (h i) then (h, [], Ok tt)
      else
        match defs i with
        | Err e => (h, [i], Err e)
        | Ok c =>
          let h1 := upd h i (append (fst (h i)) c, false) in
          let '(h2, tr, r) :=
            (fix subs (h : heap) (l : list nat) : heap * list nat * res unit :=
               match l with
               | [] => (h, [], Ok tt)
               | s :: rest =>
                 let '(h', tr, r) := define_rec fuel h s in
                 match r with
                 | Err e => (h', tr, Err e)
                 | Ok _ => let '(h'', tr', r') := subs h' rest in (h'', tr ++ tr', r')
                 end
               end) h1 (k_subs (fst (h1 i))) in
          match r with
          | Err e => (h2, i :: tr, Err e)
          | Ok _ =>
            match checks (fst (h2 i)) with
            | Err e => (h2, i :: tr, Err e)
            | Ok _ => (upd h2 i (fst (h2 i), true), i :: tr, Ok tt)
            end
          end
        end
    end.

  (** the loop of lines 22-24, as a function of its own *)
  Fixpoint define_subs (fuel : nat) (h : heap) (l : list nat) : heap * list nat * res unit :=
    match l with
    | [] => (h, [], Ok tt)
    | s :: rest =>
      let '(h', tr, r) := define_rec fuel h s in
      match r with
      | Err e => (h', tr, Err e)
      | Ok _ => let '(h'', tr', r') := define_subs fuel h' rest in (h'', tr ++ tr', r')
      end
    end.

  (** [with m: ...]: Model.__exit__ (model.py:1214-1215) calls [define] and does not mark the
      model as defined. *)
  Definition exit_with (h : heap) (i : nat) : heap * list nat * res unit :=
    match defs i with
    | Err e => (h, [i], Err e)
    | Ok c => (upd h i (append (fst (h i)) c, snd (h i)), [i], Ok tt)
    end.
End Define.
