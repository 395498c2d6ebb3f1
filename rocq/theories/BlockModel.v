(** Model of [with parent.create_submodel(name, promotes) as m:] blocks
    (csdl/lang/model.py:1211-1242), nested in any way and left normally or by an exception,
    over the process of WorldModel. *)
From Verif Require Import PyBase NamesModel PromotionsModel ExprModel WorldModel.
Local Open Scope list_scope.

(** A program.  [PCall]: a call that is accepted, or whose exception is caught at once (it leaves
    the process as it was).  [PRaise]: any statement that raises.  [PTry]: a try statement whose
    handler does nothing.  [PBlock k n pr body]: a block on model [k]; inside the body, the
    models are numbered in order of creation, so the new model is the number of models that
    existed when the block was entered. *)
Inductive prog :=
| PCall (e : wevent)
| PRaise (e : exn)
| PTry (body : list prog)
| PBlock (k : nat) (n : option string) (pr : promotes_t) (body : list prog).

(** What [add] raises: model.py:512-536 *)
Definition add_raises (w : world) (k : nat) (on : option string) : option exn :=
  match on with
  | None => None
  | Some n =>
    match check_banned_chars n with
    | Err e => Some e
    | Ok _ => match nth_error (w_models w) k with
              | Some m => if smem n (sub_names m) then Some KeyError else None
              | None => None
              end
    end
  end.

(** The process after a statement, and the exception that leaves it, if any.  A block:
    [InlineModel()] (1238, 1245-1250), the body, [__exit__] calls [define], which does nothing
    (1214-1215), and in any case [add] (1240-1242); an exception of [add] replaces that of the
    body. *)
Fixpoint exec (p : prog) (w : world) {struct p} : world * option exn :=
  let run := fix run (l : list prog) (w : world) {struct l} : world * option exn :=
    match l with
    | [] => (w, None)
    | q :: r => match exec q w with (w', None) => run r w' | (w', Some e) => (w', Some e) end
    end in
  match p with
  | PCall e => (wstep w e, None)
  | PRaise e => (w, Some e)
  | PTry body => (fst (run body w), None)
  | PBlock k on pr body =>
    let wr := run body (wstep w WNew) in
    match add_raises (fst wr) k on with
    | None => (wstep (fst wr) (WAdd k on pr (length (w_models w))), snd wr)
    | Some e => (fst wr, Some e)
    end
  end.
(** Statements one after the other, up to the first that raises. *)
Fixpoint run (l : list prog) (w : world) : world * option exn :=
  match l with
  | [] => (w, None)
  | q :: r => match exec q w with (w', None) => run r w' | (w', Some e) => (w', Some e) end
  end.
