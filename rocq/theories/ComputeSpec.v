(** Python's meaning of an arithmetic expression without parentheses:
      sum   ::= product (('+' | '-') product)*
      product ::= signed (('*' | '/') signed)*
      signed ::= '-' signed | atom ['**' signed]
      atom ::= number | name | 'np.' function '(' name ')'
    and what the generated strings are supposed to say. *)
From Verif Require Import PyBase PromotionsModel ArithModel ArithSpec ComputeModel.

Section Spec.
  Context (N : numbers) (env : nat -> N).
  Definition parse := option (N * list (token N)).
  Definition atom (ts : list (token N)) : parse :=
    match ts with TNum c :: r => Some (c, r) | TVar x :: r => Some (env x, r) | TCall f x :: r => Some (fnp N f (env x), r) | _ => None end.
  Fixpoint signed (fuel : nat) (ts : list (token N)) : parse :=
    match fuel with
    | 0 => None
    | S n =>
      match ts with
      | TMinus :: r => match signed n r with Some (v, r2) => Some (fopp N v, r2) | None => None end
      | _ =>
        match atom ts with
        | Some (a, TPow :: r) => match signed n r with Some (e, r2) => Some (fpow N a e, r2) | None => None end
        | other => other
        end
      end
    end.
  Fixpoint more_factors (fuel : nat) (acc : N) (ts : list (token N)) : parse :=
    match fuel with
    | 0 => None
    | S n =>
      match ts with
      | TTimes :: r => match signed n r with Some (v, r2) => more_factors n (fmul N acc v) r2 | None => None end
      | TDivide :: r => match signed n r with Some (v, r2) => more_factors n (fdiv N acc v) r2 | None => None end
      | _ => Some (acc, ts)
      end
    end.
  Definition product (fuel : nat) (ts : list (token N)) : parse :=
    match signed fuel ts with Some (v, r) => more_factors fuel v r | None => None end.
  Fixpoint more_terms (fuel : nat) (acc : N) (ts : list (token N)) : option N :=
    match fuel with
    | 0 => None
    | S n =>
      match ts with
      | [] => Some acc
      | TPlus :: r => match product n r with Some (v, r2) => more_terms n (fadd N acc v) r2 | None => None end
      | TMinus :: r => match product n r with Some (v, r2) => more_terms n (fsub N acc v) r2 | None => None end
      | _ => None
      end
    end.
  (** The value of an expression, None when it is not an expression. *)
  Definition evaluate (ts : list (token N)) : option N :=
    let fuel := 4 + length ts in
    match product fuel ts with Some (v, r) => more_terms fuel v r | None => None end.

  (** The value a string assigns to the output. *)
  Definition assigned (s : cstring N) : option N := if assigns s then evaluate (expression s) else None.

  (** The linear and the power combination of the arguments. *)
  Definition linear (cs : list (N * nat)) (k : N) : N := fold_left (fun acc cx => fadd N acc (fmul N (fst cx) (env (snd cx)))) cs k.
  Definition power (ps : list (nat * N)) (k : N) : N := fold_left (fun acc xp => fmul N acc (fpow N (env (fst xp)) (snd xp))) ps k.
End Spec.

Section Cond.
  Context (N : numbers).
  (** What a coefficient is read back as: 1 for anything in (0, 1), -1 for (-1, 0). *)
  Definition written (c : N) : N :=
    if flt N f1 c then c else if flt N f0 c then f1 else if flt N c (fopp N f1) then c else if flt N c f0 then fopp N f1 else f0.
  (** 0, at least 1, or at most -1 *)
  Definition not_fractional (c : N) : Prop := c = f0 \/ c = f1 \/ c = fopp N f1 \/ flt N f1 c = true \/ flt N c (fopp N f1) = true.
  (** Reading from the left, a positive coefficient comes before any negative one, or there
      is no positive one; and not all are zero. *)
  Fixpoint no_positive (cs : list N) : bool := match cs with [] => true | c :: r => negb (flt N f0 c) && no_positive r end.
  Fixpoint starts_well (cs : list N) : bool :=
    match cs with
    | [] => false
    | c :: r => if flt N f0 c then true else if flt N c f0 then no_positive r else starts_well r
    end.
End Cond.

(** Programs without array literals and without multiplication by the number zero. *)
Definition plain {N : numbers} (s : stmt N) : Prop :=
  match s with
  | SPos _ _ | SNeg _ _ | SBin _ _ _ _ | SFun _ _ _ => True
  | SBinL o _ l | SLBin o l _ => exists c, l = Num c /\ (o = OpMul \/ o = OpDiv -> c <> f0)
  end.
