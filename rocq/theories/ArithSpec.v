(** What operations and Python arithmetic on arrays mean. *)
From Verif Require Import PyBase PromotionsModel ArithModel.

Section Spec.
  Context (N : numbers).

  (** ** Meaning of the recorded operations (documentation of linear_combination and
      power_combination): constant + sum of coeff * arg, coeff * product of arg ** power,
      element by element. *)
  Definition lincomb (cs : list (arr N * arr N)) (k : arr N) : arr N :=
    fun i => fold_left (fun acc ca => fadd N acc (fmul N (fst ca i) (snd ca i))) cs (k i).
  Definition powcomb (ps : list (arr N * arr N)) (k : arr N) : arr N :=
    fun i => fold_left (fun acc pa => fmul N acc (fpow N (snd pa i) (fst pa i))) ps (k i).

  (** What the elementwise functions mean. *)
  Definition function (f : elementary) (x : N) : N :=
    match f with
    | Sin => fnp N NpSin x | Cos => fnp N NpCos x | Tan => fnp N NpTan x
    | Sinh => fnp N NpSinh x | Cosh => fnp N NpCosh x | Tanh => fnp N NpTanh x
    | Arcsin => fnp N NpArcsin x | Arccos => fnp N NpArccos x | Arctan => fnp N NpArctan x
    | Exp => fnp N NpExp x | Log => fnp N NpLog x | Log10 => fnp N NpLog10 x
    | Cotan => fdiv N f1 (fnp N NpTan x) | Cotanh => fdiv N f1 (fnp N NpTanh x)
    | Sec => fdiv N f1 (fnp N NpCos x) | Sech => fdiv N f1 (fnp N NpCosh x)
    | Cosec => fdiv N f1 (fnp N NpSin x) | Cosech => fdiv N f1 (fnp N NpSinh x)
    end.

  (** An array of shape (1,) stands for its element in every position. *)
  Definition spread (l : literal N) (i : nat) : N :=
    match l with Num c => c | Arr s a => if shape_eqb s [1] then a 0 else a i end.

  (** Values of all variables of a store; [leaves] gives those of the others. *)
  Definition entry_value (leaves : nat -> arr N) (vs : list (arr N)) (e : entry N) : arr N :=
    let arg a := nth a vs (fun _ => f0) in
    match e with
    | Leaf _ => leaves (length vs)
    | LinComb args cs k _ => lincomb (combine (map (@lit_at N) (factor_list cs (length args))) (map arg args)) (lit_at k)
    | PowComb args ps k _ => powcomb (combine (map (@lit_at N) (factor_list ps (length args))) (map arg args)) (lit_at k)
    | Elem _ f a _ => fun i => function f (arg a i)
    | Expand _ a _ => fun _ => arg a 0
    | ExpA a x _ => fun i => fpow N (match a with OVar _ v => arg v i | OLit l => spread l i end) (arg x i)
    end.
  Definition values (leaves : nat -> arr N) (st : store N) : list (arr N) :=
    fold_left (fun vs e => vs ++ [entry_value leaves vs e]) st [].
  Definition value (leaves : nat -> arr N) (st : store N) (v : nat) : arr N := nth v (values leaves st) (fun _ => f0).

  (** ** Meaning of Python programs on arrays of numbers *)
  Definition bin_meaning (o : binop) (a b : arr N) : arr N :=
    fun i => match o with
             | OpAdd => fadd N (a i) (b i)
             | OpSub => fsub N (a i) (b i)
             | OpMul => fmul N (a i) (b i)
             | OpDiv => fdiv N (a i) (b i)
             | OpPow => fpow N (a i) (b i)
             end.
  Definition stmt_meaning (env : list (arr N)) (s : stmt N) : arr N :=
    let v p := nth p env (fun _ => f0) in
    match s with
    | SPos _ p => v p
    | SNeg _ p => fun i => fopp N (v p i)
    | SBin _ o p q => bin_meaning o (v p) (v q)
    | SBinL o p l => bin_meaning o (v p) (lit_at l)
    | SLBin o l p => bin_meaning o (lit_at l) (v p)
    | SFun _ f p => fun i => function f (v p i)
    end.
  Fixpoint meaning (env : list (arr N)) (prog : list (stmt N)) : list (arr N) :=
    match prog with [] => env | s :: r => meaning (env ++ [stmt_meaning env s]) r end.

  (** Shape of the result of a statement: that of its first variable. *)
  Definition first_operand (s : stmt N) : nat :=
    match s with SPos _ p => p | SNeg _ p => p | SBin _ _ p _ => p | SBinL _ p _ => p | SLBin _ _ p => p | SFun _ _ p => p end.

  (** No operation has an argument twice. *)
  Definition distinct_arguments (e : entry N) : Prop :=
    match e with
    | Leaf _ | Elem _ _ _ _ | Expand _ _ _ => True
    | LinComb args _ _ _ | PowComb args _ _ _ => NoDup args
    | ExpA b a _ => match b with OVar _ u => u <> a | OLit _ => True end
    end.

  (** All arguments in the store refer to earlier variables. *)
  Definition ordered (st : store N) : Prop :=
    forall v e, nth_error st v = Some e ->
      match e with
      | Leaf _ => True
      | LinComb args _ _ _ => forall a, In a args -> a < v
      | PowComb args _ _ _ => forall a, In a args -> a < v
      | Elem _ _ a _ | Expand _ a _ => a < v
      | ExpA b a _ => a < v /\ match b with OVar _ u => u < v | OLit _ => True end
      end.
End Spec.
