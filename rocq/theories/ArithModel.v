(** Model of arithmetic on variables: csdl/lang/variable.py:83-304,
    csdl/operations/linear_combination.py, csdl/operations/power_combination.py,
    csdl/lang/standard_operation.py:9-24, and of the elementwise functions in csdl/std.
    Numbers are the elements of an arbitrary field with a power function and a total order;
    rounding, infinities and NaN are not modelled. *)
From Coq Require Import Field_theory.
From Verif Require Import PyBase PromotionsModel.
Set Implicit Arguments.

(** The numpy functions that the generated strings mention (csdl/operations/sin.py etc.) *)
Inductive npfun := NpSin | NpCos | NpTan | NpSinh | NpCosh | NpTanh | NpArcsin | NpArccos | NpArctan | NpExp | NpLog | NpLog10.

(** Numbers with their arithmetic, power and numpy functions. *)
Record numbers := Numbers {
  num :> Type;
  f0 : num; f1 : num;
  fadd : num -> num -> num; fmul : num -> num -> num; fsub : num -> num -> num; fopp : num -> num;
  fdiv : num -> num -> num; finv : num -> num;
  fpow : num -> num -> num;
  fnp : npfun -> num -> num;
  feqb : num -> num -> bool;
  flt : num -> num -> bool;
  num_field : field_theory f0 f1 fadd fmul fsub fopp fdiv finv eq;
  pow_one : forall x, fpow x f1 = x;
  pow_minus_one : forall x, fpow x (fopp f1) = finv x;
  feqb_spec : forall x y, feqb x y = true <-> x = y;
  flt_irrefl : forall x, flt x x = false;
  flt_trans : forall x y z, flt x y = true -> flt y z = true -> flt x z = true;
  flt_total : forall x y, flt x y = false -> flt y x = false -> x = y;
  zero_lt_one : flt f0 f1 = true;
  flt_opp : forall x y, flt x y = flt (fopp y) (fopp x)
}.
Arguments f0 {_}. Arguments f1 {_}.
Arguments fadd _ _ _ : clear implicits. Arguments fmul _ _ _ : clear implicits. Arguments fsub _ _ _ : clear implicits.
Arguments fopp _ _ : clear implicits. Arguments fdiv _ _ _ : clear implicits. Arguments finv _ _ : clear implicits.
Arguments fpow _ _ _ : clear implicits. Arguments fnp _ _ _ : clear implicits. Arguments feqb _ _ _ : clear implicits. Arguments flt _ _ _ : clear implicits.

Section Arith.
  Context (N : numbers).

  (** An array: its elements by position (flattened). *)
  Definition arr := nat -> N.
  (** A literal operand: a number or an ndarray with its shape. *)
  Inductive literal := Num (c : N) | Arr (s : shape) (a : arr).
  Definition lit_at (l : literal) : arr := match l with Num c => fun _ => c | Arr _ a => a end.

  Inductive operand := OVar (v : nat) | OLit (l : literal).

  (** coeffs / powers: one literal for all arguments, or a list (linear_combination.py:33-34,
      power_combination.py:33-34). *)
  Inductive factors := All (l : literal) | Each (l : list literal).
  Definition factor_list (f : factors) (n : nat) : list literal :=
    match f with All l => repeat l n | Each l => l end.

  (** The elementwise functions of csdl/std with one argument that record one operation. *)
  Inductive elementary := Sin | Cos | Tan | Sinh | Cosh | Tanh | Arcsin | Arccos | Arctan | Exp | Log | Log10
    | Cotan | Cotanh | Sec | Sech | Cosec | Cosech.

  (** The variables created so far.  A result is identified with the operation that
      computes it: all operations here have one output.  [ExpA a x] is the operation exp_a with
      argument [x] and base [a]; [Expand a] the operation that repeats a variable of shape (1,). *)
  Inductive entry :=
  | Leaf (s : shape)                                                  (* any other variable *)
  | LinComb (args : list nat) (coeffs : factors) (constant : literal) (s : shape)
  | PowComb (args : list nat) (powers : factors) (coeff : literal) (s : shape)
  | Elem (f : elementary) (arg : nat) (s : shape)
  | Expand (arg : nat) (s : shape)
  | ExpA (base : operand) (arg : nat) (s : shape).
  Definition store := list entry.
  Definition entry_shape (e : entry) : shape := match e with Leaf s => s | LinComb _ _ _ s => s | PowComb _ _ _ s => s | Elem _ _ s => s | Expand _ s => s | ExpA _ _ s => s end.
  Definition shape_of (st : store) (v : nat) : option shape := option_map entry_shape (nth_error st v).

  (** standard_operation.py:11-24: the second occurrence of an argument is replaced by
      [arg * 1], see [mul] below. *)
  Fixpoint dedup (st : store) (seen args : list nat) : store * list nat :=
    match args with
    | [] => (st, [])
    | a :: r =>
      if existsb (Nat.eqb a) seen then
        let s := match shape_of st a with Some s => s | None => [] end in
        let (st2, l) := dedup (st ++ [PowComb [a] (All (Num f1)) (Num f1) s]) (length st :: seen) r in
        (st2, length st :: l)
      else let (st2, l) := dedup st (a :: seen) r in (st2, a :: l)
    end.

  (** operation.py:33-40: arguments must be variables; linear_combination.py:10-19 and
      power_combination.py:11-20: shapes must agree. *)
  Fixpoint same_shape (st : store) (s : shape) (l : list nat) : res shape :=
    match l with
    | [] => Ok s
    | b :: r => match shape_of st b with
                | None => Err TypeError
                | Some s' => if shape_eqb s s' then same_shape st s r else Err ValueError
                end
    end.
  Definition check_args (st : store) (args : list nat) : res shape :=
    match args with
    | [] => Err IndexError
    | a :: _ => match shape_of st a with None => Err TypeError | Some s => same_shape st s args end
    end.
  Definition linear_combination (st : store) (args : list nat) (coeffs : factors) (constant : literal) : res (store * nat) :=
    let (st1, args1) := dedup st [] args in
    do s <- check_args st1 args1;
    Ok (st1 ++ [LinComb args1 coeffs constant s], length st1).
  Definition power_combination (st : store) (args : list nat) (powers : factors) (coeff : literal) : res (store * nat) :=
    let (st1, args1) := dedup st [] args in
    do s <- check_args st1 args1;
    Ok (st1 ++ [PowComb args1 powers coeff s], length st1).

  Definition lit_opp (l : literal) : literal :=
    match l with Num c => Num (fopp N c) | Arr s a => Arr s (fun i => fopp N (a i)) end.
  (** [1 / other]: a Python number 0 raises. *)
  Definition lit_inv (l : literal) : res literal :=
    match l with
    | Num c => if feqb N c f0 then Err ZeroDivisionError else Ok (Num (fdiv N f1 c))
    | Arr s a => Ok (Arr s (fun i => fdiv N f1 (a i)))
    end.
  Definition m1 : N := fopp N f1.

  (** variable.py:83-84 (the variable itself), 86-97, 99-118, 120-142, 144-172, 174-202,
      204-222, 224-225, 243-265, 267-268, 271-304 *)
  Definition pos (st : store) (x : nat) : res (store * nat) := Ok (st, x).
  Definition neg (st : store) (x : nat) := linear_combination st [x] (All (Num m1)) (Num f0).
  Definition add (st : store) (x : nat) (y : operand) :=
    match y with
    | OVar v => linear_combination st [x; v] (All (Num f1)) (Num f0)
    | OLit l => linear_combination st [x] (All (Num f1)) l
    end.
  Definition sub (st : store) (x : nat) (y : operand) :=
    match y with
    | OVar v => linear_combination st [x; v] (Each [Num f1; Num m1]) (Num f0)
    | OLit l => linear_combination st [x] (All (Num f1)) (lit_opp l)
    end.
  Definition mul (st : store) (x : nat) (y : operand) :=
    match y with
    | OVar v => power_combination st [x; v] (All (Num f1)) (Num f1)
    | OLit l => power_combination st [x] (All (Num f1)) l
    end.
  Definition truediv (st : store) (x : nat) (y : operand) :=
    match y with
    | OVar v => power_combination st [x; v] (Each [Num f1; Num m1]) (Num f1)
    | OLit l => do i <- lit_inv l; power_combination st [x] (All (Num f1)) i
    end.
  Definition pow (st : store) (x : nat) (y : operand) :=
    match y with
    | OVar _ => Err NotImplementedError
    | OLit l => power_combination st [x] (All l) (Num f1)
    end.
  Definition radd (st : store) (x : nat) (l : literal) := add st x (OLit l).
  Definition rsub (st : store) (x : nat) (l : literal) := linear_combination st [x] (All (Num m1)) l.
  Definition rmul (st : store) (x : nat) (l : literal) := mul st x (OLit l).
  Definition rtruediv (st : store) (x : nat) (l : literal) := power_combination st [x] (All (Num m1)) l.

  (** csdl/std/sin.py:6-17, and in the same words cos, tan, sinh, cosh, tanh, arcsin, arccos,
      arctan, exp, log, log10, cotan, cotanh, sec, sech, cosec, cosech. *)
  Definition elem (st : store) (f : elementary) (x : nat) : res (store * nat) :=
    match shape_of st x with
    | None => Err TypeError
    | Some s => Ok (st ++ [Elem f x s], length st)
    end.
  (** csdl/std/exp_a.py:7-51, csdl/operations/exp_a.py:6-16.  With a variable base the operation
      has two arguments, the second of which is replaced when it is the first one. *)
  Definition exp_a (st : store) (a : operand) (x : nat) : res (store * nat) :=
    match shape_of st x with
    | None => Err TypeError
    | Some s =>
      match a with
      | OLit (Num c) => Ok (st ++ [ExpA a x s], length st)
      | OLit (Arr sa _) =>
        if negb (shape_eqb sa [1]) && negb (shape_eqb sa s) then Err ValueError
        else Ok (st ++ [ExpA a x s], length st)
      | OVar v =>
        match shape_of st v with
        | None => Err TypeError
        | Some sa =>
          if shape_eqb sa [1] then Ok ((st ++ [Expand v s]) ++ [ExpA (OVar (length st)) x s], S (length st))
          else if shape_eqb sa s then
            let (st1, args) := dedup st [] [x; v] in
            Ok (st1 ++ [ExpA (OVar (nth 1 args 0)) x s], length st1)
          else Err ValueError
        end
      end
    end.

  (** ** Python programs with arithmetic *)
  Inductive binop := OpAdd | OpSub | OpMul | OpDiv | OpPow.
  (** A statement: [-p], [p op q], [p op literal], [literal op p], [csdl.f(p)], where p, q are results of
      earlier statements or initial variables, by position. *)
  Inductive stmt := SNeg (p : nat) | SPos (p : nat) | SBin (o : binop) (p q : nat) | SBinL (o : binop) (p : nat) (l : literal) | SLBin (o : binop) (l : literal) (p : nat)
    | SFun (f : elementary) (p : nat).

  Definition apply_bin (st : store) (o : binop) (x : nat) (y : operand) : res (store * nat) :=
    match o with OpAdd => add st x y | OpSub => sub st x y | OpMul => mul st x y | OpDiv => truediv st x y | OpPow => pow st x y end.
  (** [literal ** variable]: there is no __rpow__, Python raises TypeError. *)
  Definition apply_rbin (st : store) (o : binop) (l : literal) (x : nat) : res (store * nat) :=
    match o with OpAdd => radd st x l | OpSub => rsub st x l | OpMul => rmul st x l | OpDiv => rtruediv st x l | OpPow => Err TypeError end.
  Definition lookup (env : list nat) (p : nat) : res nat := match nth_error env p with Some v => Ok v | None => Err KeyError end.
  Definition exec (st : store) (env : list nat) (s : stmt) : res (store * nat) :=
    match s with
    | SPos p => do x <- lookup env p; pos st x
    | SNeg p => do x <- lookup env p; neg st x
    | SBin o p q => do x <- lookup env p; do y <- lookup env q; apply_bin st o x (OVar y)
    | SBinL o p l => do x <- lookup env p; apply_bin st o x (OLit l)
    | SLBin o l p => do x <- lookup env p; apply_rbin st o l x
    | SFun f p => do x <- lookup env p; elem st f x
    end.
  Fixpoint run (st : store) (env : list nat) (prog : list stmt) : res (store * list nat) :=
    match prog with
    | [] => Ok (st, env)
    | s :: r => do sv <- exec st env s; run (fst sv) (env ++ [snd sv]) r
    end.
End Arith.
Arguments Num {N}. Arguments Leaf {N}.
