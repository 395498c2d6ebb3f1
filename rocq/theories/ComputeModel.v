(** Model of the expression strings of linear and power combinations and of elementwise
    functions: csdl/operations/linear_combination.py:26-70,
    csdl/operations/power_combination.py:26-41, csdl/operations/sin.py:12-15 etc.,
    csdl/operations/exp_a.py:18-22.
    A string is modelled by its tokens.  Numbers are Python ints and floats; a literal whose
    class is neither takes the branch for arrays.  Two names written without an operator
    between them are two tokens here; in the real string they fuse into another name. *)
From Verif Require Import PyBase PromotionsModel ArithModel.
Set Implicit Arguments.

Section Compute.
  Context (N : numbers).
  Inductive token := TNum (c : N) | TArr | TVar (v : nat) | TPlus | TMinus | TTimes | TPow
    | TDivide | TCall (f : npfun) (v : nat).    (* the latter is ['np.f(x)'] *)
  (** A statement: its expression, and whether it starts with ['out=']. *)
  Record cstring := CString { assigns : bool; expression : list token }.

  (** [str.format] of a literal: a negative number starts with a minus sign; the text of an
      array is kept opaque. *)
  Definition fmt (l : literal N) : list token :=
    match l with
    | Num c => if flt N c f0 then [TMinus; TNum (fopp N c)] else [TNum c]
    | Arr _ _ => [TArr]
    end.
  (** [np.all(l == 0)] *)
  Definition all_zero (l : literal N) : bool :=
    match l with Num c => feqb N c f0 | Arr s a => forallb (fun i => feqb N (a i) f0) (seq 0 (prod s)) end.
  (** linear_combination.py:33-34 and [zip]: a number is repeated; iterating an ndarray gives
      its rows, which are numbers when it has one axis. *)
  Definition rows (s : shape) (a : arr N) : res (list (literal N)) :=
    match s with
    | [] => Err TypeError
    | [n] => Ok (map (fun i => Num (a i)) (seq 0 n))
    | n :: t => Ok (map (fun i => Arr t (fun j => a (i * prod t + j))) (seq 0 n))
    end.
  Definition factor_rows (f : factors N) (n : nat) : res (list (literal N)) :=
    match f with
    | All (Num c) => Ok (repeat (Num c) n)
    | All (Arr s a) => rows s a
    | Each l => Ok l
    end.

  (** linear_combination.py:40-70 *)
  Fixpoint lin_terms (z first : bool) (ts : list (literal N * nat)) : list token :=
    match ts with
    | [] => []
    | (l, x) :: r =>
      let plus := if first && z then [] else [TPlus] in
      let first' := if first && z then false else first in
      match l with
      | Num c =>
        if flt N f1 c then plus ++ fmt l ++ [TTimes; TVar x] ++ lin_terms z first' r
        else if flt N f0 c then plus ++ [TVar x] ++ lin_terms z first' r
        else if flt N c (fopp N f1) then fmt l ++ [TTimes; TVar x] ++ lin_terms z first r
        else if flt N c f0 then [TMinus; TVar x] ++ lin_terms z first r
        else lin_terms z first r
      | Arr _ _ =>
        if all_zero l then lin_terms z first r
        else plus ++ fmt l ++ [TTimes; TVar x] ++ lin_terms z first' r
      end
    end.
  Definition lin_string (args : list nat) (coeffs : factors N) (constant : literal N) : res cstring :=
    do cs <- factor_rows coeffs (length args);
    let z := all_zero constant in
    Ok (CString true ((if z then [] else fmt constant) ++ lin_terms z true (combine cs args))).

  (** power_combination.py:36-41: with a zero coefficient the whole string becomes ['0']. *)
  Definition pow_string (args : list nat) (powers : factors N) (coeff : literal N) : res cstring :=
    do ps <- factor_rows powers (length args);
    let ts := combine args ps in
    if all_zero coeff then
      Ok (match ts with [] => CString true (fmt coeff) | _ => CString false [TNum f0] end)
    else Ok (CString true (fmt coeff ++ flat_map (fun xp => [TTimes; TVar (fst xp); TPow] ++ fmt (snd xp)) ts)).

  (** csdl/operations/sin.py:12-15, cos, tan, sinh, cosh, tanh (the same lines), arcsin, arccos,
      arctan, log10 (12-16), exp, log (12-15), cotan, cotanh, sec, sech, cosec, cosech (12-16) *)
  Definition elem_string (f : elementary) (x : nat) : cstring :=
    match f with
    | Sin => CString true [TCall NpSin x]
    | Cos => CString true [TCall NpCos x]
    | Tan => CString true [TCall NpTan x]
    | Sinh => CString true [TCall NpSinh x]
    | Cosh => CString true [TCall NpCosh x]
    | Tanh => CString true [TCall NpTanh x]
    | Arcsin => CString true [TCall NpArcsin x]
    | Arccos => CString true [TCall NpArccos x]
    | Arctan => CString true [TCall NpArctan x]
    | Exp => CString true [TCall NpExp x]
    | Log => CString true [TCall NpLog x]
    | Log10 => CString true [TCall NpLog10 x]
    | Cotan => CString true [TNum f1; TDivide; TCall NpTan x]
    | Cotanh => CString true [TNum f1; TDivide; TCall NpTanh x]
    | Sec => CString true [TNum f1; TDivide; TCall NpCos x]
    | Sech => CString true [TNum f1; TDivide; TCall NpCosh x]
    | Cosec => CString true [TNum f1; TDivide; TCall NpSin x]
    | Cosech => CString true [TNum f1; TDivide; TCall NpSinh x]
    end.
  (** exp_a.py:18-22.  The parentheses around the whole expression are left out.  The base is the
      literal given by the user: formatting a variable gives the text of a Python object, no
      expression, like that of an array. *)
  Definition exp_string (a : operand N) (x : nat) : cstring :=
    CString true ((match a with OVar _ _ => [TArr] | OLit l => fmt l end) ++ [TPow; TVar x]).

  Definition entry_string (e : entry N) : option (res cstring) :=
    match e with
    | Leaf _ => None
    | LinComb args cs k _ => Some (lin_string args cs k)
    | PowComb args ps k _ => Some (pow_string args ps k)
    | Elem _ f x _ => Some (Ok (elem_string f x))
    | Expand _ _ _ => None
    | ExpA a x _ => Some (Ok (exp_string a x))
    end.
End Compute.
Arguments TNum {N}. Arguments TArr {N}. Arguments TVar {N}. Arguments TPlus {N}. Arguments TMinus {N}. Arguments TTimes {N}. Arguments TPow {N}. Arguments TDivide {N}. Arguments TCall {N}.
