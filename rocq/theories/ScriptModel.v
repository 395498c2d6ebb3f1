(** Model of whole scripts: calls that build models, arithmetic on variables, reads and
    assignments of elements.  It joins WorldModel (objects and models), ArithModel (what
    operators record) and IndexModel (what keys select): the objects of the process carry
    their shapes, and operations the data they compute with. *)
From Verif Require Import PyBase NamesModel PromotionsModel ExprModel WorldModel IndexModel ArithModel ArithSpec.
Local Open Scope list_scope.

Section Script.
  Context (N : numbers).

  (** Data of an operation: csdl/operations/linear_combination.py:21-38,
      power_combination.py:22-38, sin.py etc.; any other standard operation with the function
      a back end computes for it; decompose.py:7-18 ([src_indices] of the results, in order);
      indexed_passthrough.py:5-13 with the [_tgt_indices] of the output it computes
      (concatenation.py:109-115) for its arguments, in order, and the size of that output.
      concatenation.py finds the target indices under the name the argument had when it was
      assigned; a later register_output of the argument changes the name but not the entry.
      Here they are found by position. *)
  Inductive opdata :=
  | DLin (coeffs : factors N) (constant : literal N)
  | DPow (powers : factors N) (coeff : literal N)
  | DElem (f : elementary)
  | DOther (f : list (arr N) -> nat -> arr N)
  | DReads (src : list (list Z))
  | DWrites (size : Z) (tgt : list (list Z)).

  (** The data of [arg * 1]: csdl/lang/standard_operation.py:11-24, variable.py:144-172. *)
  Definition copy_data : opdata := DPow (All (Num f1)) (Num f1).

  (** The process; each object has a shape (if it is a variable) and data (if it is a standard
      operation); [p_dec], [p_cat]: the tables of reads of a variable and of assignments to an
      output made by create_output.  [p_log]: the calls of WorldModel performed so far, and
      [p_world] their effect. *)
  Record pstate := PS {
    p_log : list wevent;
    p_world : world;
    p_attr : list (shape * option opdata);
    p_dec : nat -> decomp;
    p_cat : nat -> concat_st
  }.
  Definition pstate0 : pstate := PS [] world0 [] (fun _ => decomp0) (fun _ => concat0).
  Definition p_heap (s : pstate) : list obj := w_heap (p_world s).
  Definition p_shape (s : pstate) (o : nat) : shape := match nth_error (p_attr s) o with Some a => fst a | None => [] end.
  Definition p_data (s : pstate) (o : nat) : option opdata := match nth_error (p_attr s) o with Some a => snd a | None => None end.
  Definition is_var (s : pstate) (o : nat) : bool := match nth_error (p_heap s) o with Some ob => is_variable ob | None => false end.
  Definition is_model (s : pstate) (k : nat) : bool := Nat.ltb k (length (w_models (p_world s))).
  Definition set_fun {A} (f : nat -> A) (i : nat) (x : A) : nat -> A := fun j => if Nat.eqb j i then x else f j.
  (** Perform a call of WorldModel; the new attributes are [attr]. *)
  Definition emit (s : pstate) (e : wevent) (attr : list (shape * option opdata)) : pstate :=
    PS (p_log s ++ [e]) (wstep (p_world s) e) attr (p_dec s) (p_cat s).

  (** A line of a script.  Variables are given by their number in the order of creation of
      node objects; the numbers in a [stmt] are such numbers, too. *)
  Inductive scall :=
  | CCall (e : wevent) (s : shape)       (* calls other than those below; [s]: shape of the variables they create *)
  | CArith (k : nat) (t : stmt N)        (* an operator or elementwise function in the define of model [k] *)
  | COther (k : nat) (args : list nat) (outs : list shape) (f : list (arr N) -> nat -> arr N) (* another standard operation *)
  | CRead (k : nat) (x : nat) (key : key)            (* x[key] *)
  | CAssign (k : nat) (y : nat) (key : key) (x : nat). (* y[key] = x *)

  (** The arguments after the first occurrence of the same argument:
      csdl/lang/standard_operation.py:11-24 *)
  Fixpoint repeated (seen args : list nat) : list nat :=
    match args with
    | [] => []
    | a :: r => if memn a seen then a :: repeated seen r else repeated (a :: seen) r
    end.

  (** A standard operation applied to variables: copies of repeated arguments, the operation,
      its results (csdl/lang/standard_operation.py:11-24, operation.py:16-40, output.py:9-40). *)
  Definition record_op (s : pstate) (k : nat) (args : list nat) (outs : list shape) (d : opdata) : pstate * option nat :=
    if is_model s k && forallb (is_var s) args then
      let s' := emit s (WOn k (EApply args (length outs)))
                  (p_attr s ++ flat_map (fun a => [([], Some copy_data); (p_shape s a, None)]) (repeated [] args)
                   ++ ([], Some d) :: map (fun sh => (sh, None)) outs) in
      (s', Some (length (p_heap s') - length outs))
    else (s, None).

  (** What the operators record: csdl/lang/variable.py:86-97 (neg), 99-118 (add), 120-142 (sub),
      144-172 (mul), 174-202 (truediv), 204-222 (pow), 224-304 (reflected operators); the
      functions as in csdl/std/sin.py:6-17.  [None]: the call raises ([OpPow] with a variable or
      number on the left, division by the number 0).  [SPos] records nothing (variable.py:83-84).
      A call that raises leaves the state as it was; in the code it may have counted a node,
      which only shifts later automatic names. *)
  Definition recorded (t : stmt N) : option (list nat * opdata) :=
    let one := Num (N := N) f1 in let zero := Num (N := N) f0 in let minus := Num (m1 N) in
    match t with
    | SPos _ _ => None
    | SNeg _ x => Some ([x], DLin (All minus) zero)
    | SBin _ OpAdd x y => Some ([x; y], DLin (All one) zero)
    | SBin _ OpSub x y => Some ([x; y], DLin (Each [one; minus]) zero)
    | SBin _ OpMul x y => Some ([x; y], DPow (All one) one)
    | SBin _ OpDiv x y => Some ([x; y], DPow (Each [one; minus]) one)
    | SBin _ OpPow x y => None
    | SBinL OpAdd x l => Some ([x], DLin (All one) l)
    | SBinL OpSub x l => Some ([x], DLin (All one) (lit_opp l))
    | SBinL OpMul x l => Some ([x], DPow (All one) l)
    | SBinL OpDiv x l => match lit_inv l with Ok i => Some ([x], DPow (All one) i) | Err _ => None end
    | SBinL OpPow x l => Some ([x], DPow (All l) one)
    | SLBin OpAdd l x => Some ([x], DLin (All one) l)
    | SLBin OpSub l x => Some ([x], DLin (All minus) l)
    | SLBin OpMul l x => Some ([x], DPow (All one) l)
    | SLBin OpDiv l x => Some ([x], DPow (All minus) l)
    | SLBin OpPow l x => None
    | SFun _ f x => Some ([x], DElem f)
    end.
  (** linear_combination.py:10-19, power_combination.py:11-20: the arguments have one shape. *)
  Definition one_shape (s : pstate) (args : list nat) : bool :=
    match args with [] => false | a :: r => forallb (fun b => shape_eqb (p_shape s a) (p_shape s b)) r end.
  Definition arith (s : pstate) (k : nat) (t : stmt N) : pstate * option nat :=
    match t with
    | SPos _ x => if is_var s x then (s, Some x) else (s, None)
    | _ => match recorded t with
           | None => (s, None)
           | Some (args, d) =>
             if one_shape s args then record_op s k args [p_shape s (nth 0 args 0)] d else (s, None)
           end
    end.

  (** [x[key]]: csdl/lang/variable.py:306-395.  The decompose operation is made by the first
      read, also when the key is then rejected. *)
  Definition read (s : pstate) (k x : nat) (key : key) : pstate * option nat :=
    match nth_error (p_heap s) x with
    | None => (s, None)
    | Some ox =>
      if is_model s k && is_variable ox then
        let (d', r) := getitem (p_shape s x) (p_dec s x) key in
        let fresh := match r with Ok o => Nat.eqb o (length (d_outs (p_dec s x))) | Err _ => false end in
        let d := match ob_decomp ox with Some d => d | None => length (p_heap s) end in
        let attr1 := p_attr s ++ match ob_decomp ox with Some _ => [] | None => [([], Some (DReads []))] end in
        let attr2 := attr1 ++ (if fresh then [(match r with Ok o => fst (nth o (d_outs d') ([], [])) | Err _ => [] end, None)] else []) in
        let s1 := emit s (WOn k (EGetitem x fresh)) (upd attr2 d (fun a => (fst a, Some (DReads (map snd (d_outs d')))))) in
        let s2 := PS (p_log s1) (p_world s1) (p_attr s1) (set_fun (p_dec s1) x d') (p_cat s1) in
        (s2, match r with
             | Ok o => match nth_error (p_heap s2) d with Some od => nth_error (ob_outs od) o | None => None end
             | Err _ => None
             end)
      else (s, None)
    end.

  (** [y[key] = x]: csdl/lang/concatenation.py:58-137.  The name of [x] is recorded even when
      the assignment is rejected because of overlapping indices. *)
  Definition add_target (ix : list Z) (a : shape * option opdata) : shape * option opdata :=
    match snd a with Some (DWrites n l) => (fst a, Some (DWrites n (l ++ [ix]))) | _ => a end.
  Definition assign (s : pstate) (k y : nat) (key : key) (x : nat) : pstate * option nat :=
    match nth_error (p_heap s) y, nth_error (p_heap s) x with
    | Some oy, Some ox =>
      if is_model s k && match ob_kind oy with KConcat => true | _ => false end && is_variable ox then
        let (c', r) := setitem (p_shape s y) (p_cat s y) key (ob_name ox) (p_shape s x) in
        let s0 := PS (p_log s) (p_world s) (p_attr s) (p_dec s) (set_fun (p_cat s) y c') in
        match r, tgt_indices_of (p_shape s y) key with
        | Ok _, Ok (_, ix) =>
          (emit s0 (WOn k (ESetitem y x))
             (if ob_defined oy then match ob_deps oy with op :: _ => upd (p_attr s) op (add_target ix) | [] => p_attr s end
              else p_attr s ++ [([], Some (DWrites (size_of (p_shape s y)) [ix]))]), Some y)
        | _, _ => (s0, None)
        end
      else (s, None)
    | _, _ => (s, None)
    end.

  (** The calls [CCall] is for: all but expressions. *)
  Definition plain_call (e : wevent) : bool :=
    match e with WOn _ (EGetitem _ _) | WOn _ (ESetitem _ _) => false | _ => true end.
  (** One line of the script, and the variable it returns ([y] for an assignment); [None]: it
      raised, or returns nothing. *)
  Definition pstep (s : pstate) (c : scall) : pstate * option nat :=
    match c with
    | CCall e sh =>
      if plain_call e then
        (emit s e (p_attr s ++ repeat (sh, None) (length (w_heap (wstep (p_world s) e)) - length (p_heap s))), None)
      else (s, None)
    | CArith k t => arith s k t
    | COther k args outs f => record_op s k args outs (DOther f)
    | CRead k x key => read s k x key
    | CAssign k y key x => assign s k y key x
    end.
  Definition prun (l : list scall) : pstate := fold_left (fun s c => fst (pstep s c)) l pstate0.
  (** What line [c] returns after the lines [before]. *)
  Definition returned (before : list scall) (c : scall) : option nat := snd (pstep (prun before) c).
End Script.
Arguments CCall {N}. Arguments CRead {N}. Arguments CAssign {N}.
Arguments DLin {N}. Arguments DPow {N}. Arguments DElem {N}. Arguments DOther {N}. Arguments DReads {N}. Arguments DWrites {N}.
Arguments CArith {N}. Arguments COther {N}.
Arguments p_log {N}. Arguments p_world {N}. Arguments p_attr {N}. Arguments p_dec {N}. Arguments p_cat {N}.
Arguments p_heap {N}. Arguments p_shape {N}. Arguments p_data {N}. Arguments is_var {N}. Arguments is_model {N}. Arguments emit {N}.
Arguments record_op {N}. Arguments recorded {N}. Arguments one_shape {N}. Arguments arith {N}. Arguments read {N}. Arguments add_target {N}.
Arguments assign {N}. Arguments pstep {N}. Arguments prun {N}. Arguments returned {N}.
Arguments PS {N}.
