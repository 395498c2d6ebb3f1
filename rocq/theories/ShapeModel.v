(** Model of the shape computations of the array operations of csdl/std: sum, average,
    max, min, pnorm, inner, dot, cross, outer, transpose, matmat, matvec, sparsematmat,
    solve, eigenvalues, quatrotvec, rotmat, reshape, flatten, reorder_axes, expand.
    An argument is the shape of a variable, or [None] for an object that is not a
    Variable.  A result is the shape of the variable returned, or the exception raised.
    What the operations compute at run time is left to the back end by csdl and is not
    modelled. *)
From Verif Require Import PyBase PromotionsModel EinsumModel.
Set Implicit Arguments.
Open Scope list_scope.

Definition operand := option shape.

(** What is passed as [axis] or [axes]: None, an int, a tuple of ints, a list of ints,
    or something else. *)
Inductive pyaxes := NoAxes | AxInt (z : Z) | AxTuple (l : list Z) | AxList (l : list Z).

(** ** numpy *)

(** An index into a sequence of length [n], negative ones counting from the end. *)
Definition norm_index (n : nat) (z : Z) : option nat :=
  if (Z.of_nat n <=? z)%Z then None
  else if (0 <=? z)%Z then Some (Z.to_nat z)
  else if (- Z.of_nat n <=? z)%Z then Some (Z.to_nat (z + Z.of_nat n)) else None.

Fixpoint norm_indices (n : nat) (l : list Z) : res (list nat) :=
  match l with
  | [] => Ok []
  | z :: r => match norm_index n z with
              | None => Err IndexError
              | Some k => do ks <- norm_indices n r; Ok (k :: ks)
              end
  end.

Definition nmember (k : nat) (l : list nat) : bool := existsb (Nat.eqb k) l.

(** The entries whose positions, counted from [i], are not in [ks] *)
Fixpoint drop_at (i : nat) (l : shape) (ks : list nat) : shape :=
  match l with
  | [] => []
  | d :: r => if nmember i ks then drop_at (S i) r ks else d :: drop_at (S i) r ks
  end.

(** [np.delete(l, idx)] for a sequence of ints: every index must be in range
    (IndexError), repeated indices count once. *)
Definition np_delete (l : shape) (idx : list Z) : res shape :=
  do ks <- norm_indices (length l) idx;
  Ok (drop_at 0 l ks).

(** [l[z]] *)
Definition zget (l : shape) (z : Z) : res nat :=
  match norm_index (length l) z with
  | None => Err IndexError
  | Some k => match nth_error l k with Some d => Ok d | None => Err IndexError end
  end.

(** ** Reductions *)

(** std/sum.py:22-26, std/max.py:26-30, std/min.py:26-30: every argument is a Variable
    (TypeError) with the shape of the first (ValueError).  [max(shape)] in sum.py:28
    raises ValueError for the shape (); the flag [m] says whether it is evaluated.
    An empty argument list leaves [l] unassigned. *)
Fixpoint check_operands (m : bool) (first : operand) (l : list operand) : res unit :=
  match l with
  | [] => Ok tt
  | None :: _ => Err TypeError
  | Some sh :: r =>
    match first with
    | None => Err TypeError
    | Some sh0 =>
      if negb (shape_eqb sh sh0) then Err ValueError
      else if m && Nat.eqb (length sh0) 0 then Err ValueError
      else check_operands m first r
    end
  end.

Definition first_operand (l : list operand) : operand :=
  match l with [] => None | o :: _ => o end.

(** csdl.sum (std/sum.py:8-66).  Only a tuple counts as axes; anything else is treated
    like None. *)
Definition sum_shape (ops : list operand) (axes : pyaxes) : res shape :=
  do _ <- check_operands true (first_operand ops) ops;
  match axes with
  | AxTuple ax =>
    match first_operand ops with
    | None => Err NameError                                   (* [l] is not assigned *)
    | Some sh =>
      let l := length sh in
      raise_if (Nat.ltb l (length ax)) ValueError
        (raise_if (existsb (fun a => (Z.of_nat l <? a)%Z) ax) ValueError
          (if Nat.eqb (length ops) 1 then
             if Nat.eqb l 1 then Ok [1]
             else if Nat.ltb (length ax) l then np_delete sh ax else Ok [1]
           else if Nat.ltb (length ax) l then np_delete sh ax else Ok [1]))
    end
  | _ =>
    if Nat.eqb (length ops) 1 then Ok [1]
    else match first_operand ops with None => Err IndexError | Some sh => Ok sh end
  end.

Definition axes_list (a : pyaxes) : list Z :=
  match a with NoAxes => [] | AxInt z => [z] | AxTuple l => l | AxList l => l end.

(** [not isinstance(x, Variable)] *)
Definition not_var (o : operand) : bool := match o with None => true | Some _ => false end.

(** csdl.average (std/average.py:8-33): the shapes of the arguments are not compared. *)
Definition average_shape (ops : list operand) (axes : pyaxes) : res shape :=
  raise_if (existsb not_var ops) TypeError
    (match axes with
     | NoAxes =>
       if Nat.ltb 1 (length ops) then
         match first_operand ops with None => Err IndexError | Some sh => Ok sh end
       else Ok [1]
     | _ =>
       match first_operand ops with
       | None => Err IndexError
       | Some sh => np_delete sh (axes_list axes)
       end
     end).

(** csdl.max and csdl.min (std/max.py:26-65, std/min.py:26-65), for [axis] an int or
    None. *)
Definition extremum_shape (ops : list operand) (axis : option Z) : res shape :=
  do _ <- check_operands false (first_operand ops) ops;
  match axis with
  | Some a =>
    match first_operand ops with
    | None => Err NameError
    | Some sh =>
      raise_if (Z.of_nat (length sh) <? a)%Z ValueError
        (if Nat.ltb 1 (length sh) then np_delete sh [a] else Ok [1])
    end
  | None =>
    if Nat.eqb (length ops) 1 then Ok [1]
    else match first_operand ops with None => Err IndexError | Some sh => Ok sh end
  end.

(** csdl.pnorm (std/pnorm.py:24-45) *)
Definition pnorm_shape (x : operand) (p : Z) (axis : pyaxes) : res shape :=
  match x with
  | None => Err TypeError
  | Some sh =>
    raise_if (negb (Z.eqb (p mod 2) 0) || (p <=? 0)%Z) ValueError
      (match axis with
       | NoAxes => Ok [1]
       | AxInt a => raise_if (Z.of_nat (length sh) <? a)%Z IndexError (np_delete sh [a])
       | AxTuple l => np_delete sh l
       | AxList _ => Err ValueError
       end)
  end.

(** ** Products *)

(** csdl.inner (std/inner.py:23-46); [axes] is None or a sequence of index lists, one
    per argument. *)
Definition inner_shape (a b : operand) (axes : option (list (list Z))) : res shape :=
  match a, b with
  | Some sa, Some sb =>
    if Nat.eqb (length sa) 1 && Nat.eqb (length sb) 1 then
      match axes with Some _ => Err ValueError | None => Ok [1] end
    else
      match axes with
      | Some [xa; xb] => do ra <- np_delete sa xa; do rb <- np_delete sb xb; Ok (ra ++ rb)
      | _ => Err ValueError
      end
  | _, _ => Err TypeError
  end.

(** csdl.dot (std/dot.py:24-41) *)
Definition dot_shape (a b : operand) (axis : option Z) : res shape :=
  match a, b with
  | Some sa, Some sb =>
    raise_if (negb (shape_eqb sa sb)) ValueError
      (if Nat.eqb (length sa) 1 then Ok [1]
       else match axis with
            | None => Err ValueError
            | Some ax => do d <- zget sa ax;
                         raise_if (negb (Nat.eqb d 3)) ValueError (np_delete sa [ax])
            end)
  | _, _ => Err TypeError
  end.

(** csdl.cross (std/cross.py:23-37) *)
Definition cross_shape (a b : operand) (axis : Z) : res shape :=
  match a, b with
  | Some sa, Some sb =>
    raise_if (negb (shape_eqb sa sb)) ValueError
      (do d <- zget sa axis; raise_if (negb (Nat.eqb d 3)) ValueError (Ok sa))
  | _, _ => Err TypeError
  end.

(** csdl.outer (std/outer.py:21-26) *)
Definition outer_shape (a b : operand) : res shape :=
  match a, b with Some sa, Some sb => Ok (sa ++ sb) | _, _ => Err TypeError end.

(** csdl.matmat (std/matmat.py:23-39) *)
Definition matmat_shape (a b : operand) : res shape :=
  match a, b with
  | Some [m; _], Some [_; n] => Ok [m; n]
  | Some _, Some _ => Err ValueError
  | _, _ => Err TypeError
  end.

(** csdl.matvec (std/matvec.py:24-54) with a variable or a sparse matrix of shape [mat];
    [mat.shape[1]] and [vec.shape[0]] may raise IndexError. *)
Definition matvec_shape (mat vec : operand) : res shape :=
  match vec, mat with
  | Some sv, Some sm =>
    do c <- zget sm 1; do n <- zget sv 0;
    raise_if (negb (Nat.eqb c n && Nat.eqb (length sv) 1)) ValueError
      (do m <- zget sm 0; Ok [m])
  | _, _ => Err TypeError
  end.

(** csdl.sparsematmat (std/sparsematmat.py:24-45); [sparse] is the pair of dimensions of
    the sparse matrix, [None] when the argument is not one. *)
Definition sparsematmat_shape (mat : operand) (sparse : option (nat * nat)) : res shape :=
  match mat, sparse with
  | Some sm, Some (p, q) =>
    do r <- zget sm 0; raise_if (negb (Nat.eqb r q)) ValueError (do c <- zget sm 1; Ok [p; c])
  | _, _ => Err TypeError
  end.

(** csdl.solve (std/solve_linear.py:22-70) for two variables and a linear solver *)
Definition solve_shape (a b : operand) : res shape :=
  match a, b with
  | Some [n; m], Some sb =>
    raise_if (negb (Nat.eqb n m)) ValueError
      (do r <- zget sb 0;
       raise_if (negb (Nat.eqb r n)) ValueError
         (match sb with
          | [_] => Ok sb
          | [_; c] => raise_if (negb (Nat.eqb c 1)) ValueError (Ok sb)
          | _ => Err ValueError
          end))
  | Some _, Some _ => Err ValueError
  | _, _ => Err TypeError
  end.

(** csdl.eigenvalues (std/eigenvalues.py:24-52): the common shape of the two results *)
Definition eigenvalues_shape (a : operand) : res shape :=
  match a with
  | None => Err TypeError
  | Some [n; m] => raise_if (negb (Nat.eqb n m)) ValueError (Ok [n])
  | Some _ => Err ValueError
  end.

(** csdl.quatrotvec (std/quatrotvec.py:23-40) *)
Definition quatrotvec_shape (quat vec : operand) : res shape :=
  match quat, vec with
  | Some q, Some v => raise_if (negb (shape_eqb (removelast q) (removelast v))) ValueError (Ok v)
  | _, _ => Err TypeError
  end.

(** csdl.rotmat (std/rotmat.py:20-27): [axis] is not checked *)
Definition rotmat_shape (x : operand) : res shape :=
  match x with
  | None => Err TypeError
  | Some sh => if shape_eqb sh [1] then Ok [3; 3] else Ok (sh ++ [3; 3])
  end.

(** ** Rearrangements *)

(** csdl.transpose (std/transpose.py:18-24) *)
Definition transpose_shape (x : operand) : res shape :=
  match x with None => Err TypeError | Some sh => Ok (rev sh) end.

(** csdl.reshape (std/reshape.py:19-36): [None] in the new shape is an object that is not
    an int.  A new shape given as an int is the tuple of that int (22-23).
    [np.prod] is rendered without overflow. *)
Definition zprod (l : list Z) : Z := fold_right Z.mul 1%Z l.
Fixpoint ints (l : list (option Z)) : res (list Z) :=
  match l with
  | [] => Ok []
  | None :: _ => Err TypeError
  | Some z :: r => do zs <- ints r; Ok (z :: zs)
  end.
Definition reshape_shape (x : operand) (new : list (option Z)) : res (list Z) :=
  match x with
  | None => Err TypeError
  | Some sh =>
    do zs <- ints new;
    raise_if (negb (Z.eqb (Z.of_nat (prod sh)) (zprod zs))) ValueError (Ok zs)
  end.

(** csdl.flatten (std/reshape.py:44-55); [size] is the attribute of that name *)
Definition flatten_shape (x : operand) (size : nat) : res (list Z) :=
  match x with None => Err TypeError | Some _ => reshape_shape x [Some (Z.of_nat size)] end.

(** [str.split('->')] *)
Fixpoint split_arrow (s cur : chars) : list chars :=
  match s with
  | [] => [cur]
  | c :: r =>
    match r with
    | d :: r' => if ceqb c "-" && ceqb d ">" then cur :: split_arrow r' [] else split_arrow r (cur ++ [c])
    | [] => split_arrow r (cur ++ [c])
    end
  end.
Definition split (s : chars) : list chars := split_arrow s [].

Definition no_spaces (s : chars) : chars := filter (fun c => negb (ceqb c " ")) s.

(** utils/reorder_axes_utils.py:8-9: [str.index] raises ValueError *)
Fixpoint locations (inp out : chars) : res (list nat) :=
  match out with
  | [] => Ok []
  | c :: r => match index_of c inp with
              | None => Err ValueError
              | Some k => do ks <- locations inp r; Ok (k :: ks)
              end
  end.

(** [tuple(var.shape[i] for i in ks)] (std/reorder_axes.py:33) *)
Fixpoint gather (sh : shape) (ks : list nat) : res shape :=
  match ks with
  | [] => Ok []
  | k :: r => match nth_error sh k with
              | None => Err IndexError
              | Some d => do ds <- gather sh r; Ok (d :: ds)
              end
  end.

(** csdl.reorder_axes (std/reorder_axes.py:23-33, utils/reorder_axes_utils.py:2-11): the
    axis locations handed to the operation and the shape. *)
Definition reorder_axes_shape (x : operand) (operation : chars) : res (list nat * shape) :=
  match x with
  | None => Err TypeError
  | Some sh =>
    match split (no_spaces operation) with
    | inp :: out :: _ => do ks <- locations inp out; do sh' <- gather sh ks; Ok (ks, sh')
    | _ => Err IndexError
    end
  end.

Definition has_char (c : ascii) (s : chars) : bool := existsb (ceqb c) s.

(** std/expand.py:20-25 *)
Fixpoint expand_positions (i : nat) (inp out : chars) : list nat :=
  match out with
  | [] => []
  | c :: r => if has_char c inp then expand_positions (S i) inp r else i :: expand_positions (S i) inp r
  end.

(** [shape_selection] of utils/decompose_shape_tuple.py:1-27; the alphabet has ten
    letters: one more axis raises IndexError. *)
Definition decompose_shape (sh : shape) (sel : list nat) : res shape :=
  raise_if (Nat.ltb 10 (length sh)) IndexError (Ok (drop_at 0 sh sel)).

(** csdl.expand (std/expand.py:7-57).  [indices] is None or a string; the result is the
    expanded axes handed to the operation ([None] when no indices are given) and the
    shape. *)
Definition expand_shape (x : operand) (sh : shape) (indices : option chars) : res (option (list nat) * shape) :=
  match x with
  | None => Err TypeError
  | Some sx =>
    match indices with
    | None => if shape_eqb sx [1] then Ok (None, sh) else Err ValueError
    | Some s =>
      match split s with
      | [inp; out] =>
        let ex := expand_positions 0 inp out in
        if shape_eqb sx [1] then Ok (Some ex, sh)
        else do sel <- decompose_shape sh ex;
             raise_if (negb (shape_eqb sel sx)) ValueError (Ok (Some ex, sh))
      | _ => Err ValueError
      end
    end
  end.
