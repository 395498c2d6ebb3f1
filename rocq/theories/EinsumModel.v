(** Model of csdl/utils/einsum_utils.py and of the shape computations of
    csdl/std/einsum.py and csdl/std/einsum_new_api.py.
    A Python string is a list of ASCII characters here ([chars]); [str.isalpha] is
    rendered on ASCII letters.  Index objects of the tuple API are natural numbers: only
    equality between them is used. *)
From Verif Require Import PyBase PromotionsModel.
Set Implicit Arguments.
Open Scope list_scope.

Definition chars := list ascii.

Definition is_alpha (c : ascii) : bool :=
  let n := nat_of_ascii c in
  (Nat.leb 65 n && Nat.leb n 90) || (Nat.leb 97 n && Nat.leb n 122).

Definition ceqb : ascii -> ascii -> bool := Ascii.eqb.

(** [tensor_rep.index(char)], [None] when the character is not in the string *)
Fixpoint index_of (c : ascii) (s : chars) : option nat :=
  match s with
  | [] => None
  | x :: r => if ceqb c x then Some 0 else option_map S (index_of c r)
  end.

(** einsum_utils.py:14-19: the length of the axis found for one output character in the
    first operand whose subscripts contain it; [None] when no operand contains it (the
    loop then appends nothing).  [in_shapes[i]] and [[shape_ind]] may raise IndexError. *)
Fixpoint find_dim (c : ascii) (terms : list chars) (i : nat) (shapes : list shape) : res (option nat) :=
  match terms with
  | [] => Ok None
  | t :: r =>
    match index_of c t with
    | Some k =>
      match nth_error shapes i with
      | None => Err IndexError
      | Some sh => match nth_error sh k with None => Err IndexError | Some d => Ok (Some d) end
      end
    | None => find_dim c r (S i) shapes
    end
  end.

(** einsum_utils.py:13-21 *)
Fixpoint out_dims (out : chars) (terms : list chars) (shapes : list shape) : res shape :=
  match out with
  | [] => Ok []
  | c :: r =>
    do d <- find_dim c terms 0 shapes;
    do ds <- out_dims r terms shapes;
    Ok (match d with Some d => d :: ds | None => ds end)
  end.

(** compute_einsum_shape (einsum_utils.py:4-23); the empty list raises IndexError. *)
Definition compute_einsum_shape (ops : list chars) (shapes : list shape) : res shape :=
  match rev ops with
  | [] => Err IndexError
  | out :: rterms =>
    match out with
    | [] => Ok [1]
    | _ => out_dims out (rev rterms) shapes
    end
  end.

(** einsum_subscripts_tolist (einsum_utils.py:26-44): the two branches at the end do the
    same; an empty string raises IndexError at [subscripts[-1]]. *)
Fixpoint tolist_loop (s : chars) (rep : chars) (acc : list chars) : list chars :=
  match s with
  | [] => acc ++ [rep]
  | c :: r =>
    if is_alpha c then tolist_loop r (rep ++ [c]) acc
    else if ceqb c "," || ceqb c "-" then tolist_loop r [] (acc ++ [rep])
    else tolist_loop r rep acc
  end.
Definition einsum_subscripts_tolist (s : chars) : res (list chars) :=
  match s with [] => Err IndexError | _ => Ok (tolist_loop s [] []) end.

(** The shape given to the result by csdl.einsum (std/einsum.py:36-39), for operands that
    are variables. *)
Definition einsum_shape (subscripts : chars) (shapes : list shape) : res shape :=
  do l <- einsum_subscripts_tolist subscripts;
  compute_einsum_shape l shapes.

(** *** The index-object API *)
Definition axis := nat.
(** [axis_map]: dictionary from axes to characters *)
Definition amap := list (axis * ascii).
Fixpoint aget (m : amap) (a : axis) : option ascii :=
  match m with [] => None | (b, c) :: r => if Nat.eqb a b then Some c else aget r a end.

Definition alphabet : chars := list_ascii_of_string "abcdefghijklmnopqrstuvwxyz".

(** einsum_utils.py:65-69: characters for one tuple of axes; [unused_chars[0]] raises
    IndexError when the 26 letters are used up. *)
Fixpoint term_chars (axes : list axis) (m : amap) (unused : chars) : res (chars * amap * chars) :=
  match axes with
  | [] => Ok ([], m, unused)
  | a :: r =>
    match aget m a with
    | Some c =>
      do x <- term_chars r m unused;
      let '(t, m', u') := x in Ok (c :: t, m', u')
    | None =>
      match unused with
      | [] => Err IndexError
      | c :: u =>
        do x <- term_chars r (m ++ [(a, c)]) u;
        let '(t, m', u') := x in Ok (c :: t, m', u')
      end
    end
  end.

(** einsum_utils.py:62-73: all operands. *)
Fixpoint terms_chars (ts : list (list axis)) (m : amap) (unused : chars) : res (list chars * amap) :=
  match ts with
  | [] => Ok ([], m)
  | t :: r =>
    do x <- term_chars t m unused;
    let '(s, m', u') := x in
    do y <- terms_chars r m' u';
    let '(ss, m'') := y in Ok (s :: ss, m'')
  end.

(** einsum_utils.py:78-80: the output axes; an unknown axis raises KeyError. *)
Fixpoint out_chars (axes : list axis) (m : amap) : res chars :=
  match axes with
  | [] => Ok []
  | a :: r => match aget m a with
              | None => Err KeyError
              | Some c => do t <- out_chars r m; Ok (c :: t)
              end
  end.

(** [s1 + ',' + s2 + ',' ...] with the final comma removed ([[:-1]]) *)
Fixpoint join_commas (ss : list chars) : chars :=
  match ss with
  | [] => []
  | [s] => s
  | s :: r => s ++ ","%char :: join_commas r
  end.

Definition arrow : chars := ["-"%char; ">"%char].

(** new_einsum_subscripts_to_string_and_list (einsum_utils.py:47-87).  With a scalar
    output every tuple belongs to an operand, otherwise the last is the output.  An
    empty [subscripts] without scalar output makes [num_inputs] -1; [subscripts[:-1]] is
    then empty, and [len(subscripts) == num_inputs + 1] holds, so [subscripts[-1]]
    raises IndexError. *)
Definition new_subscripts (subs : list (list axis)) (scalar : bool) : res (list chars * chars) :=
  if scalar then
    do x <- terms_chars subs [] alphabet;
    let '(ss, _) := x in Ok (ss ++ [[]], join_commas ss ++ arrow)
  else
    match rev subs with
    | [] => Err IndexError
    | out :: rins =>
      do x <- terms_chars (rev rins) [] alphabet;
      let '(ss, m) := x in
      do o <- out_chars out m;
      Ok (ss ++ [o], join_commas ss ++ arrow ++ o)
    end.

(** csdl.einsum_new_api (std/einsum_new_api.py:32-45): the subscripts passed to the
    operation and the shape of the result. *)
Definition einsum_new_api (operation : list (list axis)) (shapes : list shape) : res (chars * shape) :=
  do x <- new_subscripts operation (Nat.eqb (length shapes) (length operation));
  let '(l, s) := x in
  do sh <- compute_einsum_shape l shapes;
  Ok (s, sh).
