(** Model of indexing: reads [x[key]] (csdl/lang/variable.py) and indexed
    assignments [y[key] = x] (csdl/lang/concatenation.py). *)
From Verif Require Import PyBase PromotionsModel.
Local Open Scope Z_scope.

(** A Python [slice] object with integer or [None] fields. *)
Record pyslice := Slice { s_start : option Z; s_stop : option Z; s_step : option Z }.

(** Python's [range(a, b, s)] for [s <> 0] (language reference: length formula of
    [range]; nothing of csdl). *)
Definition range_len (a b s : Z) : nat :=
  if 0 <? s then Z.to_nat ((b - a + s - 1) / s)
  else if s <? 0 then Z.to_nat ((a - b - s - 1) / (- s)) else O.
Definition zrange (a b s : Z) : list Z :=
  map (fun i => a + Z.of_nat i * s) (seq 0 (range_len a b s)).

Definition odef {A} (d : A) (o : option A) : A := match o with Some a => a | None => d end.

(** csdl/utils/slice_to_list.py:5-33.  Every caller passes [size].  [range] raises
    ValueError for step 0; [np.min] raises ValueError for an empty list. *)
Definition slice_to_list (size : Z) (sl : pyslice) : res (list Z) :=
  do stop <-
    match s_start sl, s_stop sl with
    | None, None => Ok size
    | _, Some p =>
      if p <? 0 then (if size + p <? 0 then Err ValueError else Ok (size + p)) else Ok p
    | _, None => Ok size
    end;
  let step := odef 1 (s_step sl) in
  if step =? 0 then Err ValueError
  else
    let l := zrange (odef 0 (s_start sl)) stop step in
    match l with
    | [] => Err ValueError
    | _ => if existsb (fun i => i <? 0) l then Err ValueError else Ok l
    end.

(** One component of a key: an int, a slice, or something else. *)
Inductive kelem := KI (z : Z) | KS (s : pyslice) | KX.
Inductive key := KeyInt (z : Z) | KeySlice (s : pyslice) | KeyTuple (l : list kelem) | KeyOther.

(** Normalised keys: tuples of (start, stop, step). *)
Definition nelem : Type := Z * Z * option Z.
Definition nkey := list nelem.
Definition to_slice (e : nelem) : pyslice := Slice (Some (fst (fst e))) (Some (snd (fst e))) (snd e).

(** csdl/lang/node.py:8-13 *)
Definition slice_to_tuple (sl : pyslice) (size : Z) : nelem :=
  (odef 0 (s_start sl), odef size (s_stop sl), s_step sl).

Definition zshape (s : shape) : list Z := map Z.of_nat s.
Definition size_of (s : shape) : Z := Z.of_nat (prod s).

(** csdl/lang/variable.py:331-354; [i] is the position in the tuple.  Components
    that are neither int nor slice are skipped, as in the code. *)
Fixpoint norm_tuple (sh : shape) (i : nat) (l : list kelem) : res nkey :=
  match l with
  | [] => Ok []
  | e :: r =>
    match e with
    | KX => norm_tuple sh (S i) r
    | KS s =>
      match nth_error sh i with
      | None => Err IndexError
      | Some n => do t <- norm_tuple sh (S i) r; Ok (slice_to_tuple s (Z.of_nat n) :: t)
      end
    | KI z =>
      if z <? 0 then
        match nth_error sh i with
        | None => Err IndexError
        | Some n => do t <- norm_tuple sh (S i) r; Ok ((Z.of_nat n + z, Z.of_nat n + z + 1, None) :: t)
        end
      else do t <- norm_tuple sh (S i) r; Ok ((z, z + 1, None) :: t)
    end
  end.

(** csdl/lang/variable.py:320-358 *)
Definition normalise (sh : shape) (k : key) : res nkey :=
  match k with
  | KeyInt z => if z <? 0 then Ok [(size_of sh + z, size_of sh + z + 1, None)] else Ok [(z, z + 1, None)]
  | KeySlice s => Ok [slice_to_tuple s (size_of sh)]
  | KeyTuple l => norm_tuple sh O l
  | KeyOther => Err TypeError
  end.

(** csdl/lang/variable.py:365-368 and csdl/lang/concatenation.py:77-84 *)
Fixpoint slices_of (sh : shape) (i : nat) (l : list pyslice) : res (list (list Z)) :=
  match l with
  | [] => Ok []
  | s :: r =>
    match nth_error sh i with
    | None => Err IndexError
    | Some n => do a <- slice_to_list (Z.of_nat n) s; do t <- slices_of sh (S i) r; Ok (a :: t)
    end
  end.

(** [np.meshgrid] of the lists with indexing ij, flattened: the tuples of the cartesian product
    in row-major order. *)
Fixpoint cartesian {A} (ls : list (list A)) : list (list A) :=
  match ls with
  | [] => [[]]
  | l :: r => flat_map (fun x => map (cons x) (cartesian r)) l
  end.

(** [np.ravel_multi_index] of one multi-index (C order). *)
Fixpoint ravel (sh : shape) (idx : list Z) : Z :=
  match sh, idx with
  | n :: sh', i :: idx' => i * size_of sh' + ravel sh' idx'
  | _, _ => 0
  end.
(** ... and its 'raise' mode: the number of dimensions must match and every index
    must be inside its dimension. *)
Fixpoint in_dims (sh : shape) (idx : list Z) : bool :=
  match sh, idx with
  | [], [] => true
  | n :: sh', i :: idx' => (0 <=? i) && (i <? Z.of_nat n) && in_dims sh' idx'
  | _, _ => false
  end.
Definition ravel_multi_index (sh : shape) (ls : list (list Z)) : res (list Z) :=
  if negb (Nat.eqb (length ls) (length sh)) then Err ValueError
  else if forallb (in_dims sh) (cartesian ls) then Ok (map (ravel sh) (cartesian ls))
  else Err ValueError.

(** [np.amax(l) >= bound] *)
Definition amax_ge (l : list Z) (bound : Z) : bool := existsb (fun i => bound <=? i) l.

(** csdl/lang/variable.py:364-377: flat source indices of a normalised key. *)
Definition src_indices_of (sh : shape) (k : nkey) : res (list Z) :=
  do ls <- slices_of sh O (map to_slice k);
  do ix <- ravel_multi_index sh ls;
  raise_if (amax_ge ix (size_of sh)) ValueError (Ok ix).

(** Python/numpy basic slicing of an axis of length [n] ([slice.indices], language
    reference): the positions selected by [sl].  Used for the shape of [self.val[...]]. *)
Definition clamp (lo hi x : Z) : Z := Z.max lo (Z.min hi x).
Definition py_slice (n : Z) (sl : pyslice) : list Z :=
  let step := odef 1 (s_step sl) in
  let lower := if step <? 0 then -1 else 0 in
  let upper := if step <? 0 then n - 1 else n in
  let adjust x := if x <? 0 then Z.max (x + n) lower else Z.min x upper in
  let start := match s_start sl with
               | None => if step <? 0 then upper else lower | Some x => adjust x end in
  let stop := match s_stop sl with
              | None => if step <? 0 then lower else upper | Some x => adjust x end in
  zrange start stop step.

(** csdl/lang/variable.py:384-386: shape of the created output. *)
Fixpoint val_shape (sh : shape) (k : nkey) : shape :=
  match sh, k with
  | n :: sh', e :: k' => length (py_slice (Z.of_nat n) (to_slice e)) :: val_shape sh' k'
  | _, _ => sh
  end.

Definition oz_eqb (a b : option Z) : bool :=
  match a, b with None, None => true | Some x, Some y => Z.eqb x y | _, _ => false end.
Definition nelem_eqb (a b : nelem) : bool :=
  Z.eqb (fst (fst a)) (fst (fst b)) && Z.eqb (snd (fst a)) (snd (fst b)) && oz_eqb (snd a) (snd b).
Definition nkey_eqb : nkey -> nkey -> bool := list_eqb nelem_eqb.

Fixpoint kget (l : list (nkey * nat)) (k : nkey) : option nat :=
  match l with [] => None | (k', v) :: r => if nkey_eqb k k' then Some v else kget r k end.

(** The [decompose] operation of one variable: [_key_out_pairs], and for every created
    output (numbered in creation order) its shape and [src_indices]. *)
Record decomp := Decomp {
  d_pairs : list (nkey * nat);
  d_outs  : list (shape * list Z)
}.
Definition decomp0 : decomp := Decomp [] [].

(** csdl/lang/variable.py:306-395 *)
Definition getitem (sh : shape) (d : decomp) (k : key) : decomp * res nat :=
  match normalise sh k with
  | Err e => (d, Err e)
  | Ok nk =>
    match kget (d_pairs d) nk with
    | Some o => (d, Ok o)
    | None =>
      match src_indices_of sh nk with
      | Err e => (d, Err e)
      | Ok ix =>
        let o := length (d_outs d) in
        (Decomp (d_pairs d ++ [(nk, o)]) (d_outs d ++ [(val_shape sh nk, ix)]), Ok o)
      end
    end
  end.

(** A history of reads of one variable. *)
Definition reads (sh : shape) (ks : list key) : decomp :=
  fold_left (fun d k => fst (getitem sh d k)) ks decomp0.

(** ** Concatenations *)
(** State of an output created by [create_output]: csdl/lang/concatenation.py:42-52;
    [c_deps] are the arguments of its indexed_passthrough operation. *)
Record concat_st := Concat {
  c_tgt : dict (shape * list Z);
  c_checked : list Z;
  c_defined : bool;
  c_deps : list string
}.
Definition concat0 : concat_st := Concat [] [] false [].

Definition kelem_slice (e : kelem) : res pyslice :=
  match e with
  | KI z => Ok (Slice (Some z) (Some (z + 1)) None)
  | KS s => Ok s
  | KX => Err AttributeError
  end.
Fixpoint kelem_slices (l : list kelem) : res (list pyslice) :=
  match l with
  | [] => Ok []
  | e :: r => do s <- kelem_slice e; do t <- kelem_slices r; Ok (s :: t)
  end.

(** csdl/lang/concatenation.py:63-111: the flat target indices and the shape of the
    array of indices.  An [AttributeError] of a tuple component that is neither int nor
    slice comes after the errors of the components before it in the code; only the
    exception type differs here.  *)
Definition tgt_indices_of (sh : shape) (k : key) : res (shape * list Z) :=
  match k with
  | KeyTuple l =>
    do ss <- kelem_slices l;
    do ls <- slices_of sh O ss;
    do ix <- ravel_multi_index sh ls;
    Ok (map (@length Z) ls, ix)
  | KeySlice s =>
    match sh with
    | [] => Err IndexError
    | n :: _ => do l <- slice_to_list (Z.of_nat n) s; Ok ([length l], l)
    end
  | KeyInt z => Ok ([1%nat], [z])
  | KeyOther => Err TypeError
  end.

Definition zmem (x : Z) (l : list Z) : bool := existsb (Z.eqb x) l.

(** csdl/lang/concatenation.py:58-149.  [vn], [vs]: name and shape of the assigned variable. *)
Definition setitem (sh : shape) (c : concat_st) (k : key) (vn : string) (vs : shape)
  : concat_st * res unit :=
  match tgt_indices_of sh k with
  | Err e => (c, Err e)
  | Ok (ts, ix) =>
    if negb (shape_eqb ts vs) then (c, Err ValueError)
    else if amax_ge ix (size_of sh) then (c, Err ValueError)
    else if dmem vn (c_tgt c) then (c, Err KeyError)
    else
      let c' := Concat (dset (c_tgt c) vn (vs, ix)) (c_checked c ++ ix) (c_defined c) (c_deps c) in
      if existsb (fun i => zmem i (c_checked c)) ix then (c', Err ValueError)
      else (Concat (c_tgt c') (c_checked c') true
              (if c_defined c then c_deps c ++ [vn] else [vn]), Ok tt)
  end.

(** A history of assignments, keeping the accepted ones (name, shape, flat indices). *)
Definition assignment : Type := key * string * shape.
Definition run1 (sh : shape) (st : concat_st * list assignment) (a : assignment)
  : concat_st * list assignment :=
  match a with
  | (k, vn, vs) =>
    match setitem sh (fst st) k vn vs with
    | (c', Ok _) => (c', snd st ++ [a])
    | (c', Err _) => (c', snd st)
    end
  end.
Definition run (sh : shape) (l : list assignment) : concat_st * list assignment :=
  fold_left (run1 sh) l (concat0, []).
