(** Model of csdl.diff (csdl/std/diff.py). *)
From Verif Require Import PyBase PromotionsModel IndexModel ShapeModel.
Set Implicit Arguments.
Open Scope list_scope.

(** [[slice(None, None, None)] * n] with entry [k] replaced by [s] *)
Definition all_slices : kelem := KS (Slice None None None).
Fixpoint slices_with (n k : nat) (s : pyslice) : list kelem :=
  match n, k with
  | 0, _ => []
  | S n, 0 => KS s :: repeat all_slices n
  | S n, S k => all_slices :: slices_with n k s
  end.

(** csdl.diff (std/diff.py:5-28).  [sh] is the shape of [array], [d] the reads made of it
    before, [dsh] and [c] shape and state of [delta]; [nm] is the name of the
    difference.  The difference of the two reads is a linear_combination, which raises
    ValueError unless the shapes agree (operations/linear_combination.py:15-19). *)
Definition diff (dsh : shape) (c : concat_st) (sh : shape) (d : decomp) (axis : Z) (nm : string)
  : concat_st * res unit :=
  match norm_index (length sh) axis with
  | None => (c, Err IndexError)
  | Some k =>
    let l := nth k sh 0 in
    let n := length sh in
    let delta_indices := slices_with n k (Slice (Some 1%Z) None None) in
    let array_indices := slices_with n k (Slice (Some 1%Z) None None) in
    let sub_indices := slices_with n k (Slice None (Some (Z.of_nat l)) None) in
    match getitem sh d (KeyTuple array_indices) with
    | (_, Err e) => (c, Err e)
    | (d1, Ok o1) =>
      match getitem sh d1 (KeyTuple sub_indices) with
      | (_, Err e) => (c, Err e)
      | (d2, Ok o2) =>
        match nth_error (d_outs d2) o1, nth_error (d_outs d2) o2 with
        | Some (s1, _), Some (s2, _) =>
          if shape_eqb s1 s2 then setitem dsh c (KeyTuple delta_indices) nm s1 else (c, Err ValueError)
        | _, _ => (c, Err RuntimeError)      (* does not happen: the reads exist *)
        end
      end
    end
  end.
