(** Agreement of the model with the test suite of the repository, second part: the calls of
    csdl/examples/ex_indices.py, ex_sum.py, ex_average.py, ex_max.py, ex_min.py, ex_pnorm.py,
    ex_dot.py, ex_cross.py, ex_inner.py, ex_outer.py, ex_matmat.py, ex_matvec.py, ex_expand.py,
    ex_reorder_axes.py, ex_transpose.py, ex_reshape.py, ex_rotmat.py, ex_einsum_old.py and
    ex_einsum_new.py, with the shapes of the results, or the class of the error, that the
    tests of the same names in csdl/tests check (by comparing with numpy's arrays). *)
From Verif Require Import PyBase PromotionsModel IndexModel EinsumModel ShapeModel.
From Coq Require Import ZArith Ascii String.
Local Open Scope string_scope.
Local Open Scope nat_scope.
Local Open Scope list_scope.

Definition to (n : Z) : pyslice := Slice None (Some n) None.
Definition from (n : Z) : pyslice := Slice (Some n) None None.
Definition between (a b : Z) : pyslice := Slice (Some a) (Some b) None.
Definition all : pyslice := Slice None None None.
Definition str (s : string) : chars := list_ascii_of_string s.

(** The outcome of the last assignment of a history. *)
Definition last_outcome (sh : shape) (before : list assignment) (a : assignment) : res unit :=
  match a with (k, n, s) => snd (setitem sh (fst (run sh before)) k n s) end.
(** A read: the shape and the flat positions. *)
Definition read (sh : shape) (k : key) : res (shape * list Z) :=
  match getitem sh decomp0 k with
  | (d, Ok o) => match nth_error (d_outs d) o with Some r => Ok r | None => Err RuntimeError end
  | (_, Err e) => Err e
  end.

(** test_integer_index_assignement_overlap *)
Example integer_overlap :
  last_outcome [2] [(KeyInt 0, "a", [1])] (KeyInt 0, "b", [1]) = Err ValueError.
Proof. reflexivity. Qed.
(** test_integer_index_assignement_out_of_range *)
Example integer_out_of_range : last_outcome [1] [] (KeyInt 1, "a", [1]) = Err ValueError.
Proof. reflexivity. Qed.
(** test_integer_index_assignement *)
Definition seven : list assignment :=
  [(KeyInt 0, "a", [1]); (KeyInt 1, "b", [1]); (KeyInt 2, "c", [1]); (KeyInt 3, "d", [1]);
   (KeyInt 4, "e", [1]); (KeyInt 5, "f", [1]); (KeyInt 6, "_0000", [1])].
Example integers :
  snd (run [7] seven) = seven /\ read [7] (KeyInt 0) = Ok ([1], [0%Z]) /\
  read [7] (KeyInt 6) = Ok ([1], [6%Z]) /\ read [7] (KeyInt (-2)) = Ok ([1], [5%Z]).
Proof. repeat split. Qed.
(** test_integer_index_integer_reuse: x[0] is the same variable twice *)
Example integer_reuse :
  let d := fst (getitem [2] decomp0 (KeyInt 0)) in
  snd (getitem [2] decomp0 (KeyInt 0)) = Ok 0 /\ snd (getitem [2] d (KeyInt 0)) = Ok 0 /\
  last_outcome [2] [(KeyInt 0, "_000a", [1])] (KeyInt 1, "_000a", [1]) = Err KeyError.
Proof. repeat split. Qed.
(** test_one_dimensional_index_reuse *)
Example slice_reuse :
  let d := fst (getitem [8] decomp0 (KeySlice (to 4))) in
  snd (getitem [8] d (KeySlice (to 4))) = Ok 0 /\
  last_outcome [8] [(KeySlice (to 4), "_000a", [4])] (KeySlice (from 4), "_000a", [4]) = Err KeyError.
Proof. repeat split. Qed.
(** test_one_dimensional_index_assignement_overlap *)
Example slice_overlap :
  last_outcome [20] [(KeySlice (between 0 16), "a", [16])] (KeySlice (between 15 19), "b", [4]) = Err ValueError.
Proof. reflexivity. Qed.
(** test_one_dimensional_index_assignement_out_of_range *)
Example slice_out_of_range :
  last_outcome [20] [(KeySlice (between 0 16), "a", [16])] (KeySlice (between 17 21), "b", [4]) = Err ValueError.
Proof. reflexivity. Qed.
(** test_one_dimensional_index_assignement *)
Example slices :
  last_outcome [20] [] (KeySlice (between 0 20), "a", [20]) = Ok tt /\
  last_outcome [20] [(KeySlice (between 0 16), "a", [16])] (KeySlice (between 16 20), "b", [4]) = Ok tt /\
  read [20] (KeySlice (between 0 5)) = Ok ([5], [0; 1; 2; 3; 4]%Z) /\
  read [20] (KeySlice (from 3)) = Ok ([17], [3; 4; 5; 6; 7; 8; 9; 10; 11; 12; 13; 14; 15; 16; 17; 18; 19]%Z) /\
  read [20] (KeySlice (between 2 4)) = Ok ([2], [2; 3]%Z) /\
  read [20] (KeyInt (-1)) = Ok ([1], [19%Z]) /\
  read [20] (KeyInt 2) = Ok ([1], [2%Z]).
Proof. repeat split. Qed.
(** test_multidimensional_dimensional_index_assignement_overlap *)
Example multi_overlap :
  let k := KeyTuple [KS (between 0 2); KS (between 0 3)] in
  last_outcome [2; 3] [(k, "z", [2; 3])] (k, "z", [2; 3]) = Err KeyError.
Proof. reflexivity. Qed.
(** test_multidimensional_index_assignement_out_of_range *)
Example multi_out_of_range :
  last_outcome [2; 3] [] (KeyTuple [KS (between 0 3); KS (between 0 3)], "z", [2; 3]) = Err ValueError.
Proof. reflexivity. Qed.
(** test_multidimensional_dimensional_index_assignement *)
Example multi :
  last_outcome [2; 3] [] (KeyTuple [KS (between 0 2); KS (between 0 3)], "z", [2; 3]) = Ok tt /\
  last_outcome [5; 2; 3] [] (KeyTuple [KS (between 0 5); KS (between 0 2); KS (between 0 3)], "p", [5; 2; 3]) = Ok tt /\
  read [5; 2; 3] (KeyTuple [KI 0; KS all; KS all]) = Ok ([1; 2; 3], [0; 1; 2; 3; 4; 5]%Z) /\
  read [5; 2; 3] (KeyTuple [KI 0; KI (-1); KI 2]) = Ok ([1; 1; 1], [5]%Z) /\
  last_outcome [2; 20] [(KeyTuple [KI 0; KS all], "vec", [1; 20])] (KeyTuple [KI 1; KS all], "_000b", [1; 20]) = Ok tt /\
  last_outcome [5; 3; 3] [] (KeyTuple [KS (between 0 5); KS (between 0 (-1)); KS (between 0 3)], "p", [5; 2; 3]) = Ok tt /\
  (** the entries of t that are assigned: t[0:5, 0:-1, 0:3] *)
  option_map snd (dget (c_tgt (fst (run [5; 3; 3]
     [(KeyTuple [KS (between 0 5); KS (between 0 (-1)); KS (between 0 3)], "p", [5; 2; 3])]))) "p")
  = Some [0;1;2;3;4;5; 9;10;11;12;13;14; 18;19;20;21;22;23; 27;28;29;30;31;32; 36;37;38;39;40;41]%Z.
Proof. repeat split. Qed.
(** test_mesh *)
Example mesh :
  read [3; 4; 3] (KeyTuple [KS (to (-1)); KS all; KS all]) = Ok ([2; 4; 3], map Z.of_nat (seq 0 24)) /\
  read [3; 4; 3] (KeyTuple [KS (from 1); KS all; KS all]) = Ok ([2; 4; 3], map Z.of_nat (seq 12 24)).
Proof. repeat split. Qed.

(** test_sum.py *)
Example sums :
  sum_shape [Some [3]] NoAxes = Ok [1] /\ sum_shape [Some [3; 4; 5; 6]] NoAxes = Ok [1] /\
  sum_shape [Some [3; 6]] NoAxes = Ok [1] /\ sum_shape [Some [3]; Some [3]] NoAxes = Ok [3] /\
  sum_shape [Some [3; 6]; Some [3; 6]] NoAxes = Ok [3; 6] /\
  sum_shape [Some [3; 6; 7]; Some [3; 6; 7]] NoAxes = Ok [3; 6; 7] /\
  sum_shape [Some [3; 6]] (AxTuple [0%Z]) = Ok [6] /\ sum_shape [Some [3; 6]] (AxTuple [1%Z]) = Ok [3] /\
  sum_shape [Some [3; 6]; Some [3; 6]] (AxTuple [0%Z]) = Ok [6] /\
  sum_shape [Some [3; 6]; Some [3; 6]] (AxTuple [1%Z]) = Ok [3] /\
  sum_shape [Some [5]] (AxTuple [0%Z]) = Ok [1].
Proof. repeat split. Qed.
(** test_average.py *)
Example averages :
  average_shape [Some [3]] NoAxes = Ok [1] /\ average_shape [Some [3; 6]] NoAxes = Ok [1] /\
  average_shape [Some [3; 6; 7]] NoAxes = Ok [1] /\ average_shape [Some [3]; Some [3]] NoAxes = Ok [3] /\
  average_shape [Some [3; 6]; Some [3; 6]] NoAxes = Ok [3; 6] /\
  average_shape [Some [3; 6; 7]; Some [3; 6; 7]] NoAxes = Ok [3; 6; 7] /\
  average_shape [Some [3; 6]] (AxTuple [0%Z]) = Ok [6] /\ average_shape [Some [3; 6]] (AxTuple [1%Z]) = Ok [3] /\
  average_shape [Some [3; 6]; Some [3; 6]] (AxTuple [0%Z]) = Ok [6] /\
  average_shape [Some [3; 6]; Some [3; 6]] (AxTuple [1%Z]) = Ok [3].
Proof. repeat split. Qed.
(** test_max.py and test_min.py.  The tests of two inputs with an axis expect an exception;
    csdl accepts the call (std/max.py:50-56), and it is left to the back end to reject it. *)
Example extrema :
  extremum_shape [Some [2; 3; 4; 5; 6]] None = Ok [1] /\
  extremum_shape [Some [2; 3; 4; 5; 6]] (Some 1%Z) = Ok [2; 4; 5; 6] /\
  extremum_shape [Some [2; 3]; Some [2; 3]] None = Ok [2; 3] /\
  extremum_shape [Some [2; 2]; Some [2; 3]] None = Err ValueError /\
  extremum_shape [Some [2; 3]; Some [2; 3]] (Some 0%Z) = Ok [3].
Proof. repeat split. Qed.
(** test_pnorm.py *)
Example pnorms :
  pnorm_shape (Some [2; 3; 4; 5]) 6 NoAxes = Ok [1] /\
  pnorm_shape (Some [2; 3; 4; 5]) 6 (AxTuple [1; 3]%Z) = Ok [2; 4] /\
  pnorm_shape (Some [2; 3; 4; 5]) (-2) NoAxes = Err ValueError /\
  pnorm_shape (Some [2; 3; 4; 5]) 3 NoAxes = Err ValueError.
Proof. repeat split. Qed.
(** test_dot.py, test_cross.py, test_inner.py, test_outer.py *)
Example products :
  dot_shape (Some [3]) (Some [3]) None = Ok [1] /\
  dot_shape (Some [3; 4; 5]) (Some [3; 4; 5]) (Some 0%Z) = Ok [4; 5] /\
  dot_shape (Some [2; 4; 3]) (Some [2; 4; 3]) (Some 2%Z) = Ok [2; 4] /\
  dot_shape (Some [3]) (Some [4]) None = Err ValueError /\
  dot_shape (Some [3; 4; 5]) (Some [4; 4; 3]) (Some 0%Z) = Err ValueError /\
  dot_shape (Some [3; 4; 5]) (Some [3; 4; 5]) (Some 1%Z) = Err ValueError /\
  cross_shape (Some [3]) (Some [3]) 0 = Ok [3] /\
  cross_shape (Some [2; 5; 4; 3]) (Some [2; 5; 4; 3]) 3 = Ok [2; 5; 4; 3] /\
  cross_shape (Some [2; 5; 4; 3]) (Some [7; 5; 6; 3]) 3 = Err ValueError /\
  cross_shape (Some [2; 5; 4; 3]) (Some [2; 5; 4; 3]) 2 = Err ValueError /\
  inner_shape (Some [3]) (Some [3]) None = Ok [1] /\
  inner_shape (Some [3; 4; 5]) (Some [3]) (Some [[0]; [0]]%Z) = Ok [4; 5] /\
  inner_shape (Some [3; 4; 5]) (Some [3; 4; 5]) (Some [[0; 2]; [0; 2]]%Z) = Ok [4; 4] /\
  outer_shape (Some [3]) (Some [3]) = Ok [3; 3] /\
  outer_shape (Some [3; 4; 5]) (Some [3]) = Ok [3; 4; 5; 3] /\
  outer_shape (Some [3; 4; 5]) (Some [3; 4; 5]) = Ok [3; 4; 5; 3; 4; 5].
Proof. repeat split. Qed.
(** test_matmat.py, test_matvec.py.  The test of incompatible matrices stops in numpy, at
    np.arange(8).reshape((4, 4)), before csdl is called. *)
Example matrices :
  matmat_shape (Some [3; 2]) (Some [2; 4]) = Ok [3; 4] /\
  matvec_shape (Some [3; 4]) (Some [4]) = Ok [3].
Proof. repeat split. Qed.
(** test_expand.py *)
Example expansions :
  expand_shape (Some [1]) [2; 3] None = Ok (None, [2; 3]) /\
  expand_shape (Some [2; 3]) [2; 4; 3; 1] (Some (str "ij->iajb")) = Ok (Some [1; 3], [2; 4; 3; 1]) /\
  expand_shape None [1] None = Err TypeError /\
  expand_shape (Some [2; 3]) [2; 4; 3; 1] None = Err ValueError /\
  expand_shape (Some [2; 3]) [2; 4; 3; 1] (Some (str "ij->iaj")) = Err ValueError /\
  expand_shape (Some [2; 3]) [2; 4; 3; 1] (Some (str "ij->ijab")) = Err ValueError.
Proof. repeat split. Qed.
(** test_reorder_axes.py, test_transpose.py, test_reshape.py, test_rotmat.py *)
Example rearrangements :
  reorder_axes_shape (Some [4; 2]) (str "ij->ji") = Ok ([1; 0], [2; 4]) /\
  reorder_axes_shape (Some [4; 3; 2; 5]) (str "ijkl->ljki") = Ok ([3; 1; 2; 0], [5; 3; 2; 4]) /\
  transpose_shape (Some [4; 2]) = Ok [2; 4] /\ transpose_shape (Some [4; 3; 2; 5]) = Ok [5; 2; 3; 4] /\
  reshape_shape (Some [2; 3; 4; 5]) [Some 120%Z] = Ok [120%Z] /\
  reshape_shape (Some [120]) [Some 2; Some 3; Some 4; Some 5]%Z = Ok [2; 3; 4; 5]%Z /\
  rotmat_shape (Some [1]) = Ok [3; 3] /\ rotmat_shape (Some [2; 3; 4]) = Ok [2; 3; 4; 3; 3].
Proof. repeat split. Qed.
(** test_einsum.py *)
Example einsums :
  einsum_shape (str "i,i->") [[4]; [4]] = Ok [1] /\
  einsum_shape (str "ijk,j->ik") [[2; 4; 3]; [4]] = Ok [2; 3] /\
  einsum_shape (str "i,j->ij") [[4]; [4]] = Ok [4; 4] /\
  einsum_shape (str "hij,k->hijk") [[2; 4; 3]; [4]] = Ok [2; 4; 3; 4] /\
  einsum_shape (str "ij->ji") [[5; 4]] = Ok [4; 5] /\
  einsum_shape (str "ijk->kji") [[2; 4; 3]] = Ok [3; 4; 2] /\
  einsum_shape (str "i->") [[4]] = Ok [1] /\ einsum_shape (str "ijk->") [[2; 4; 3]] = Ok [1] /\
  einsum_shape (str "i,j->j") [[4]; [4]] = Ok [4] /\ einsum_shape (str "i,j->") [[4]; [4]] = Ok [1].
Proof. repeat split. Qed.
(** test_einsum_new_api.py; the labels 'rows' and 'cols' are 100 and 101. *)
Definition new_shape (op : list (list axis)) (shapes : list shape) : res shape :=
  match einsum_new_api op shapes with Ok (_, s) => Ok s | Err e => Err e end.
Example new_einsums :
  new_shape [[0]; [0]] [[4]; [4]] = Ok [1] /\
  new_shape [[100; 0; 1]; [0]; [100; 1]] [[2; 4; 3]; [4]] = Ok [2; 3] /\
  new_shape [[100]; [101]; [100; 101]] [[4]; [4]] = Ok [4; 4] /\
  new_shape [[0; 1; 30]; [2]; [0; 1; 30; 2]] [[2; 4; 3]; [4]] = Ok [2; 4; 3; 4] /\
  new_shape [[46; 99]; [99; 46]] [[5; 4]] = Ok [4; 5] /\
  new_shape [[33; 66; 99]; [99; 66; 33]] [[2; 4; 3]] = Ok [3; 4; 2] /\
  new_shape [[33]] [[4]] = Ok [1] /\ new_shape [[33; 66; 99]] [[2; 4; 3]] = Ok [1] /\
  new_shape [[1]; [2]; [2]] [[4]; [4]] = Ok [4] /\ new_shape [[1]; [2]] [[4]; [4]] = Ok [1].
Proof. repeat split. Qed.
