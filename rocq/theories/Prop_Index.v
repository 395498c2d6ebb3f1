(** Property theorems C04 - C08. *)
From Verif Require Import PyBase PromotionsModel IndexModel IndexSpec IndexProofs IndexSpec2 IndexProofs2.
Local Open Scope Z_scope.

(** C04: an accepted slice selects what Python selects.  The second hypothesis is what
    every caller checks next (ravel_multi_index, or the range check of assignments). *)
Theorem c04_slice_is_python :
  forall n sl l, 0 <= n -> slice_to_list n sl = Ok l -> Forall (fun i => i < n) l ->
    l = py_slice n sl /\ Forall (fun i => 0 <= i < n) l /\ NoDup l /\ l <> [].
Proof. exact slice_is_python. Qed.
Print Assumptions c04_slice_is_python.
Example c04_nonvacuous : slice_to_list 10 (Slice (Some 7) (Some (-8)) (Some (-2))) = Ok [7; 5; 3] /\
  py_slice 10 (Slice (Some 7) (Some (-8)) (Some (-2))) = [7; 5; 3].
Proof. split; vm_compute; reflexivity. Qed.

(** ... and ordinary slices are accepted. *)
Theorem c04_slice_accepted :
  forall n sl, 0 <= n -> odef 1 (s_step sl) <> 0 ->
    match s_start sl with Some a => 0 <= a | None => 0 < odef 1 (s_step sl) end ->
    match s_stop sl with Some p => - n <= p | None => 0 < odef 1 (s_step sl) end ->
    match s_start sl with Some a => a < n | None => True end ->
    match s_stop sl with Some p => p <= n | None => True end ->
    py_slice n sl <> [] ->
    exists l, slice_to_list n sl = Ok l /\ Forall (fun i => i < n) l.
Proof. exact slice_accepted. Qed.
Print Assumptions c04_slice_accepted.
Example c04_accepted_nonvacuous : py_slice 10 (Slice None None (Some 3)) = [0; 3; 6; 9].
Proof. vm_compute; reflexivity. Qed.

(** What "the positions Python selects" ([py_slice]) means: the arithmetic progression from
    the first position, as long as it stays inside the axis and before the stop. *)
Theorem c04_python_slices :
  forall n sl i x, 0 <= n -> odef 1 (s_step sl) <> 0 ->
    nth_error (py_slice n sl) i = Some x <->
    x = first_position n sl + Z.of_nat i * odef 1 (s_step sl) /\ 0 <= x < n /\ before_stop n sl x.
Proof. exact slice_meaning. Qed.
Print Assumptions c04_python_slices.
Example c04_python_slices_nonvacuous :
  py_slice 5 (Slice None None (Some (-2))) = [4; 2; 0] /\ py_slice 5 (Slice (Some (-2)) (Some 9) None) = [3; 4].
Proof. split; vm_compute; reflexivity. Qed.

(** C05: reads, after any history of reads. *)
Theorem c05_read_positions :
  forall sh ks k o, no_other k -> snd (getitem sh (reads sh ks) k) = Ok o ->
    exists ls s ix, all_selects sh (components k) ls /\
      nth_error (d_outs (reads sh (ks ++ [k]))) o = Some (s, ix) /\
      s = map (@length Z) ls /\ Forall2 (at_flat sh) ix (cartesian ls) /\
      NoDup ix /\ Forall (fun f => 0 <= f < size_of sh) ix /\ length ix = prod s.
Proof. exact reads_sound. Qed.
Print Assumptions c05_read_positions.
Example c05_nonvacuous :
  d_outs (reads [3; 4]%nat [KeyTuple [KI (-1); KS (Slice None None (Some 2))]]) = [([1; 2]%nat, [8; 10])].
Proof. vm_compute; reflexivity. Qed.

(** C05: after any history, a read with integers in range and ordinary slices is accepted. *)
Theorem c05_read_accepted :
  forall sh ks k, Forall2 readable sh (components k) -> exists o, snd (getitem sh (reads sh ks) k) = Ok o.
Proof. intros sh ks. apply read_accepted. Qed.
Print Assumptions c05_read_accepted.
Example c05_accepted_nonvacuous : Forall2 readable [3; 4]%nat (components (KeyTuple [KI (-1); KS (Slice None None (Some 2))])).
Proof.
  constructor; [cbn; lia|]. constructor; [|constructor]. repeat split; cbn; try lia. discriminate.
Qed.

(** C05: writes. *)
Theorem c05_write_positions :
  forall sh k ts ix, tgt_indices_of sh k = Ok (ts, ix) -> Forall (fun i => i < size_of sh) ix ->
    match k with KeyTuple _ => True | KeyInt z => 0 <= z /\ length sh = 1%nat | _ => length sh = 1%nat end ->
    exists ls, all_selects sh (components k) ls /\ Forall2 (at_flat sh) ix (cartesian ls) /\
      ts = map (@length Z) ls.
Proof. exact write_positions. Qed.
Print Assumptions c05_write_positions.
Example c05_write_nonvacuous :
  tgt_indices_of [3; 4]%nat (KeyTuple [KI 1; KS (Slice (Some 1) (Some 3) None)]) = Ok ([1; 2]%nat, [5; 6]).
Proof. vm_compute; reflexivity. Qed.

(** C06 *)
Theorem c06_reads_cached :
  forall sh pre mid k1 k2 o1 o2,
    snd (getitem sh (reads sh pre) k1) = Ok o1 ->
    snd (getitem sh (reads sh (pre ++ k1 :: mid)) k2) = Ok o2 ->
    (o1 = o2 <-> normalise sh k1 = normalise sh k2) /\
    (forall rest, nth_error (d_outs (reads sh (pre ++ k1 :: rest))) o1 = nth_error (d_outs (reads sh (pre ++ [k1]))) o1) /\
    (exists nk ix, normalise sh k1 = Ok nk /\ src_indices_of sh nk = Ok ix /\
       nth_error (d_outs (reads sh (pre ++ [k1]))) o1 = Some (val_shape sh nk, ix)).
Proof. exact reads_cached. Qed.
Print Assumptions c06_reads_cached.
Example c06_nonvacuous : snd (getitem [5%nat] (reads [5%nat] [KeyInt 1]) (KeyInt (-1))) = Ok 1%nat /\
  snd (getitem [5%nat] (reads [5%nat] [KeyInt 1; KeyInt (-1); KeyInt 2]) (KeySlice (Slice (Some 4) None None))) = Ok 1%nat /\
  snd (getitem [5%nat] (reads [5%nat] [KeyInt 1; KeyInt (-1); KeyInt 2]) (KeySlice (Slice None (Some 5) None))) = Ok 3%nat.
Proof. vm_compute. auto. Qed.

(** C07, partial: after any history of assignments, accepted or rejected, the accepted ones
    are recorded with the right sizes, under distinct names and at disjoint positions smaller
    than the size.  Missing: integer keys below zero are recorded as they are (next theorem). *)
Theorem c07_assignments_disjoint_partial :
  forall sh l c acc, run sh l = (c, acc) ->
    NoDup (map (fun a => snd (fst a)) acc) /\
    c_deps c = map (fun a => snd (fst a)) acc /\
    (c_defined c = true <-> acc <> []) /\
    (forall k vn vs, In (k, vn, vs) acc -> exists ix, dget (c_tgt c) vn = Some (vs, ix) /\
       tgt_indices_of sh k = Ok (vs, ix) /\
       length ix = prod vs /\ NoDup ix /\ Forall (fun i => i < size_of sh) ix /\
       ((exists z, k = KeyInt z /\ z < 0 /\ ix = [z]) \/ Forall (fun i => 0 <= i) ix)) /\
    (forall k1 n1 s1 k2 n2 s2 t1 i1 t2 i2, In (k1, n1, s1) acc -> In (k2, n2, s2) acc -> n1 <> n2 ->
       dget (c_tgt c) n1 = Some (t1, i1) -> dget (c_tgt c) n2 = Some (t2, i2) ->
       forall i, In i i1 -> In i i2 -> False).
Proof. exact recorded_disjoint. Qed.
Print Assumptions c07_assignments_disjoint_partial.
Example c07_nonvacuous : snd (run [2; 3]%nat
    [(KeyTuple [KI 0; KS (Slice None None None)], "a", [1; 3]%nat); (KeyInt 2, "b", [1%nat]); (KeyInt 4, "c", [1%nat])]%string)
  = [(KeyTuple [KI 0; KS (Slice None None None)], "a", [1; 3]%nat); (KeyInt 4, "c", [1%nat])]%string.
Proof. vm_compute; reflexivity. Qed.
(** ... and an assignment with integers counted from the front and ordinary slices is accepted
    when all the assignments before it were, its variable is new, has the shape of the
    selection, and no selected element was assigned before. *)
Theorem c07_disjoint_accepted :
  forall sh l c k vn ls ix, run sh l = (c, l) ->
    Forall2 writable sh (components k) -> all_selects sh (components k) ls -> Forall2 (at_flat sh) ix (cartesian ls) ->
    ~ In vn (map (fun a => snd (fst a)) l) ->
    (forall n t i, dget (c_tgt c) n = Some (t, i) -> forall x, In x ix -> ~ In x i) ->
    snd (setitem sh c k vn (map (@length Z) ls)) = Ok tt /\
    dget (c_tgt (fst (setitem sh c k vn (map (@length Z) ls)))) vn = Some (map (@length Z) ls, ix).
Proof. exact disjoint_accepted. Qed.
Print Assumptions c07_disjoint_accepted.
Example c07_accepted_nonvacuous :
  (exists c, run [5%nat] [(KeyInt 4, "a"%string, [1%nat])] = (c, [(KeyInt 4, "a"%string, [1%nat])])) /\
  Forall2 writable [5%nat] (components (KeySlice (Slice None (Some (-1)) None))) /\
  all_selects [5%nat] (components (KeySlice (Slice None (Some (-1)) None))) [[0; 1; 2; 3]].
Proof.
  split; [eexists; vm_compute; reflexivity|]. split; [|split; [vm_compute; reflexivity|exact I]].
  constructor; [|constructor]. repeat split; cbn; try lia. discriminate.
Qed.
Theorem c07_negative_index_refuted :
  exists l c, run [4%nat] l = (c, l) /\
    l = [(KeyInt (-1), "a"%string, [1%nat]); (KeyInt 3, "b"%string, [1%nat])] /\
    selects 4 (KI (-1)) [3] /\ selects 4 (KI 3) [3].
Proof. exact negative_overlap. Qed.
Print Assumptions c07_negative_index_refuted.

(** C08, partial: a rejected assignment changes nothing unless it was rejected for overlap; then the
    name and its positions are recorded, but the operation does not get the variable as argument. *)
Theorem c08_rejected_no_effect_partial :
  forall sh c k vn vs e, snd (setitem sh c k vn vs) = Err e ->
    fst (setitem sh c k vn vs) = c \/
    (e = ValueError /\ exists ix, tgt_indices_of sh k = Ok (vs, ix) /\ (exists i, In i ix /\ In i (c_checked c)) /\
     fst (setitem sh c k vn vs) = Concat (dset (c_tgt c) vn (vs, ix)) (c_checked c ++ ix) (c_defined c) (c_deps c)).
Proof. exact rejected_no_effect. Qed.
Print Assumptions c08_rejected_no_effect_partial.
(** C08: whatever the error, later assignments of other variables to other elements are accepted and
    rejected as if the rejected assignment had not been written. *)
Theorem c08_later_assignments_partial :
  forall sh c k vn vs e k2 vn2 vs2, snd (setitem sh c k vn vs) = Err e -> vn2 <> vn ->
    (forall ix s2 ix2, tgt_indices_of sh k = Ok (vs, ix) -> tgt_indices_of sh k2 = Ok (s2, ix2) -> forall i, In i ix2 -> ~ In i ix) ->
    snd (setitem sh (fst (setitem sh c k vn vs)) k2 vn2 vs2) = snd (setitem sh c k2 vn2 vs2).
Proof. exact rejected_later. Qed.
Print Assumptions c08_later_assignments_partial.
Example c08_later_nonvacuous :
  let c := fst (run [6%nat] [(KeySlice (Slice None (Some 2) None), "a", [2%nat])]%string) in
  snd (setitem [6%nat] c (KeySlice (Slice (Some 1) (Some 3) None)) "b" [2%nat]) = Err ValueError /\
  snd (setitem [6%nat] (fst (setitem [6%nat] c (KeySlice (Slice (Some 1) (Some 3) None)) "b" [2%nat])) (KeyInt 4) "d" [1%nat]) = Ok tt.
Proof. split; vm_compute; reflexivity. Qed.
Example c08_nonvacuous : snd (setitem [4%nat] concat0 (KeyInt 9) "a" [1%nat]) = Err ValueError.
Proof. vm_compute; reflexivity. Qed.
(** Missing: after a rejected overlapping assignment, a later valid one is refused. *)
Theorem c08_rejected_no_effect_refuted :
  exists sh c k vn vs e k',
    (exists l, c = fst (run sh l)) /\ snd (setitem sh c k vn vs) = Err e /\
    snd (setitem sh c k' vn vs) = Ok tt /\
    snd (setitem sh (fst (setitem sh c k vn vs)) k' vn vs) = Err KeyError.
Proof. exact overlap_pollutes. Qed.
Print Assumptions c08_rejected_no_effect_refuted.
