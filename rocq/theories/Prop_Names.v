(** Property theorems C01, C02 (naming part), C03. *)
From Verif Require Import PyBase NamesModel NamesProofs PromotionsModel PromotionsSpec
  PromotionsProofs PromotionsProofs2 NamesProps RoundSpec RoundProofs.
Local Open Scope N_scope.

(** C01, partial: the ids of the first [n] nodes of a process are pairwise distinct
    as long as [n <= 62 * 63^4] (about 9.8e8); missing: larger [n], where it is false. *)
Theorem c01_node_ids_distinct_partial :
  forall n : nat, N.of_nat n <= 62 * 63 ^ 4 ->
    NoDup (node_ids n) /\ forall k, In k (node_ids n) -> exists s, k = Some s /\ s <> ""%string.
Proof. exact node_ids_distinct. Qed.
Print Assumptions c01_node_ids_distinct_partial.
Example c01_nonvacuous : N.of_nat 4 <= 62 * 63 ^ 4 /\
  node_ids 4 = [Some "_0000"; Some "_0001"; Some "_0002"; Some "_0003"]%string.
Proof. split; [vm_compute; discriminate|reflexivity]. Qed.

(** C01 in full is false: two different nodes get the same id. *)
Theorem c01_node_ids_distinct_refuted :
  exists i j : N, i <> j /\ exists s, gen_hex_name i = Some s /\ gen_hex_name j = Some s.
Proof. exact node_ids_collide. Qed.
Print Assumptions c01_node_ids_distinct_refuted.

(** The threshold of the partial theorem is exact. *)
Theorem c01_threshold_exact :
  gen_hex_name 0 = gen_hex_name (62 * 63 ^ 4).
Proof. exact node_ids_threshold. Qed.
Print Assumptions c01_threshold_exact.

(** The division by the base in the model of the ids is a correctly rounded one, as Python's
    is: to the nearest 53-bit number, and to the even one of two nearest ones. *)
Theorem c01_division_rounded :
  forall q, binary64 (round53 q) /\
    forall y, binary64 y -> distance q (round53 q) <= distance q y /\
      (distance q y = distance q (round53 q) -> y = round53 q \/ even_significand (round53 q)).
Proof. exact rounding. Qed.
Print Assumptions c01_division_rounded.
Example c01_division_rounded_nonvacuous :
  round53 (2 ^ 53 + 1) = 2 ^ 53 /\ round53 (2 ^ 53 + 3) = 2 ^ 53 + 4 /\ round53 (2 ^ 54 + 3) = 2 ^ 54 + 4.
Proof. repeat split; vm_compute; reflexivity. Qed.

(** C02 is false for every automatically named submodel: the name of a submodel that
    is the [k]-th node of the process is the id of the node created right after it. *)
Theorem c02_auto_name_refuted :
  forall (n k : nat), (S k < n)%nat ->
    nth_error (node_ids n) (S k) = Some (subgraph_auto_name (N.of_nat k)).
Proof. exact auto_name_is_next_id. Qed.
Print Assumptions c02_auto_name_refuted.
Example c02_witness : subgraph_auto_name 7 = Some "_0008"%string /\ gen_hex_name 8 = Some "_0008"%string.
Proof. split; vm_compute; reflexivity. Qed.

(** C03, first half: accepted names are made of letters, digits and underscores. *)
Theorem c03_accepted_characters :
  forall s, check_banned_chars s = Ok tt <->
    (forall i c, String.get i s = Some c ->
       let n := N_of_ascii c in
       48 <= n <= 57 \/ 65 <= n <= 90 \/ 97 <= n <= 122 \/ c = "_"%char).
Proof. exact accepted_characters. Qed.
Print Assumptions c03_accepted_characters.
Example c03_nonvacuous : check_banned_chars "a_Z9" = Ok tt /\ check_banned_chars "a.b" = Err ValueError.
Proof. split; vm_compute; reflexivity. Qed.

(** C03, second half: dotted names are unambiguous when submodel names are not empty. *)
Theorem c03_paths_unambiguous_partial :
  forall p x q y,
    Forall (fun m => check_banned_chars m = Ok tt /\ m <> ""%string) p ->
    Forall (fun m => check_banned_chars m = Ok tt /\ m <> ""%string) q ->
    check_banned_chars x = Ok tt -> check_banned_chars y = Ok tt ->
    path_name p x = String.concat "." (p ++ [x]) /\
    (path_name p x = path_name q y -> p = q /\ x = y).
Proof. exact paths_unambiguous. Qed.
Print Assumptions c03_paths_unambiguous_partial.
Example c03_paths_nonvacuous : path_name ["a"; "b_1"]%string "x"%string = "a.b_1.x"%string.
Proof. vm_compute; reflexivity. Qed.

(** Missing: the empty submodel name, which is accepted and makes paths ambiguous. *)
Theorem c03_empty_name_refuted :
  exists p x q y, Forall (fun m => check_banned_chars m = Ok tt) p /\
    Forall (fun m => check_banned_chars m = Ok tt) q /\
    check_banned_chars x = Ok tt /\ check_banned_chars y = Ok tt /\
    path_name p x = path_name q y /\ p <> q.
Proof. exact empty_name_ambiguous. Qed.
Print Assumptions c03_empty_name_refuted.
