(** Property theorems C13 - C17 and C46. *)
From Verif Require Import PyBase NamesModel PromotionsModel PromotionsSpec
  PromotionsProofs PromotionsProofs2 PromotionsProofs3 PromotionsExample.

(** C13 *)
Theorem c13_unique_promoted_name :
  forall m p k x s, well_named m -> has_var m p k x s -> exists! q, promoted_ns m p x q.
Proof. exact promoted_name_total_unique. Qed.
Print Assumptions c13_unique_promoted_name.

(** C13 and C14: the keys of the computed map are distinct and it relates exactly the
    promoted name of every variable of the hierarchy to its unpromoted name. *)
Theorem c14_promoted_to_unpromoted :
  forall m pr r, well_named m -> resolve m pr = Ok r ->
    NoDup (dkeys (rp_p2u r)) /\
    (forall pn un, maps_to (rp_p2u r) pn un <->
       exists p k x s q, has_var m p k x s /\ promoted_ns m p x q /\ un = dotted p x /\ pn = dotted q x).
Proof. exact p2u_correct. Qed.
Print Assumptions c14_promoted_to_unpromoted.
Example c14_nonvacuous : well_named exM /\ exists r, resolve exM None = Ok r.
Proof. split; [exact exM_well_named|]. destruct exM_resolves as (r & H & _). exists r; exact H. Qed.

Theorem c13_reverse_map :
  forall m pr r un pn, well_named m -> resolve m pr = Ok r ->
    (dget (create_reverse_map (rp_p2u r)) un = Some pn <-> maps_to (rp_p2u r) pn un).
Proof. exact u2p_correct. Qed.
Print Assumptions c13_reverse_map.

(** C15 *)
Theorem c15_sources_unique :
  forall m pr r p1 p2 x s1 s2 q, well_named m -> resolve m pr = Ok r ->
    has_source m p1 x s1 -> has_source m p2 x s2 ->
    promoted_ns m p1 x q -> promoted_ns m p2 x q -> p1 = p2.
Proof. exact sources_unique. Qed.
Print Assumptions c15_sources_unique.
Example c15_nonvacuous : resolve (Mdl [] [("x", [1])] [] [] [] [] None
    [("A", None, leaf [] [("x", [1])] [])])%string None = Err KeyError.
Proof. vm_compute. reflexivity. Qed.

(** C16, partial: declared variables agree, and a source and a declared variable agree when
    one of the two models contains the other.  Missing: source and declared variable in
    unrelated submodels (false, below). *)
Theorem c16_targets_same_size_partial :
  forall m pr r p1 p2 x s1 s2 q, well_named m -> locally_consistent m -> resolve m pr = Ok r ->
    has_target m p1 x s1 -> has_target m p2 x s2 ->
    promoted_ns m p1 x q -> promoted_ns m p2 x q -> prod s1 = prod s2.
Proof. exact targets_same_size. Qed.
Print Assumptions c16_targets_same_size_partial.
Theorem c16_source_target_same_size_partial :
  forall m pr r p1 p2 x s1 s2 q, well_named m -> locally_consistent m -> resolve m pr = Ok r ->
    has_source m p1 x s1 -> has_target m p2 x s2 ->
    promoted_ns m p1 x q -> promoted_ns m p2 x q ->
    prefix p1 p2 \/ prefix p2 p1 -> prod s1 = prod s2.
Proof. exact source_target_same_size. Qed.
Print Assumptions c16_source_target_same_size_partial.
Example c16_nonvacuous : well_named exM /\ locally_consistent exM /\ (exists r, resolve exM None = Ok r) /\
  has_source exM [] "x" [2; 3] /\ has_target exM ["A"%string] "x" [2; 3].
Proof. exact exM_c16. Qed.
Theorem c16_same_size_refuted :
  exists r, well_named exSib /\ locally_consistent exSib /\ resolve exSib None = Ok r /\
    has_source exSib ["A"%string] "x" [2] /\ has_target exSib ["B"%string] "x" [3] /\
    promoted_ns exSib ["A"%string] "x" [] /\ promoted_ns exSib ["B"%string] "x" [] /\ prod [2] <> prod [3].
Proof. exact exSib_accepted. Qed.
Print Assumptions c16_same_size_refuted.

(** C17, partial: a promoted name must be visible, without namespace, in the parent (through
    any of its submodels or its own variables).  Missing: that it is visible in the submodel
    itself (false, below). *)
Theorem c17_promotes_visible_partial :
  forall m pr r p m' nm l sm x, well_named m -> resolve m pr = Ok r -> sub_at m p m' ->
    In (nm, Some l, sm) (m_subs m') -> In x l ->
    exists pv k s, has_var m' pv k x s /\ promoted_ns m' pv x [].
Proof. exact promotes_visible. Qed.
Print Assumptions c17_promotes_visible_partial.
Example c17_rejected : resolve (Mdl [("u", [2])] [] [] [] [] [] None
   [("A", Some ["x"], leaf [] [("y", [1])] [])])%string None = Err KeyError.
Proof. vm_compute. reflexivity. Qed.
Theorem c17_promotes_refuted :
  exists r, well_named exBadP /\ resolve exBadP None = Ok r /\
   In ("A"%string, Some ["x"%string], leaf [] [("y"%string, [1])] []) (m_subs exBadP) /\
   ~ (exists pv k s, has_var (leaf [] [("y"%string, [1])] []) pv k "x" s).
Proof. exact exBadP_accepted. Qed.
Print Assumptions c17_promotes_refuted.

(** C46: hierarchies obeying the rules are accepted. *)
Theorem c46_valid_hierarchy_accepted :
  forall m pr, well_named m -> unique_sources m -> sizes_agree m -> valid_promotes m ->
    exists r, resolve m pr = Ok r.
Proof. exact resolve_complete. Qed.
Print Assumptions c46_valid_hierarchy_accepted.
Example c46_nonvacuous : well_named exM /\ unique_sources exM /\ sizes_agree exM /\ valid_promotes exM.
Proof. exact (conj exM_well_named exM_valid). Qed.
