(** Which lines of a script are accepted. *)
From Verif Require Import PyBase PromotionsModel ExprModel IndexModel IndexSpec IndexSpec2 ArithModel ArithSpec ScriptModel ScriptSpec.
Local Open Scope list_scope.

Section Spec.
  Context (N : numbers).

  Definition operands (t : stmt N) : list nat :=
    match t with SPos _ x | SNeg _ x | SBinL _ x _ | SLBin _ _ x | SFun _ _ x => [x] | SBin _ _ x y => [x; y] end.
  (** Exponents are numbers and bases variables; no division by the number 0. *)
  Definition supported (t : stmt N) : Prop :=
    match t with
    | SBin _ OpPow _ _ | SLBin OpPow _ _ => False
    | SBinL OpDiv _ (Num c) => c <> f0
    | _ => True
    end.

  (** [attempted before y key n]: some line of [before] is [y[key] = x], where [x] was then
      called [n]; [before] need not have accepted it. *)
  Definition attempted (before : list (scall N)) (y : nat) (key : key) (n : string) : Prop :=
    exists b k x a, before = b ++ CAssign k y key x :: a /\ option_map ob_name (nth_error (p_heap (prun b)) x) = Some n.
  (** The flat positions a key selects in an array of shape [sh]. *)
  Definition positions (sh : shape) (key : key) (ix : list Z) : Prop :=
    exists ls, all_selects sh (components key) ls /\ Forall2 (at_flat sh) ix (cartesian ls).
End Spec.
Arguments operands {N}. Arguments supported {N}. Arguments attempted {N}.
