(** Specification vocabulary: the integers that are binary64 numbers, and which of them a
    correctly rounded division returns. *)
From Verif Require Import PyBase.
Local Open Scope N_scope.

(** [m * 2^e] with at most 53 significant bits (the range of the exponent is not limited). *)
Definition binary64 (x : N) : Prop := exists m e, m <= 2 ^ 53 /\ x = m * 2 ^ e.
Definition distance (a b : N) : N := N.max a b - N.min a b.
(** The last of the 53 bits of [x] is 0. *)
Definition even_significand (x : N) : Prop := exists m e, 2 ^ 52 <= m <= 2 ^ 53 /\ x = m * 2 ^ e /\ N.Even m.
