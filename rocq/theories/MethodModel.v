(** Model of the reshaping methods of variables (csdl/lang/variable.py:418-437,
    csdl/std/reshape.py) and of csdl.bessel (csdl/std/bessel.py, csdl/operations/bessel.py). *)
From Verif Require Import PyBase NamesModel PromotionsModel ApiModel ShapeModel.

(** An argument of reshape: an int (or numpy integer; True and False are ints), a tuple, whose
    items are ints or ([None]) other objects, or any other object. *)
Inductive parg := PInt (z : Z) | PTup (l : list (option Z)) | PElse.
Definition item (a : parg) : option Z := match a with PInt z => Some z | _ => None end.

(** csdl/std/reshape.py:19-41; lines 22-23 make a tuple of anything that is none. *)
Definition csdl_reshape (x : operand) (a : parg) : res (list Z) :=
  reshape_shape x (match a with PTup l => l | _ => [item a] end).

(** Variable.reshape, csdl/lang/variable.py:425-437 *)
Definition method_reshape (sh : shape) (args : list parg) : res (list Z) :=
  csdl_reshape (Some sh)
    (match args with
     | [PTup l] => PTup l
     | [a] => PTup [item a]
     | _ => PTup (map item args)
     end).

(** csdl/std/reshape.py:44-55 ([None]: not a Variable) *)
Definition csdl_flatten (x : option vinfo) : res (list Z) :=
  match x with None => Err TypeError | Some v => flatten_shape (Some (v_shape v)) (v_size v) end.
(** Variable.flatten, csdl/lang/variable.py:418-423 *)
Definition method_flatten (v : vinfo) : res (list Z) := csdl_flatten (Some v).

(** The argument [kind]: a number equal to an integer, an array with more than one element
    (whose comparison with 1 has no truth value), any other object. *)
Inductive bkind := BKInt (z : Z) | BKArray | BKOther.
(** The argument [order]: a number, an array of the given shape, any other object. *)
Inductive border := BONumber (z : Z) | BOArray (sh : shape) | BOOther.

(** csdl/std/bessel.py:27-43 and csdl/operations/bessel.py:5-11: shape of the result and the
    literals [kind] and [order] of the operation. *)
Definition bessel (x : operand) (kind : bkind) (order : border) : res (shape * bkind * border) :=
  match x with
  | None => Err TypeError
  | Some sh =>
    match kind with
    | BKArray => Err ValueError
    | BKOther => Err TypeError
    | BKInt z =>
      if negb (Z.eqb z 1 || Z.eqb z 2) then Err TypeError
      else match order with
           | BOOther => Err TypeError
           | BOArray so => if shape_eqb sh so then Ok (sh, kind, order) else Err TypeError
           | BONumber _ => Ok (sh, kind, order)
           end
    end
  end.
