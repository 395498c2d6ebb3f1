(** What the lines of a script say about the values of variables. *)
From Verif Require Import PyBase PromotionsModel ExprModel UnflatSpec IndexModel IndexSpec ArithModel ArithSpec ScriptModel.
Local Open Scope list_scope.

Section Spec.
  Context (N : numbers).

  (** ** What the recorded operations compute *)
  (** Element [i] of an array of [size] elements is the one that index [z] selects: negative
      indices count from the end. *)
  Definition same_element (size z : Z) (i : nat) : bool := Z.eqb (if Z.ltb z 0 then size + z else z) (Z.of_nat i).
  Fixpoint index_of (size : Z) (ix : list Z) (i : nat) : option nat :=
    match ix with
    | [] => None
    | z :: r => if same_element size z i then Some 0 else option_map S (index_of size r i)
    end.
  (** [y[tgt 0] = args 0; y[tgt 1] = args 1; ...]: the value of [y] at [i], if it is assigned. *)
  Fixpoint assigned (size : Z) (tgt : list (list Z)) (args : list (arr N)) (i : nat) : option N :=
    match tgt, args with
    | ix :: tr, a :: ar =>
      match assigned size tr ar i with
      | Some v => Some v
      | None => match index_of size ix i with Some j => Some (a j) | None => None end
      end
    | _, _ => None
    end.
  (** Result number [k] of an operation; [left]: values of elements that are never assigned. *)
  Definition op_value (left : arr N) (d : opdata N) (args : list (arr N)) (k : nat) : arr N :=
    match d with
    | DLin cs c => lincomb N (combine (map (@lit_at N) (factor_list cs (length args))) args) (lit_at c)
    | DPow ps c => powcomb N (combine (map (@lit_at N) (factor_list ps (length args))) args) (lit_at c)
    | DElem f => fun i => function N f (nth 0 args (fun _ => f0) i)
    | DOther f => f args k
    | DReads src => fun i => nth 0 args (fun _ => f0) (Z.to_nat (nth i (nth k src []) 0%Z))
    | DWrites size tgt => fun i => match assigned size tgt args i with Some v => v | None => left i end
    end.
  (** [other]: what operations without such data compute (custom and implicit operations). *)
  Definition backend (s : pstate N) (other : nat -> list (arr N) -> nat -> arr N) (left : nat -> arr N)
    (o : nat) (args : list (arr N)) (k : nat) : arr N :=
    match p_data s o with Some d => op_value (left o) d args k | None => other o args k end.

  (** ** What a line says *)
  (** Only the elements of the arguments matter. *)
  Definition elementwise (f : list (arr N) -> nat -> arr N) : Prop :=
    forall l l', Forall2 (fun a b => forall i, a i = b i) l l' -> forall k i, f l k i = f l' k i.
  (** The variables a line defines, [r] being the one it returns. *)
  Definition defines (c : scall N) (r v : nat) : Prop :=
    match c with COther _ _ outs _ => r <= v < r + length outs | CCall _ _ => False | _ => v = r end.
  (** [says shp val c r v]: the values [val] of the variables agree with line [c], which
      returned [r], at the variable [v] it defines; [shp] are the shapes of the variables. *)
  Definition says (shp : nat -> shape) (val : nat -> arr N) (c : scall N) (r v : nat) : Prop :=
    match c with
    | CCall _ _ => True
    | CArith _ t =>
      shp v = shp (first_operand N t) /\
      forall i, val v i = match t with
                          | SPos _ x => val x i
                          | SNeg _ x => fopp N (val x i)
                          | SBin _ o x y => bin_meaning N o (val x) (val y) i
                          | SBinL o x l => bin_meaning N o (val x) (lit_at l) i
                          | SLBin o l x => bin_meaning N o (lit_at l) (val x) i
                          | SFun _ f x => function N f (val x i)
                          end
    | COther _ args outs f =>
      nth_error outs (v - r) = Some (shp v) /\ (elementwise f -> forall i, val v i = f (map val args) (v - r) i)
    | CRead _ x key =>
      no_other key ->
      exists ls ix, all_selects (shp x) (components key) ls /\ Forall2 (at_flat (shp x)) ix (cartesian ls) /\
        shp v = map (@length Z) ls /\
        forall j f, nth_error ix j = Some f -> val v j = val x (Z.to_nat f)
    | CAssign _ y key x =>
      match key with KeyTuple _ => True | _ => length (shp y) = 1 end ->
      exists ls ix, all_selects (shp y) (components key) ls /\ Forall2 (at_flat (shp y)) ix (cartesian ls) /\
        shp x = map (@length Z) ls /\
        forall j f, nth_error ix j = Some f -> val y (Z.to_nat f) = val x j
    end.

  (** No assignment counts from the end with an integer key (these are recorded wrongly, C07). *)
  Definition counts_from_front (l : list (scall N)) : Prop :=
    forall k y z x, In (CAssign k y (KeyInt z) x) l -> (0 <= z)%Z.
End Spec.
