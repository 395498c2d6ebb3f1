(** Model of identifier generation, name checking and namespaces. *)
From Verif Require Import PyBase.
Local Open Scope N_scope.

(** csdl/utils/gen_hex_name.py:17 [char_set] *)
Definition char_set : string :=
  "0123456789abcdefghijklmnopqrstuvwxyzABCDEFGHIJKLMNOPQRSTUVWXYZ_".

(** csdl/utils/gen_hex_name.py:18 [base = len(char_set)] *)
Definition base : N := 63.

(** csdl/utils/gen_hex_name.py:29 [char_set[remainder]] *)
Definition digit (r : N) : ascii :=
  match String.get (N.to_nat r) char_set with Some c => c | None => "_"%char end.

(** Conversion of a non-negative integer to a 53-bit-precision float and back:
    round to nearest, ties to even (IEEE binary64, no overflow: Python raises
    OverflowError above about 1.8e308, a range not modelled). *)
Definition round53 (q : N) : N :=
  if q <? 2 ^ 53 then q
  else
    let e := N.log2 q - 52 in
    let m := q / 2 ^ e in
    let r := q mod 2 ^ e in
    let half := 2 ^ (e - 1) in
    if r <? half then m * 2 ^ e
    else if half <? r then (m + 1) * 2 ^ e
    else if N.even m then m * 2 ^ e else (m + 1) * 2 ^ e.

(** csdl/utils/gen_hex_name.py:26-28: [num -= num % base; num = int(num / base)].
    [num / base] is Python true division of ints, i.e. the correctly rounded
    float quotient; the quotient of these operands is an integer. *)
Definition next_num (num : N) : N := round53 ((num - num mod base) / base).

(** csdl/utils/gen_hex_name.py:30 [prefix[:-1]] *)
Fixpoint drop_last (s : string) : string :=
  match s with
  | EmptyString => EmptyString
  | String c EmptyString => EmptyString
  | String c r => String c (drop_last r)
  end.

(** csdl/utils/gen_hex_name.py:25-34, the while loop; [None] = fuel exhausted. *)
Fixpoint hex_loop (fuel : nat) (num : N) (prefix string_rep : string) : option string :=
  match fuel with
  | O => None
  | S f =>
    let remainder := num mod base in
    let num' := next_num num in
    let string_rep' := String (digit remainder) string_rep in
    let prefix' := drop_last prefix in
    if num' =? 0 then Some (prefix' ++ string_rep')%string
    else hex_loop f num' prefix' string_rep'
  end.

(** csdl/utils/gen_hex_name.py:2-34.  The fuel bounds the number of digits by
    the number of bits; [gen_hex_name_total] shows it is never exhausted. *)
Definition gen_hex_name (num : N) : option string :=
  hex_loop (S (N.to_nat (N.size num))) num "_0000" "".

(** csdl/lang/node.py:24,26-31: the class counter starts at -1; creating the
    k-th node (k from 0) sets it to k, and the node's id is [gen_hex_name k].
    [node_ids n] lists the ids of the first [n] nodes created in a process. *)
Definition node_ids (n : nat) : list (option string) :=
  map (fun k => gen_hex_name (N.of_nat k)) (seq 0 n).

(** csdl/utils/check_banned_chars.py:9-11.  [str.isalnum] is modelled on ASCII
    only: Python also accepts non-ASCII letters and digits. *)
Definition is_alnum (c : ascii) : bool :=
  let n := N_of_ascii c in
  ((48 <=? n) && (n <=? 57)) || ((65 <=? n) && (n <=? 90)) || ((97 <=? n) && (n <=? 122)).
Definition char_ok (c : ascii) : bool := is_alnum c || Ascii.eqb c "_"%char.
Fixpoint all_chars (f : ascii -> bool) (s : string) : bool :=
  match s with EmptyString => true | String c r => f c && all_chars f r end.
Definition check_banned_chars (s : string) : res unit :=
  if all_chars char_ok s then Ok tt else Err ValueError.

(** csdl/utils/prepend_namespace.py:1-2 *)
Definition prepend_namespace (ns name : string) : string :=
  if String.eqb ns "" then name else (ns ++ "." ++ name)%string.

(** Number of '.' in a string: csdl/rep/construct_flat_graph.py uses
    [unpromoted_namespace.count('.')]. *)
Fixpoint count_dots (s : string) : nat :=
  match s with
  | EmptyString => O
  | String c r => if Ascii.eqb c "."%char then S (count_dots r) else count_dots r
  end.
Definition has_dot (s : string) : bool := negb (Nat.eqb (count_dots s) 0).

(** csdl/lang/subgraph.py:22-28: [super().__init__()] has already advanced the
    counter to the subgraph's own index [own]; its generated name is
    [gen_hex_name(Node._count + 1)]. *)
Definition subgraph_auto_name (own : N) : option string := gen_hex_name (own + 1).

(** Unpromoted name of variable [x] of the model reached from the main model by
    the submodel names [p]: csdl/rep/resolve_promotions.py:254-271 prefixes the
    names of a child by [prepend_namespace(s.name, _)] at every level. *)
Fixpoint path_name (p : list string) (x : string) : string :=
  match p with [] => x | m :: p' => prepend_namespace m (path_name p' x) end.
