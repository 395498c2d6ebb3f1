(** The data that declare_derivatives stores (csdl/lang/custom_operation.py:180-321), on top of
    CustomModel, which keeps the declared pairs only.  The values are Python objects that are
    stored and never looked at. *)
From Verif Require Import PyBase PromotionsModel ApiModel CustomModel.
Set Implicit Arguments.
Open Scope list_scope.

Inductive pyobj := PyTrue | PyNone | PyStr (s : string) | PyObj (identity : nat).

(** The keyword arguments as given by a call; [None] when omitted. *)
Record given := Given {
  g_dependent : option pyobj; g_rows : option pyobj; g_cols : option pyobj; g_val : option pyobj;
  g_method : option pyobj; g_step : option pyobj; g_form : option pyobj; g_step_calc : option pyobj }.
Definition nothing_given := Given None None None None None None None None.

(** The parameters of a running call. *)
Record dargs := DArgs {
  da_dependent : pyobj; da_rows : pyobj; da_cols : pyobj; da_val : pyobj;
  da_method : pyobj; da_step : pyobj; da_form : pyobj; da_step_calc : pyobj }.

(** custom_operation.py:180-192: the defaults *)
Definition or_else (o : option pyobj) (d : pyobj) : pyobj := match o with Some x => x | None => d end.
Definition fill (g : given) : dargs :=
  DArgs (or_else (g_dependent g) PyTrue) (or_else (g_rows g) PyNone) (or_else (g_cols g) PyNone)
        (or_else (g_val g) PyNone) (or_else (g_method g) (PyStr "exact")) (or_else (g_step g) PyNone)
        (or_else (g_form g) PyNone) (or_else (g_step_calc g) PyNone).

(** The keyword arguments of the recursive calls (custom_operation.py:267-278, 282-293,
    296-307), the same in all three. *)
Definition again (k : dargs) : given :=
  Given (Some (da_dependent k)) (Some (da_rows k)) (Some (da_cols k)) (Some (da_val k))
        (Some (da_method k)) (Some (da_step k)) (Some (da_form k)) (Some (da_step_calc k)).

(** custom_operation.py:313-321 *)
Definition stored (k : dargs) : dict pyobj :=
  let d := [] in
  let d := dset d "dependent" (da_dependent k) in
  let d := dset d "rows" (da_rows k) in
  let d := dset d "cols" (da_cols k) in
  let d := dset d "val" (da_val k) in
  let d := dset d "method" (da_method k) in
  let d := dset d "step" (da_step k) in
  let d := dset d "form" (da_form k) in
  dset d "step_calc" (da_step_calc k).

(** derivatives_meta, in order of insertion *)
Definition metadata := list ((string * string) * dict pyobj).

Fixpoint each {A} (f : metadata -> A -> metadata * option exn) (m : metadata) (l : list A) : metadata * option exn :=
  match l with
  | [] => (m, None)
  | a :: r => match f m a with
              | (m', None) => each f m' r
              | (m', Some e) => (m', Some e)
              end
  end.

(** custom_operation.py:180-321; [outs] and [ins] are the keys of output_meta and input_meta. *)
Fixpoint declare_data (fuel : nat) (outs ins : list string) (m : metadata) (of_ wrt : darg) (g : given)
  : metadata * option exn :=
  match fuel with
  | 0 => (m, Some RuntimeError)
  | S fuel' =>
    let k := fill g in
    if is_dother of_ || is_dother wrt then (m, Some TypeError)
    else
      let ofs := dlist of_ outs in
      let wrts := dlist wrt ins in
      match ofs, wrts with
      | _ :: _, _ :: _ =>
          each (fun m a => each (fun m b => declare_data fuel' outs ins m (DStr a) (DStr b) (again k)) m wrts) m ofs
      | _ :: _, [] => each (fun m a => declare_data fuel' outs ins m (DStr a) wrt (again k)) m ofs
      | [], _ :: _ => each (fun m b => declare_data fuel' outs ins m of_ (DStr b) (again k)) m wrts
      | [], [] =>
          match of_, wrt with
          | DStr a, DStr b =>
            if pmem (a, b) (map fst m) then (m, Some KeyError)
            else (m ++ [((a, b), stored k)], None)
          | _, _ => (m, Some TypeError)
          end
      end
  end.

(** Calls made by a user's [define], with the data. *)
Inductive dcall :=
| DAddInput (n : string) (sh : shape) (v : cval)
| DAddOutput (n : string) (sh : shape) (v : cval)
| DDeclare (of_ wrt : darg) (g : given).

Definition dexec (fuel : nat) (w : world * metadata) (c : dcall) : (world * metadata) * option exn :=
  match c with
  | DAddInput n sh v => let '(w', e) := add_input (fst w) n sh v in ((w', snd w), e)
  | DAddOutput n sh v => let '(w', e) := add_output (fst w) n sh v in ((w', snd w), e)
  | DDeclare a b g =>
      let o := w_op (fst w) in
      let '(m, e) := declare_data fuel (dkeys (c_out o)) (dkeys (c_in o)) (snd w) a b g in
      ((with_derivs (fst w) (map fst m), m), e)
  end.

(** A history of calls in which exceptions may be caught. *)
Fixpoint dexec_all (fuel : nat) (w : world * metadata) (l : list dcall) : world * metadata :=
  match l with [] => w | c :: r => dexec_all fuel (fst (dexec fuel w c)) r end.
