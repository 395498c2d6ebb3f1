(** Model of csdl/sim/simulator_base.py: access to values by name. *)
From Verif Require Import PyBase NamesModel PromotionsModel HierModel.
Set Implicit Arguments.

Section Sim.
  Context {V : Type}.
  (** simulator_base.py:78-106.  The executable of the back end is a table from promoted names to
      values (that is what lines 135 and 141 use it for); the rest of the back end is not part of
      the repository. *)
  Record sim := Sim { sm_maps : maps; sm_exec : dict V; sm_iter : nat }.
  (** simulator_base.py:78-96, from a compiled representation *)
  Definition new_sim (m : model) (exec : dict V) : res sim :=
    do mp <- maps_of m; Ok (Sim mp exec 0).
  (** simulator_base.py:143-158 *)
  Definition sim_find (s : sim) (key : string) : res string :=
    if dmem key (fst (sm_maps s)) then Ok key
    else match dget (snd (sm_maps s)) key with Some k => Ok k | None => Err KeyError end.
  (** simulator_base.py:129-135; the flag says whether a warning is issued *)
  Definition sim_get (s : sim) (key : string) : bool * res V :=
    (sm_iter s <? 1, do k <- sim_find s key; match dget (sm_exec s) k with Some v => Ok v | None => Err KeyError end).
  (** simulator_base.py:137-141 *)
  Definition sim_set (s : sim) (key : string) (v : V) : sim * option exn :=
    match sim_find s key with
    | Ok k => (Sim (sm_maps s) (dset (sm_exec s) k v) (sm_iter s), None)
    | Err e => (s, Some e)
    end.
  (** A sequence of assignments; those that raise are caught by the user. *)
  Fixpoint sim_sets (s : sim) (l : list (string * V)) : sim :=
    match l with [] => s | (k, v) :: r => sim_sets (fst (sim_set s k v)) r end.
End Sim.
