(** Model of the communicator layout of the MPI backend (abcpy/backends/mpimanager.py) and of the initial state of the
    scheduler's map loop. *)
From Verif Require Import M_Base.
From Coq Require Import ZArith.

Definition memb (r : nat) (l : list nat) : bool := existsb (Nat.eqb r) l.

(* mpimanager.py:36-39  model colour: int((rank - #{i in scheduler ranks : i < rank}) / process_per_model + 1), 0 on
   scheduler ranks.  Simplification: the division is exact (floats are exact for these sizes). *)
Definition color (sched : list nat) (ppm : nat) (r : nat) : Z :=
  if memb r sched then 0%Z
  else let a := (Z.of_nat r - Z.of_nat (length (filter (fun i => Nat.ltb i r) sched)))%Z in
       Z.quot (a + Z.of_nat ppm) (Z.of_nat ppm).

(* mpimanager.py:40-42, 48-50  Split(colour, key = rank): position of r among the ranks of its colour *)
Definition split_rank (col : nat -> Z) (r : nat) : nat := length (filter (fun j => Z.eqb (col j) (col r)) (seq 0 r)).
Definition split_members (col : nat -> Z) (size : nat) (c : Z) : list nat := filter (fun j => Z.eqb (col j) c) (seq 0 size).

Definition model_rank (sched : list nat) (ppm r : nat) : nat := split_rank (color sched ppm) r.
(* mpimanager.py:45-48 *)
Definition scolor (sched : list nat) (ppm r : nat) : Z :=
  if (Z.eqb (color sched ppm r) 0 || (model_rank sched ppm r =? 0))%bool then 0%Z else 1%Z.
Definition scheduler_rank (sched : list nat) (ppm r : nat) : nat := split_rank (scolor sched ppm) r.
(** world ranks in the scheduler communicator, in the order of their rank there *)
Definition scheduler_members (sched : list nat) (ppm size : nat) : list nat := split_members (scolor sched ppm) size 0%Z.

(* mpimanager.py:52-64  the four flags *)
Record flags := mkflags { f_leader : bool; f_scheduler : bool; f_team : bool; f_worker : bool }.
Definition role (sched : list nat) (ppm r : nat) : flags :=
  if r =? 0 then mkflags false true false false
  else if model_rank sched ppm r =? 0 then mkflags true false true false
  else mkflags false false true true.

(* mpi.py:697-698 and the division of mpimanager.py:37: configurations refused *)
Inductive setup := Refused | Ready.
Definition configure (sched : list nat) (ppm size : nat) : setup :=
  if ppm =? 0 then Refused else if size <? 2 then Refused else Ready.

(* mpi.py:234-235  is_map_done at the start of orchestrate_map, indexed by rank in the scheduler communicator *)
Definition map_done0 (sched : list nat) (ppm size : nat) : list bool :=
  map (fun i => memb i sched) (seq 0 (length (scheduler_members sched ppm size))).

(* backends/__init__.py:4-17  the factory: which scheduler ranks and process count the manager is given, None if the
   constructor of mpi.BackendMPI (mpi.py:681) rejects the keyword (TypeError).  kwargs: the three keywords of interest. *)
Record kwargs := mkkw { kw_master : option (list nat); kw_sched : option (list nat); kw_ppm : option nat }.
Definition factory (k : kwargs) : option (list nat * nat) :=
  match kw_master k with
  | Some _ => None
  | None => Some ([0], match kw_ppm k with Some p => p | None => 1 end)
  end.
