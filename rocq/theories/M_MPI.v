(** Model of the MPI backend (abcpy/backends/mpi.py) as an asynchronous transition system.

    One scheduler process and [N] leader processes (process_per_model = 1, so a team is its leader; nested parallel
    execution inside a team is not modelled).  Collective operations on the scheduler communicator are received by
    every leader in the order the scheduler issued them: each leader has a FIFO [cq] of commands, so a slow leader
    may lag arbitrarily far behind.  Point-to-point requests arrive at the scheduler in any order. *)
From Verif Require Import M_Base.

Section MPI.
(** Python objects; [isexc v]: isinstance(v, Exception).  [rewrap e]: the object type(e)(msg + str(e)) built at 439,
    None if the exception class cannot be built from one string (the constructor raises and the process dies). *)
Variable V : Type.
Variable isexc : V -> bool.
Variable rewrap : V -> option V.

(** the outcome of calling a user function *)
Inductive callres := Returned (v : V) | Raised (e : V).
Definition func := V -> callres.

(* mpi.py:423-442  run_function (model size 1): an exception becomes a value *)
Definition run_function (f : func) (x : V) : option V :=
  match f x with
  | Returned v => Some v
  | Raised e => rewrap e
  end.

(** What the user program calls on the scheduler.  Objects are referred to by the identifier they were given. *)
Inductive cmd :=
| CPar (l : list V)               (* parallelize *)
| CMap (f : func) (src : nat)     (* map *)
| CCollect (id : nat)             (* collect *)
| CBcast (v : V)                  (* broadcast *)
| CDelP (id : nat)                (* a PDSMPI object dies: delete_remote_pds *)
| CDelB (id : nat).               (* a BDSMPI object dies: delete_remote_bds *)
(** what the program gets back *)
Inductive out :=
| OPds (id : nat) | OBds (id : nat) | OList (l : list V) | ORaise (e : V) | ODone.

(* mpi.py:124-163  __command_teams: the packets.  Simplification: the value of a broadcast (355, on the world
   communicator) travels with its command; both are received in issue order *)
Inductive msg :=
| MPar (id : nat) | MMap (src dst : nat) (f : func) | MCollect (id : nat)
| MBcast (id : nat) (v : V) | MDelP (id : nat) | MDelB (id : nat).

(** Leader's point in its loop: waiting for a command; in map, about to ask / waiting for an answer; dead after an
    uncaught exception. *)
Inductive lphase :=
| LIdle
| LAsk (src dst : nat) (f : func) (rdd : list (nat * V))
| LWait (src dst : nat) (f : func) (rdd : list (nat * V))
| LDead.
(** Scheduler's point: between two calls; in orchestrate_map with the pending items and the finished ranks; waiting
    in gather; dead after an uncaught exception. *)
Inductive sphase :=
| SNext
| SMap (src dst : nat) (pend : list V) (done : nat -> bool)
| SGather (id : nat)
| SDead.

Record cfg := mkcfg {
  prog : list cmd;                       (* calls still to come *)
  sph : sphase;
  npds : nat; nbds : nat;                (* __current_pds_id, __current_bds_id *)
  spds : nat -> option (list V);         (* scheduler's pds_store *)
  sbds : nat -> option V;                (* scheduler's bds_store *)
  outs : list out;                       (* answers so far *)
  rq : list (nat * nat);                 (* requests in flight: (rank, pds_id) *)
  cq : nat -> list msg;                  (* commands in flight to each leader *)
  dq : nat -> list (option (nat * V));   (* answers in flight to each leader; None is the sentinel *)
  gq : nat -> list (list (nat * V));     (* gather contributions *)
  lp : nat -> lphase;
  lpds : nat -> nat -> option (option (list (nat * V)));   (* leader's pds_store; Some None is the None of 528 *)
  lbds : nat -> nat -> option V;         (* leader's bds_store *)
  log : list (nat * nat) }.              (* ghost: (result id, tag) of every evaluation *)

Variable N : nat.   (* number of leaders; ranks 0..N-1 here *)

Definition bcast_cmd (q : nat -> list msg) (m : msg) : nat -> list msg := fun i => q i ++ [m].

(* mpi.py:194-224, 274-306, 308-317, 345-358, 360-389  the part of each call up to its first blocking point.
   Simplification: finalized is never set. *)
Definition issue (c : cfg) : option cfg :=
  match sph c, prog c with
  | SNext, k :: p =>
      match k with
      | CPar l =>
          let id := S (npds c) in
          Some (mkcfg p SNext id (nbds c) (upd (spds c) id (Some l)) (sbds c) (outs c ++ [OPds id])
                      (rq c) (bcast_cmd (cq c) (MPar id)) (dq c) (gq c) (lp c) (lpds c) (lbds c) (log c))
      | CMap f src =>
          let id := S (npds c) in
          let q := bcast_cmd (cq c) (MMap src id f) in
          match spds c src with       (* 241: self.pds_store[pds_id] *)
          | None => Some (mkcfg p SDead id (nbds c) (spds c) (sbds c) (outs c) (rq c) q (dq c) (gq c) (lp c) (lpds c) (lbds c) (log c))
          | Some l => Some (mkcfg p (SMap src id l (fun _ => false)) id (nbds c) (spds c) (sbds c) (outs c)
                                  (rq c) q (dq c) (gq c) (lp c) (lpds c) (lbds c) (log c))
          end
      | CCollect id =>
          Some (mkcfg p (SGather id) (npds c) (nbds c) (spds c) (sbds c) (outs c)
                      (rq c) (bcast_cmd (cq c) (MCollect id)) (dq c) (gq c) (lp c) (lpds c) (lbds c) (log c))
      | CBcast v =>
          let id := S (nbds c) in
          Some (mkcfg p SNext (npds c) id (spds c) (upd (sbds c) id (Some v)) (outs c ++ [OBds id])
                      (rq c) (bcast_cmd (cq c) (MBcast id v)) (dq c) (gq c) (lp c) (lpds c) (lbds c) (log c))
      | CDelP id =>
          Some (mkcfg p SNext (npds c) (nbds c) (spds c) (sbds c) (outs c ++ [ODone])
                      (rq c) (bcast_cmd (cq c) (MDelP id)) (dq c) (gq c) (lp c) (lpds c) (lbds c) (log c))
      | CDelB id =>
          (* 388: del backend.bds_store[bds_id].  A KeyError raised inside a destructor would only be printed; an object dies once and its identifier is then in the
             store, so the error matters only to a program that calls delete_remote_bds itself and gets the exception. *)
          match sbds c id with
          | None => Some (mkcfg p SDead (npds c) (nbds c) (spds c) (sbds c) (outs c) (rq c) (cq c) (dq c) (gq c) (lp c) (lpds c) (lbds c) (log c))
          | Some _ => Some (mkcfg p SNext (npds c) (nbds c) (spds c) (upd (sbds c) id None) (outs c ++ [ODone])
                      (rq c) (bcast_cmd (cq c) (MDelB id)) (dq c) (gq c) (lp c) (lpds c) (lbds c) (log c))
          end
      end
  | _, _ => None
  end.

(* mpi.py:244-272  one turn of the while loop of orchestrate_map: the request (r, pid) is received, [rest] are the
   other requests in flight.  chunk_size is 1 (BackendMPI.__init__ 700 passes none). *)
Definition serve (c : cfg) (r pid : nat) (rest : list (nat * nat)) : option cfg :=
  match sph c with
  | SMap src dst pend done =>
      if Nat.eqb pid src then
        match rev pend with
        | [] => Some (mkcfg (prog c) (SMap src dst pend (upd done r true)) (npds c) (nbds c) (spds c) (sbds c) (outs c)
                            rest (cq c) (upd (dq c) r (dq c r ++ [None])) (gq c) (lp c) (lpds c) (lbds c) (log c))
        | x :: pr => Some (mkcfg (prog c) (SMap src dst (rev pr) done) (npds c) (nbds c) (spds c) (sbds c) (outs c)
                            rest (cq c) (upd (dq c) r (dq c r ++ [Some (length pend, x)])) (gq c) (lp c) (lpds c) (lbds c) (log c))
        end
      else Some (mkcfg (prog c) (sph c) (npds c) (nbds c) (spds c) (sbds c) (outs c)
                       rest (cq c) (dq c) (gq c) (lp c) (lpds c) (lbds c) (log c))   (* stale request ignored, 252-255 *)
  | _ => None
  end.

(* mpi.py:243, 302-306  the loop ends when every rank is done; map returns *)
Definition map_end (c : cfg) : option cfg :=
  match sph c with
  | SMap src dst pend done =>
      if forallb done (seq 0 N) then
        Some (mkcfg (prog c) SNext (npds c) (nbds c) (spds c) (sbds c) (outs c ++ [OPds dst])
                    (rq c) (cq c) (dq c) (gq c) (lp c) (lpds c) (lbds c) (log c))
      else None
  | _ => None
  end.

(** insertion sort by tag: np.argsort (tags are distinct) *)
Fixpoint ins (p : nat * V) (l : list (nat * V)) : list (nat * V) :=
  match l with
  | [] => [p]
  | q :: l' => if fst p <=? fst q then p :: l else q :: ins p l'
  end.
Fixpoint isort (l : list (nat * V)) : list (nat * V) :=
  match l with [] => [] | p :: l' => ins p (isort l') end.
(* mpi.py:326-343  collect after the gather: the first exception met is raised, otherwise sort by tag *)
Definition collect_result (all_data : list (nat * V)) : out :=
  match find (fun p => isexc (snd p)) all_data with
  | Some p => ORaise (snd p)
  | None => OList (map snd (isort all_data))
  end.
Definition tl1 {A} (l : list A) : list A := match l with [] => [] | _ :: l' => l' end.
(* mpi.py:320-343  gather completes once every rank has contributed; the scheduler's own contribution is [] *)
Definition gather_end (c : cfg) : option cfg :=
  match sph c with
  | SGather id =>
      if forallb (fun i => match gq c i with [] => false | _ => true end) (seq 0 N) then
        let data := concat (map (fun i => hd [] (gq c i)) (seq 0 N)) in
        Some (mkcfg (prog c) SNext (npds c) (nbds c) (spds c) (sbds c) (outs c ++ [collect_result data])
                    (rq c) (cq c) (dq c) (fun i => tl1 (gq c i)) (lp c) (lpds c) (lbds c) (log c))
      else None
  | _ => None
  end.

Definition set_lp (c : cfg) (i : nat) (p : lphase) : cfg :=
  mkcfg (prog c) (sph c) (npds c) (nbds c) (spds c) (sbds c) (outs c) (rq c) (cq c) (dq c) (gq c) (upd (lp c) i p)
        (lpds c) (lbds c) (log c).

(* mpi.py:519-568  one turn of __leader_run: take the next command *)
Definition ltake (c : cfg) (i : nat) : option cfg :=
  match lp c i, cq c i with
  | LIdle, m :: q =>
      let c1 := mkcfg (prog c) (sph c) (npds c) (nbds c) (spds c) (sbds c) (outs c) (rq c) (upd (cq c) i q) (dq c)
                      (gq c) (lp c) (lpds c) (lbds c) (log c) in
      let wp st := mkcfg (prog c) (sph c) (npds c) (nbds c) (spds c) (sbds c) (outs c) (rq c) (upd (cq c) i q) (dq c)
                      (gq c) (lp c) (upd (lpds c) i st) (lbds c) (log c) in
      let wb st := mkcfg (prog c) (sph c) (npds c) (nbds c) (spds c) (sbds c) (outs c) (rq c) (upd (cq c) i q) (dq c)
                      (gq c) (lp c) (lpds c) (upd (lbds c) i st) (log c) in
      Some match m with
           | MPar id => wp (upd (lpds c i) id (Some None))                        (* 523-528 *)
           | MMap src dst f => set_lp c1 i (LAsk src dst f [])                    (* 531-541 *)
           | MCollect id =>                                                       (* 549-555 *)
               match lpds c i id with
               | Some (Some d) => mkcfg (prog c) (sph c) (npds c) (nbds c) (spds c) (sbds c) (outs c) (rq c) (upd (cq c) i q)
                                        (dq c) (upd (gq c) i (gq c i ++ [d])) (lp c) (lpds c) (lbds c) (log c)
               | _ => set_lp c1 i LDead      (* KeyError / None has no python_list *)
               end
           | MBcast id v => wb (upd (lbds c i) id (Some v))                       (* 543-547, 462-467 *)
           | MDelP id => match lpds c i id with                                   (* 557-559 *)
                         | Some _ => wp (upd (lpds c i) id None)
                         | None => set_lp c1 i LDead
                         end
           | MDelB id => match lbds c i id with                                   (* 561-563 *)
                         | Some _ => wb (upd (lbds c i) id None)
                         | None => set_lp c1 i LDead
                         end
           end
  | _, _ => None
  end.
(* mpi.py:614  the sending half of sendrecv *)
Definition lask (c : cfg) (i : nat) : option cfg :=
  match lp c i with
  | LAsk src dst f rdd =>
      Some (mkcfg (prog c) (sph c) (npds c) (nbds c) (spds c) (sbds c) (outs c) (rq c ++ [(i, src)]) (cq c) (dq c) (gq c)
                  (upd (lp c) i (LWait src dst f rdd)) (lpds c) (lbds c) (log c))
  | _ => None
  end.
(* mpi.py:614-627  the receiving half: the sentinel ends map (and 541 stores the result), otherwise run the function *)
Definition lrecv (c : cfg) (i : nat) : option cfg :=
  match lp c i, dq c i with
  | LWait src dst f rdd, None :: d =>
      Some (mkcfg (prog c) (sph c) (npds c) (nbds c) (spds c) (sbds c) (outs c) (rq c) (cq c) (upd (dq c) i d) (gq c)
                  (upd (lp c) i LIdle) (upd (lpds c) i (upd (lpds c i) dst (Some (Some rdd)))) (lbds c) (log c))
  | LWait src dst f rdd, Some (tag, x) :: d =>
      Some (mkcfg (prog c) (sph c) (npds c) (nbds c) (spds c) (sbds c) (outs c) (rq c) (cq c) (upd (dq c) i d) (gq c)
                  (upd (lp c) i (match run_function f x with
                                 | Some r => LAsk src dst f (rdd ++ [(tag, r)])
                                 | None => LDead
                                 end)) (lpds c) (lbds c) (log c ++ [(dst, tag)]))
  | _, _ => None
  end.

(** One step of any process; the scheduler may receive any request in flight (ANY_SOURCE). *)
Inductive step : cfg -> cfg -> Prop :=
| st_issue c c' : issue c = Some c' -> step c c'
| st_serve c c' a b r pid : rq c = a ++ (r, pid) :: b -> serve c r pid (a ++ b) = Some c' -> step c c'
| st_map_end c c' : map_end c = Some c' -> step c c'
| st_gather c c' : gather_end c = Some c' -> step c c'
| st_take c c' i : i < N -> ltake c i = Some c' -> step c c'
| st_ask c c' i : i < N -> lask c i = Some c' -> step c c'
| st_recv c c' i : i < N -> lrecv c i = Some c' -> step c c'.

Inductive steps : cfg -> cfg -> Prop :=
| steps_refl c : steps c c
| steps_step c c1 c2 : steps c c1 -> step c1 c2 -> steps c c2.

(* mpi.py:102-122, 517, 661-669  freshly built backends *)
Definition init (p : list cmd) : cfg :=
  mkcfg p SNext 0 0 (fun _ => None) (fun _ => None) [] [] (fun _ => []) (fun _ => []) (fun _ => [])
        (fun _ => LIdle) (fun _ _ => None) (fun _ _ => None) [].

End MPI.

Arguments Returned {V} v.
Arguments Raised {V} e.
Arguments CPar {V} l.
Arguments CMap {V} f src.
Arguments CCollect {V} id.
Arguments CBcast {V} v.
Arguments CDelP {V} id.
Arguments CDelB {V} id.
Arguments OPds {V} id.
Arguments OBds {V} id.
Arguments OList {V} l.
Arguments ORaise {V} e.
Arguments ODone {V}.
Arguments MPar {V} id.
Arguments MMap {V} src dst f.
Arguments MCollect {V} id.
Arguments MBcast {V} id v.
Arguments MDelP {V} id.
Arguments MDelB {V} id.
Arguments LIdle {V}.
Arguments LAsk {V} src dst f rdd.
Arguments LWait {V} src dst f rdd.
Arguments LDead {V}.
Arguments SNext {V}.
Arguments SMap {V} src dst pend done.
Arguments SGather {V} id.
Arguments SDead {V}.
Arguments mkcfg {V}.
Arguments prog {V} _.
Arguments sph {V} _.
Arguments npds {V} _.
Arguments nbds {V} _.
Arguments spds {V} _ _.
Arguments sbds {V} _ _.
Arguments outs {V} _.
Arguments rq {V} _.
Arguments cq {V} _ _.
Arguments dq {V} _ _.
Arguments gq {V} _ _.
Arguments lp {V} _ _.
Arguments lpds {V} _ _ _.
Arguments lbds {V} _ _ _.
Arguments log {V} _.
Arguments run_function {V} rewrap f x.
Arguments init {V} p.
Arguments step {V} isexc rewrap N _ _.
Arguments steps {V} isexc rewrap N _ _.
Arguments issue {V} c.
Arguments serve {V} c r pid rest.
Arguments map_end {V} N c.
Arguments gather_end {V} isexc N c.
Arguments ltake {V} c i.
Arguments lask {V} c i.
Arguments lrecv {V} rewrap c i.
Arguments collect_result {V} isexc all_data.
Arguments isort {V} l.
Arguments ins {V} p l.
Arguments bcast_cmd {V} q m.
