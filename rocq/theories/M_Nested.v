(** A team of MPI processes and nested parallel execution: NestedParallelizationControllerMPI (abcpy/backends/mpi.py 14-87),
    BackendMPIWorker (408-478), the part of BackendMPILeader that talks to its team (495-568, 578-585), and
    [simulate] with a controller (abcpy/graphtools.py 396-421).

    One leader (rank 0 of the model communicator) and N workers (ranks 1..N).  Collective operations of a communicator are
    matched by their position: the i-th collective call of every process belongs together.  A barrier is entered and left in
    two steps, and left only when all processes have entered it; a broadcast does not wait for the receivers.  If the calls at
    a position are of different kinds, the processes concerned wait for ever.
    Simplifications: the nested function is one local step (its own communication is assumed to be balanced); pickling and
    unpickling is the identity on messages, [dumps] tells if it is possible; the value of OP_BROADCAST, which comes from the
    scheduler through the world communicator, is a local step; the controller is destroyed when run_function ends, also after
    an exception (reference counting of CPython). *)
From Verif Require Import M_Base.

Section Team.
Variables Fn Args Kw Val Pk Item : Type.
(** the call of a nested function on a rank, None if it raises; is the call picklable *)
Variable exec : nat -> Fn -> Args -> Kw -> option Val.
Variable dumps : Fn -> Args -> Kw -> bool.
(** a map function running on the leader: it ends (with a result or an exception), or calls npc.run_nested and goes on with
    the result; an exception of run_nested is not handled by it *)
Inductive tree := Ends | Nested (f : Fn) (a : Args) (k : Kw) (cont : Val -> tree).
Variable func : Pk -> Item -> tree.
(** commands for the team: one item of a map; broadcast and deletion of a value; finish *)
Inductive command := Map (p : Pk) (d : Item) | Broadcast (id : nat) | Delete (id : nat) | Finish.

Inductive opcode := OpMap | OpBroadcast (id : nat) | OpFinish.
Inductive msg := MOp (o : opcode) | MPk (p : Pk) | MItem (d : Item) | MLoop (b : bool) | MFn (f : Fn) | MArgs (a : Args) | MKw (k : Kw).
(** what a process does: broadcast, barrier, call of a nested function, reception of a value from the scheduler *)
Inductive act := Send (m : msg) | Bar | Run (f : Fn) (a : Args) (k : Kw) | World (id : nat).

(* mpi.py:80-87  __del__ on rank 0 *)
Definition stop : list act := [Bar; Send (MLoop false)].
(* mpi.py:67-78, 30-63  run_nested and nested_execution on rank 0; 431-436  run_function *)
Fixpoint leader_tree (t : tree) : list act :=
  match t with
  | Ends => stop
  | Nested f a k cont =>
      [Bar; Send (MLoop true)] ++
      if dumps f a k then [Send (MFn f); Send (MArgs a); Send (MKw k); Bar; Run f a k] ++
        match exec 0 f a k with
        | Some v => Bar :: leader_tree (cont v)
        | None => stop
        end
      else stop
  end.
(* mpi.py:423-442  run_function on the leader; without workers there is no controller *)
Definition leader_item (N : nat) (p : Pk) (d : Item) : list act := match N with O => [] | _ => leader_tree (func p d) end.
(* mpi.py:495-568, 578-585  __leader_run *)
Fixpoint leader_run (N : nat) (cs : list command) : list act :=
  match cs with
  | [] => []
  | Map p d :: cs' => [Send (MOp OpMap); Send (MPk p); Send (MItem d)] ++ leader_item N p d ++ leader_run N cs'
  | Broadcast id :: cs' => [Send (MOp (OpBroadcast id)); World id] ++ leader_run N cs'
  | Delete _ :: cs' => leader_run N cs'
  | Finish :: _ => [Send (MOp OpFinish)]
  end.

(** states of a worker: waiting for a command, a function, an item; in nested_execution: at the first barrier, waiting for
    loop_workers, function, arguments, keyword arguments; at the second barrier; running; at the last barrier *)
Inductive wst := WOp | WPk | WItem (p : Pk) | WTop | WLoop | WFn | WArgs (f : Fn) | WKw (f : Fn) (a : Args) | WReady (f : Fn) (a : Args) (k : Kw)
  | WRun (f : Fn) (a : Args) (k : Kw) | WEnd | WWorld (id : nat) | WQuit | WCrash.
Inductive need := Receives | Waits | Calls (f : Fn) (a : Args) (k : Kw) | Gets (id : nat) | Halted.
Definition needs (s : wst) : need :=
  match s with
  | WOp | WPk | WItem _ | WLoop | WFn | WArgs _ | WKw _ _ => Receives
  | WTop | WReady _ _ _ | WEnd => Waits
  | WRun f a k => Calls f a k
  | WWorld id => Gets id
  | WQuit | WCrash => Halted
  end.
(* mpi.py:444-462 __worker_run; 30-54 nested_execution, received data *)
Definition receive (s : wst) (m : msg) : wst :=
  match s, m with
  | WOp, MOp OpMap => WPk
  | WOp, MOp (OpBroadcast id) => WWorld id
  | WOp, MOp OpFinish => WQuit
  | WPk, MPk p => WItem p
  | WItem _, MItem _ => WTop
  | WLoop, MLoop true => WFn
  | WLoop, MLoop false => WOp
  | WFn, MFn f => WArgs f
  | WArgs f, MArgs a => WKw f a
  | WKw f a, MKw k => WReady f a k
  | _, _ => WCrash
  end.
(* mpi.py:34, 58, 61-63  after a barrier *)
Definition after_barrier (s : wst) : wst :=
  match s with WTop => WLoop | WReady f a k => WRun f a k | WEnd => WTop | _ => s end.
(* mpi.py:59-60; an exception leaves the constructor of the controller and run_function (439-442) *)
Definition after_local (rank : nat) (s : wst) : wst :=
  match s with
  | WRun f a k => match exec rank f a k with Some _ => WEnd | None => WOp end
  | WWorld _ => WOp
  | _ => s
  end.

(** * Executions *)
Inductive entry := EBar | EVal (m : msg).
Inductive event := ERun (f : Fn) (a : Args) (k : Kw) | EWorld (id : nat).
(** acts to do, collective calls so far, inside a barrier, local events so far *)
Record leader := mkl { la : list act; lh : list entry; lin : bool; lev : list event }.
(** state, collective calls so far (true: a barrier), inside a barrier, local events so far *)
Record worker := mkw { ws : wst; wh : list bool; win : bool; wev : list event }.
Definition config := (leader * (nat -> worker))%type.
Definition set (W : nat -> worker) (i : nat) (w : worker) : nat -> worker := fun r => if r =? i then w else W r.

Inductive step (N : nat) : config -> config -> Prop :=
| leader_sends l W m r : la l = Send m :: r -> lin l = false -> step N (l, W) (mkl r (lh l ++ [EVal m]) false (lev l), W)
| leader_enters l W r : la l = Bar :: r -> lin l = false -> step N (l, W) (mkl r (lh l ++ [EBar]) true (lev l), W)
| leader_leaves l W : lin l = true -> (forall i, 1 <= i <= N -> nth_error (wh (W i)) (length (lh l) - 1) = Some true) ->
    step N (l, W) (mkl (la l) (lh l) false (lev l), W)
| leader_runs l W f a k r : la l = Run f a k :: r -> lin l = false -> step N (l, W) (mkl r (lh l) false (lev l ++ [ERun f a k]), W)
| leader_gets l W id r : la l = World id :: r -> lin l = false -> step N (l, W) (mkl r (lh l) false (lev l ++ [EWorld id]), W)
| worker_receives l W i m : 1 <= i <= N -> win (W i) = false -> needs (ws (W i)) = Receives ->
    nth_error (lh l) (length (wh (W i))) = Some (EVal m) ->
    step N (l, W) (l, set W i (mkw (receive (ws (W i)) m) (wh (W i) ++ [false]) false (wev (W i))))
| worker_enters l W i : 1 <= i <= N -> win (W i) = false -> needs (ws (W i)) = Waits ->
    step N (l, W) (l, set W i (mkw (ws (W i)) (wh (W i) ++ [true]) true (wev (W i))))
| worker_leaves l W i : 1 <= i <= N -> win (W i) = true -> nth_error (lh l) (length (wh (W i)) - 1) = Some EBar ->
    (forall i', 1 <= i' <= N -> nth_error (wh (W i')) (length (wh (W i)) - 1) = Some true) ->
    step N (l, W) (l, set W i (mkw (after_barrier (ws (W i))) (wh (W i)) false (wev (W i))))
| worker_runs l W i f a k : 1 <= i <= N -> win (W i) = false -> needs (ws (W i)) = Calls f a k ->
    step N (l, W) (l, set W i (mkw (after_local i (ws (W i))) (wh (W i)) false (wev (W i) ++ [ERun f a k])))
| worker_gets l W i id : 1 <= i <= N -> win (W i) = false -> needs (ws (W i)) = Gets id ->
    step N (l, W) (l, set W i (mkw (after_local i (ws (W i))) (wh (W i)) false (wev (W i) ++ [EWorld id]))).

Definition start (N : nat) (cs : list command) : config := (mkl (leader_run N cs) [] false [], fun _ => mkw WOp [] false []).
Inductive reach (N : nat) (c0 : config) : config -> Prop :=
| here : reach N c0 c0
| next c c' : reach N c0 c -> step N c c' -> reach N c0 c'.

(** broadcast values a process holds: the leader drops deleted ones (559-561), workers are not told *)
Fixpoint leader_store (cs : list command) (store : list nat) : list nat :=
  match cs with
  | [] => store
  | Broadcast id :: cs' => leader_store cs' (if existsb (Nat.eqb id) store then store else store ++ [id])
  | Delete id :: cs' => leader_store cs' (filter (fun x => negb (x =? id)) store)
  | Map _ _ :: cs' => leader_store cs' store
  | Finish :: _ => store
  end.
Fixpoint worker_store (evs : list event) (store : list nat) : list nat :=
  match evs with
  | [] => store
  | EWorld id :: evs' => worker_store evs' (if existsb (Nat.eqb id) store then store else store ++ [id])
  | ERun _ _ _ :: evs' => worker_store evs' store
  end.
End Team.
Arguments Ends {Fn Args Kw Val}.
Arguments Nested {Fn Args Kw Val} f a k cont.
Arguments Map {Pk Item} p d.
Arguments Broadcast {Pk Item} id.
Arguments Delete {Pk Item} id.
Arguments Finish {Pk Item}.
Arguments Send {Fn Args Kw Pk Item} m.
Arguments Bar {Fn Args Kw Pk Item}.
Arguments Run {Fn Args Kw Pk Item} f a k.
Arguments World {Fn Args Kw Pk Item} id.
Arguments MOp {Fn Args Kw Pk Item} o.
Arguments MPk {Fn Args Kw Pk Item} p.
Arguments MItem {Fn Args Kw Pk Item} d.
Arguments MLoop {Fn Args Kw Pk Item} b.
Arguments MFn {Fn Args Kw Pk Item} f.
Arguments MArgs {Fn Args Kw Pk Item} a.
Arguments MKw {Fn Args Kw Pk Item} k.
Arguments WOp {Fn Args Kw Pk}.
Arguments WPk {Fn Args Kw Pk}.
Arguments WItem {Fn Args Kw Pk} p.
Arguments WTop {Fn Args Kw Pk}.
Arguments WLoop {Fn Args Kw Pk}.
Arguments WFn {Fn Args Kw Pk}.
Arguments WArgs {Fn Args Kw Pk} f.
Arguments WKw {Fn Args Kw Pk} f a.
Arguments WReady {Fn Args Kw Pk} f a k.
Arguments WRun {Fn Args Kw Pk} f a k.
Arguments WEnd {Fn Args Kw Pk}.
Arguments WWorld {Fn Args Kw Pk} id.
Arguments WQuit {Fn Args Kw Pk}.
Arguments WCrash {Fn Args Kw Pk}.
Arguments Receives {Fn Args Kw}.
Arguments Waits {Fn Args Kw}.
Arguments Calls {Fn Args Kw} f a k.
Arguments Gets {Fn Args Kw} id.
Arguments Halted {Fn Args Kw}.
Arguments needs {Fn Args Kw Pk} s.
Arguments receive {Fn Args Kw Pk Item} s m.
Arguments after_barrier {Fn Args Kw Pk} s.
Arguments after_local {Fn Args Kw Val Pk} exec rank s.
Arguments stop {Fn Args Kw Pk Item}.
Arguments leader_tree {Fn Args Kw Val Pk Item} exec dumps t.
Arguments leader_item {Fn Args Kw Val Pk Item} exec dumps func N p d.
Arguments leader_run {Fn Args Kw Val Pk Item} exec dumps func N cs.
Arguments EBar {Fn Args Kw Pk Item}.
Arguments EVal {Fn Args Kw Pk Item} m.
Arguments ERun {Fn Args Kw} f a k.
Arguments EWorld {Fn Args Kw} id.
Arguments mkl {Fn Args Kw Pk Item} la lh lin lev.
Arguments la {Fn Args Kw Pk Item} l.
Arguments lh {Fn Args Kw Pk Item} l.
Arguments lin {Fn Args Kw Pk Item} l.
Arguments lev {Fn Args Kw Pk Item} l.
Arguments mkw {Fn Args Kw Pk} ws wh win wev.
Arguments ws {Fn Args Kw Pk} w.
Arguments wh {Fn Args Kw Pk} w.
Arguments win {Fn Args Kw Pk} w.
Arguments wev {Fn Args Kw Pk} w.
Arguments set {Fn Args Kw Pk} W i w _.
Arguments step {Fn Args Kw Val Pk Item} exec N _ _.
Arguments start {Fn Args Kw Val Pk Item} exec dumps func N cs.
Arguments reach {Fn Args Kw Val Pk Item} exec N c0 _.
Arguments leader_store {Pk Item} cs store.
Arguments worker_store {Fn Args Kw} evs store.

(** * simulate with a controller *)
Section Simulate.
Variables Model Rng Data : Type.
(** are the inputs of the model accepted; forward_simulate, which changes the generator it is given *)
Variable compatible : Model -> bool.
Variable forward : Model -> nat -> Rng -> Rng * Data.
(* graphtools.py:396-421.  [size] is the size of the communicator of the controller.  run_nested works on unpickled copies of
   its arguments, also on the leader (mpi.py 42-54, 59): the generator of the caller is not changed. *)
Fixpoint simulate (size : nat) (models : list Model) (n : nat) (g : Rng) : Rng * option (list Data) :=
  match models with
  | [] => (g, Some [])
  | m :: models' =>
      if compatible m then
        let (g1, y) := if 1 <? size then (g, snd (forward m n g)) else forward m n g in
        match simulate size models' n g1 with
        | (g2, Some ys) => (g2, Some (y :: ys))
        | (g2, None) => (g2, None)
        end
      else (g, None)
  end.
(* inferences.py:3852-3861  the loop of the r-hit kernel: simulate from the same parameter until there are [hits] simulations
   closer than epsilon; the positions of the hits and the number of simulations *)
Variable close : option (list Data) -> bool.
Fixpoint hit_loop (fuel : nat) (size : nat) (models : list Model) (n hits : nat) (g : Rng) (acc : list nat) (N_old : nat) : res (Rng * list nat * nat) :=
  match fuel with
  | O => Err OutOfFuel
  | S fuel' =>
      if length acc <? hits then
        let (g1, y) := simulate size models n g in
        hit_loop fuel' size models n hits g1 (if close y then acc ++ [N_old] else acc) (N_old + 1)
      else Ok (g, acc, N_old)
  end.
End Simulate.
Arguments simulate {Model Rng Data} compatible forward size models n g.
Arguments hit_loop {Model Rng Data} compatible forward close fuel size models n hits g acc N_old.
