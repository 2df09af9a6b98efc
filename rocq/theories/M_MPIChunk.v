(** Model of map in the MPI backend (abcpy/backends/mpi.py 226-272, 590-629) for any chunk_size (M_MPI: chunk_size = 1).
    One map of a function over a parallel data set by [N] leaders.  BackendMPI.__init__ (703) passes no chunk_size, so another value than 1 has to be assigned to the attribute. *)
From Verif Require Import M_Base.

Section Chunk.
Variables V W : Type.
(** what run_function returns for an item; exceptions are values (M_MPI.run_function) *)
Variable f : V -> W.
Variable chunk_size N : nat.

(* 269-272: for i in range(chunk_size): the chunk grows by the item popped and is sent, in every turn.  Result: the chunks sent, and the items left, None after the
   IndexError of pop on an empty list.  [items]: the pending list, last item first. *)
Fixpoint pops (k i n : nat) (items : list V) (chunk : list (nat * V)) : list (list (nat * V)) * option (list V) :=
  match k with
  | 0 => ([], Some items)
  | S k' => match items with
            | [] => ([], None)
            | x :: items' =>
                let chunk' := chunk ++ [(n - i, x)] in
                let '(sent, remaining) := pops k' (S i) n items' chunk' in (chunk' :: sent, remaining)
            end
  end.

(** A leader asks, waits for an answer, or has left the loop *)
Inductive phase := Ask | Wait | Stop.
(** [pend]: as above; [failed]: the IndexError; [done]: is_map_done; [reqs]: requests in flight; [queue]: messages in flight to each leader, None is the sentinel;
    [rdd]: results of each leader *)
Record mst := mkmst { pend : list V; failed : bool; done : nat -> bool; reqs : list nat; queue : nat -> list (option (list (nat * V))); ph : nat -> phase; rdd : nat -> list (nat * W) }.

(* 615  the sending half of sendrecv *)
Definition ask (s : mst) (i : nat) : option mst :=
  match ph s i with Ask => Some (mkmst (pend s) (failed s) (done s) (reqs s ++ [i]) (queue s) (upd (ph s) i Wait) (rdd s)) | _ => None end.
(* 615-625  the receiving half, and the function on every item of the chunk *)
Definition receive (s : mst) (i : nat) : option mst :=
  match ph s i, queue s i with
  | Wait, None :: t => Some (mkmst (pend s) (failed s) (done s) (reqs s) (upd (queue s) i t) (upd (ph s) i Stop) (rdd s))
  | Wait, Some chunk :: t =>
      Some (mkmst (pend s) (failed s) (done s) (reqs s) (upd (queue s) i t) (upd (ph s) i Ask) (upd (rdd s) i (rdd s i ++ map (fun p => (fst p, f (snd p))) chunk)))
  | _, _ => None
  end.
(* 243-272  a turn of the scheduler's loop: the request of [r] is received, [rest] are the others in flight *)
Definition serve (s : mst) (r : nat) (rest : list nat) : option mst :=
  if failed s || forallb (done s) (seq 0 N) then None else
  match pend s with
  | [] => Some (mkmst [] false (upd (done s) r true) rest (upd (queue s) r (queue s r ++ [None])) (ph s) (rdd s))
  | items =>
      let '(sent, remaining) := pops chunk_size 0 (length items) items [] in
      Some (mkmst (match remaining with Some l => l | None => [] end) (match remaining with Some _ => false | None => true end) (done s) rest
                  (upd (queue s) r (queue s r ++ map Some sent)) (ph s) (rdd s))
  end.
(** Any process may take the next step *)
Inductive step (s : mst) : mst -> Prop :=
| s_ask s' i : i < N -> ask s i = Some s' -> step s s'
| s_receive s' i : i < N -> receive s i = Some s' -> step s s'
| s_serve s' a r b : reqs s = a ++ r :: b -> serve s r (a ++ b) = Some s' -> step s s'.
Inductive run (l : list V) : mst -> Prop :=
| run0 : run l (mkmst (rev l) false (fun _ => false) [] (fun _ => []) (fun _ => Ask) (fun _ => []))
| run1 s s' : run l s -> step s s' -> run l s'.
(* 328-340: what collect gathers once every leader has left the map *)
Definition gathered (s : mst) : list (nat * W) := concat (map (rdd s) (seq 0 N)).
End Chunk.
Arguments pend {V W} _.
Arguments failed {V W} _.
Arguments done {V W} _ _.
Arguments reqs {V W} _.
Arguments queue {V W} _ _.
Arguments ph {V W} _ _.
Arguments rdd {V W} _ _.
Arguments mkmst {V W} _ _ _ _ _ _ _.
Arguments pops {V} k i n items chunk.
Arguments run {V W} f chunk_size N l _.
Arguments gathered {V W} N s.
