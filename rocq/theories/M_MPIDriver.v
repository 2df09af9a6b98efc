(** A driver (a program that uses a backend as in M_Spark) on the MPI backend of M_MPI.  The driver runs on the scheduler; each of its calls is made when the previous
    one has returned, and what it does next depends on the answers.
    Simplifications: the functions sent with a map hold the values of the broadcast data sets (the leaders look them up in their store, which is the scheduler's whenever
    they hold an item: C11_broadcast_seen); a data set or broadcast data set dies when the name of the driver it is bound to is bound again (reference counting). *)
From Verif Require Import M_Base M_Journal M_Spark M_MPI.

Section Driver.
Variables X St : Type.
(** python objects that travel: elements, lists, exceptions *)
Inductive pyv := Elem (x : X) | Lst (l : list X) | Exc (e : pyerr).
Definition isexc (v : pyv) : bool := match v with Exc _ => true | _ => false end.
(* mpi.py 437-439: type(e)(msg + str(e)); the exceptions considered here can be built from one string *)
Definition rewrap (v : pyv) : option pyv := Some v.
(** cloudpickle.dumps of self (mpi.py 142-147), and what loads gives back *)
Variable dumps : St -> res St.
Notation task := (task X St).
Notation dcmd := (M_Spark.cmd X St).
Notation mcmd := (M_MPI.cmd pyv).
Notation out := (M_MPI.out pyv).

(* mpi.py 423-442: the function is unpickled for every item, with its own copy of self *)
Definition remote (f : task) (e : env X) (c : St) : func pyv :=
  fun v => match v with Elem x => match snd (f e x c) with Ok y => Returned (Elem y) | Err er => Raised (Exc er) end | _ => Raised (Exc TypeError) end.

(** lists of the driver, identifiers of its data sets, identifiers and values of its broadcast data sets, its object *)
Record drv := mkv { v_var : nat -> option (list X); v_pds : nat -> option nat; v_bds : nat -> option (nat * list X); v_self : St }.
Definition v_env (v : drv) : env X := fun b => option_map snd (v_bds v b).
(** the next thing a driver does, given all answers so far *)
Inductive does := Calls (k : mcmd) | Finished (v : drv) | Failed (e : pyerr) | Broken.
(** a name is bound again: the object it was bound to is deleted (mpi.py 735-744, 762-773) *)
Definition rebind (old : option nat) (del : nat -> mcmd) (ans : list out) (go : list out -> does) : does :=
  match old with
  | None => go ans
  | Some id => match ans with [] => Calls (del id) | ODone :: ans' => go ans' | _ => Broken end
  end.
Fixpoint elems (l : list pyv) : option (list X) :=
  match l with [] => Some [] | Elem x :: l' => match elems l' with Some xs => Some (x :: xs) | None => None end | _ => None end.
Fixpoint play (v : drv) (l : list dcmd) (ans : list out) : does :=
  match l with
  | [] => match ans with [] => Finished v | _ => Broken end
  | Parallelize o p :: l' =>      (* mpi.py 219-224: the scheduler keeps list(python_list) *)
      match v_var v o with
      | None => Failed NameError
      | Some lst => match ans with
          | [] => Calls (CPar (map Elem lst))
          | OPds id :: ans' => rebind (v_pds v p) CDelP ans' (play (mkv (v_var v) (upd (v_pds v) p (Some id)) (v_bds v) (v_self v)) l')
          | _ => Broken end
      end
  | Map f p t :: l' =>            (* 291-306: pickling comes first *)
      match v_pds v p with
      | None => Failed NameError
      | Some src => match dumps (v_self v) with
          | Err e => Failed e
          | Ok c => match ans with
              | [] => Calls (CMap (remote f (v_env v) c) src)
              | OPds id :: ans' => rebind (v_pds v t) CDelP ans' (play (mkv (v_var v) (upd (v_pds v) t (Some id)) (v_bds v) (v_self v)) l')
              | _ => Broken end
          end
      end
  | Collect p o :: l' =>          (* 308-343 *)
      match v_pds v p with
      | None => Failed NameError
      | Some id => match ans with
          | [] => Calls (CCollect id)
          | OList vs :: ans' => match elems vs with
                                | Some xs => play (mkv (upd (v_var v) o (Some xs)) (v_pds v) (v_bds v) (v_self v)) l' ans'
                                | None => Broken end
          | ORaise (Exc e) :: _ => Failed e
          | _ => Broken end
      end
  | Broadcast o b :: l' =>        (* 345-358, 752-755 *)
      match v_var v o with
      | None => Failed NameError
      | Some lst => match ans with
          | [] => Calls (CBcast (Lst lst))
          | OBds id :: ans' => rebind (option_map fst (v_bds v b)) CDelB ans' (play (mkv (v_var v) (v_pds v) (upd (v_bds v) b (Some (id, lst))) (v_self v)) l')
          | _ => Broken end
      end
  | Put o k x :: l' =>
      match v_var v o with
      | None => Failed NameError
      | Some lst => match set_nth X k x lst with
                    | None => Failed IndexError
                    | Some lst' => play (mkv (upd (v_var v) o (Some lst')) (v_pds v) (v_bds v) (v_self v)) l' ans end
      end
  | Update u :: l' => play (mkv (v_var v) (v_pds v) (v_bds v) (u (v_self v))) l' ans
  end.

(** *** The driver together with the processes: it makes its next call when the scheduler is between two calls *)
Variable N : nat.
Notation cfg := (cfg pyv).
Definition with_prog (c : cfg) (p : list mcmd) : cfg :=
  mkcfg p (sph c) (npds c) (nbds c) (spds c) (sbds c) (outs c) (rq c) (cq c) (dq c) (gq c) (lp c) (lpds c) (lbds c) (log c).
Inductive rstep (v : drv) (l : list dcmd) : cfg -> cfg -> Prop :=
| r_call c k c' : sph c = SNext -> play v l (outs c) = Calls k -> issue (with_prog c [k]) = Some c' -> rstep v l c c'
| r_other c c' : step isexc rewrap N c c' -> rstep v l c c'.
Inductive rsteps (v : drv) (l : list dcmd) : cfg -> cfg -> Prop :=
| rs_refl c : rsteps v l c c
| rs_step c c1 c2 : rsteps v l c c1 -> rstep v l c1 c2 -> rsteps v l c c2.
(** no process can do anything any more *)
Definition quiet (v : drv) (l : list dcmd) (c : cfg) : Prop := forall c', ~ rstep v l c c'.
(** a driver with lists in the variables 0, 1, ..., freshly started *)
Definition start_v (ls : list (list X)) (self : St) : drv := mkv (fun o => nth_error ls o) (fun _ => None) (fun _ => None) self.
End Driver.
Arguments Elem {X}.
Arguments Lst {X}.
Arguments Exc {X}.
Arguments isexc {X}.
Arguments rewrap {X}.
Arguments remote {X St}.
Arguments mkv {X St}.
Arguments v_var {X St}.
Arguments v_pds {X St}.
Arguments v_bds {X St}.
Arguments v_self {X St}.
Arguments v_env {X St}.
Arguments Calls {X St}.
Arguments Finished {X St}.
Arguments Failed {X St}.
Arguments Broken {X St}.
Arguments rebind {X St}.
Arguments play {X St}.
Arguments elems {X}.
Arguments with_prog {X}.
Arguments rstep {X St}.
Arguments rsteps {X St}.
Arguments quiet {X St}.
Arguments start_v {X St}.
