(** Model of abcpy/backends/base.py, BackendDummy (122-216), and abcpy/backends/spark.py: what a driver sees that uses a backend.

    A driver has list objects, held by numbered variables, data sets and broadcast data sets, also numbered, and an object [self] one of whose methods it
    maps.  [St]: the attributes of self that methods read and write.  A task gets the values of the broadcast data sets, an element, and self.
    Simplifications: list elements are values without identity; a list is in at most the variables, data sets and broadcast data sets that the commands below put it into. *)
From Verif Require Import M_Base M_Journal.

Section Backends.
Variables X St : Type.
Definition env := nat -> option (list X).
Definition task := env -> X -> M St X.

Inductive cmd :=
| Parallelize (o p : nat)          (* p = backend.parallelize(o) *)
| Map (f : task) (p t : nat)       (* t = backend.map(f, p) *)
| Collect (p o : nat)              (* o = backend.collect(p) *)
| Broadcast (o b : nat)            (* b = backend.broadcast(o) *)
| Put (o k : nat) (x : X)          (* o[k] = x *)
| Update (u : St -> St).           (* self.attribute = ... *)

Fixpoint set_nth (k : nat) (x : X) (l : list X) : option (list X) :=
  match l, k with
  | [], _ => None
  | _ :: l', 0 => Some (x :: l')
  | y :: l', S k' => match set_nth k' x l' with Some l'' => Some (y :: l'') | None => None end
  end.

(** ** BackendDummy: data sets and broadcast data sets hold list objects of the driver.  [d_heap]: the list at each address; [d_next]: the next address *)
Record dstate := mkd { d_heap : nat -> list X; d_next : nat; d_var : nat -> option nat; d_pds : nat -> option nat; d_bds : nat -> option nat; d_self : St }.
Definition d_env (d : dstate) : env := fun b => option_map (d_heap d) (d_bds d b).
Definition dstep (d : dstate) (c : cmd) : res dstate :=
  match c with
  | Parallelize o p =>   (* 132-144  PDSDummy(python_list) *)
      match d_var d o with None => Err NameError | Some a => Ok (mkd (d_heap d) (d_next d) (d_var d) (upd (d_pds d) p (Some a)) (d_bds d) (d_self d)) end
  | Map f p t =>         (* 161-180  PDSDummy(list(map(func, pds.python_list))) *)
      match d_pds d p with None => Err NameError | Some a =>
      match forM (f (d_env d)) (d_heap d a) (d_self d) with
      | (_, Err e) => Err e
      | (s, Ok l) => Ok (mkd (upd (d_heap d) (d_next d) l) (S (d_next d)) (d_var d) (upd (d_pds d) t (Some (d_next d))) (d_bds d) s)
      end end
  | Collect p o =>       (* 182-196  pds.python_list *)
      match d_pds d p with None => Err NameError | Some a => Ok (mkd (d_heap d) (d_next d) (upd (d_var d) o (Some a)) (d_pds d) (d_bds d) (d_self d)) end
  | Broadcast o b =>     (* 146-159, 208-216  BDSDummy(object) *)
      match d_var d o with None => Err NameError | Some a => Ok (mkd (d_heap d) (d_next d) (d_var d) (d_pds d) (upd (d_bds d) b (Some a)) (d_self d)) end
  | Put o k x =>
      match d_var d o with None => Err NameError | Some a =>
      match set_nth k x (d_heap d a) with None => Err IndexError | Some l => Ok (mkd (upd (d_heap d) a l) (d_next d) (d_var d) (d_pds d) (d_bds d) (d_self d)) end end
  | Update u => Ok (mkd (d_heap d) (d_next d) (d_var d) (d_pds d) (d_bds d) (u (d_self d)))
  end.
Fixpoint drun (d : dstate) (l : list cmd) : res dstate := match l with [] => Ok d | c :: l' => match dstep d c with Err e => Err e | Ok d' => drun d' l' end end.
(** the list in variable o *)
Definition d_list (d : dstate) (o : nat) : option (list X) := option_map (d_heap d) (d_var d o).

(** ** BackendSpark *)
(** pickling self: a copy, or an exception *)
Variable dumps : St -> res St.
(** SparkContext.parallelize(c, parallelism) cuts a list into consecutive slices *)
Variable slices : list X -> list (list X).
(** An RDD: the elements (pickled by parallelize), the functions mapped over them, and, once it has been collected, the self and the broadcast data sets that were
    pickled with the functions (pyspark pickles the functions of an RDD when its first job is submitted, and keeps the result) *)
Record rdd := mkrdd { r_data : list X; r_funcs : list task; r_packed : option (St * env) }.
Record sstate := mks { s_var : nat -> option (list X); s_pds : nat -> option rdd; s_bds : env; s_self : St }.
(** functions are applied one after the other to each element *)
Fixpoint pipeline (fs : list task) (e : env) (x : X) : M St X := match fs with [] => ret x | f :: fs' => y <- f e x ;; pipeline fs' e y end.
(** rdd.collect(): every slice is processed by a copy of self; its changes stay there.  A failed job raises an exception of py4j *)
Definition job (r : rdd) (s : St) (e : env) : res (list X) :=
  match mapR (fun l => snd (forM (pipeline (r_funcs r) e) l s)) (slices (r_data r)) with Err _ => Err RuntimeError | Ok ls => Ok (concat ls) end.
Definition sstep (s : sstate) (c : cmd) : res sstate :=
  match c with
  | Parallelize o p =>   (* 24-41  sc.parallelize(python_list, self.parallelism) *)
      match s_var s o with None => Err NameError | Some l => Ok (mks (s_var s) (upd (s_pds s) p (Some (mkrdd l [] None))) (s_bds s) (s_self s)) end
  | Map f p t =>         (* 62-80  pds.rdd.map(func): nothing is computed *)
      match s_pds s p with None => Err NameError | Some r => Ok (mks (s_var s) (upd (s_pds s) t (Some (mkrdd (r_data r) (r_funcs r ++ [f]) None))) (s_bds s) (s_self s)) end
  | Collect p o =>       (* 82-97  pds.rdd.collect() *)
      match s_pds s p with None => Err NameError | Some r =>
      match (match r_packed r, r_funcs r with Some se, _ => Ok se | None, [] => Ok (s_self s, s_bds s) | None, _ => match dumps (s_self s) with Err e => Err e | Ok c => Ok (c, s_bds s) end end) with
      | Err e => Err e
      | Ok (c, e) => match job r c e with
                     | Err er => Err er
                     | Ok l => Ok (mks (upd (s_var s) o (Some l)) (upd (s_pds s) p (Some (mkrdd (r_data r) (r_funcs r) (Some (c, e))))) (s_bds s) (s_self s))
                     end
      end end
  | Broadcast o b =>     (* 43-60, 114-138  sc.broadcast(object) pickles the object *)
      match s_var s o with None => Err NameError | Some l => Ok (mks (s_var s) (s_pds s) (upd (s_bds s) b (Some l)) (s_self s)) end
  | Put o k x =>
      match s_var s o with None => Err NameError | Some l =>
      match set_nth k x l with None => Err IndexError | Some l' => Ok (mks (upd (s_var s) o (Some l')) (s_pds s) (s_bds s) (s_self s)) end end
  | Update u => Ok (mks (s_var s) (s_pds s) (s_bds s) (u (s_self s)))
  end.
Fixpoint srun (s : sstate) (l : list cmd) : res sstate := match l with [] => Ok s | c :: l' => match sstep s c with Err e => Err e | Ok s' => srun s' l' end end.
End Backends.
Arguments Parallelize {X St} o p.
Arguments Map {X St} f p t.
Arguments Collect {X St} p o.
Arguments Broadcast {X St} o b.
Arguments Put {X St} o k x.
Arguments Update {X St} u.
Arguments mkd {X St}.
Arguments mks {X St}.
Arguments mkrdd {X St}.
Arguments d_var {X St}.
Arguments d_heap {X St}.
Arguments d_next {X St}.
Arguments d_pds {X St}.
Arguments d_bds {X St}.
Arguments d_self {X St}.
Arguments d_list {X St}.
Arguments d_env {X St}.
Arguments s_var {X St}.
Arguments s_pds {X St}.
Arguments s_bds {X St}.
Arguments s_self {X St}.
Arguments r_data {X St}.
Arguments r_funcs {X St}.
Arguments r_packed {X St}.

(** An object that maps its methods: does its class define __getstate__ (inferences.py 30-36, modelselections.py 44-47, statisticslearning.py 195-198: a copy of
    __dict__ without 'backend'; output.py 1121-1260, GenerateFromJournal: not); its attribute backend, if any; its other attributes *)
Record obj (B St : Type) := mkobj { o_getstate : bool; o_backend : option B; o_attrs : St }.
Arguments mkobj {B St}.
Arguments o_getstate {B St}.
Arguments o_backend {B St}.
Arguments o_attrs {B St}.
(** pickling an object; [ok b]: can a backend be pickled (a SparkContext raises an exception when it is) *)
Definition dumps_obj {B St} (ok : B -> bool) (o : obj B St) : res (obj B St) :=
  if o_getstate o then match o_backend o with None => Err KeyError | Some _ => Ok (mkobj true None (o_attrs o)) end
  else match o_backend o with None => Ok o | Some b => if ok b then Ok o else Err RuntimeError end.
