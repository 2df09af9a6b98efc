(** Properties C09, C10, C11: the MPI backend against its sequential specification. *)
From Verif Require Import M_Base M_MPI S_MPI L_MPI L_MPI2.

(** Values for the examples: numbers below 100 are ordinary objects, others are exception objects; 200 is an exception
    whose class cannot be built from one string (e.g. UnicodeDecodeError). *)
Definition xexc (v : nat) : bool := 100 <=? v.
Definition xwrap (v : nat) : option nat := if v =? 200 then None else Some v.
Definition xsq : func nat := fun x => Returned (x * x).
(** raises 150 on odd numbers *)
Definition xodd : func nat := fun x => if Nat.odd x then Raised 150 else Returned x.

(** * C09 *)
(** Anywhere in a correct program, parallelize l / map f / collect gives [g x for x in l] in order, for every number of
    leaders and every schedule. *)
Theorem C09_map_collect : forall (V : Type) (isexc : V -> bool) (rewrap : V -> option V) (N : nat), 0 < N ->
  forall pre l (f : func V) (g : V -> V) post a es c,
  let p := pre ++ CPar l :: CMap f (S (created pre)) :: CCollect (S (S (created pre))) :: post in
  arun rewrap p a0 = Some (a, es) ->
  (forall x, In x l -> f x = Returned (g x) /\ isexc (g x) = false) ->
  steps isexc rewrap N (init p) c -> over isexc rewrap N c ->
  nth_error (outs c) (length pre + 2) = Some (OList (map g l)).
Proof. intros V isexc rewrap N HN pre l f g post a es c. exact (pmc_ok V isexc rewrap N HN pre l f g post a es c). Qed.
Print Assumptions C09_map_collect.

(** The same for the program that does nothing else, without reference to the specification. *)
Theorem C09_single : forall (V : Type) (isexc : V -> bool) (rewrap : V -> option V) (N : nat), 0 < N ->
  forall l (f : func V) (g : V -> V) c,
  (forall x, In x l -> f x = Returned (g x) /\ isexc (g x) = false) ->
  steps isexc rewrap N (init [CPar l; CMap f 1; CCollect 2]) c -> over isexc rewrap N c ->
  outs c = [OPds 1; OPds 2; OList (map g l)].
Proof. exact single. Qed.
Print Assumptions C09_single.

(** Any correct program: at every moment the answers given are those the sequential specification allows, no item has
    been evaluated twice and no process has died; when no process can move, all answers have been given and every
    item of every mapped list has been evaluated exactly once. *)
Theorem C09_refinement : forall (V : Type) (isexc : V -> bool) (rewrap : V -> option V) (N : nat), 0 < N ->
  forall p a es c, arun rewrap p a0 = Some (a, es) -> steps isexc rewrap N (init p) c ->
  (exists es1 es2, es = es1 ++ es2 /\ Forall2 (allowed isexc) es1 (outs c))
  /\ (forall id t, evals id t (log c) <= 1) /\ sph c <> SDead /\ (forall i, i < N -> lp c i <> LDead)
  /\ (over isexc rewrap N c ->
        prog c = [] /\ sph c = SNext /\ Forall2 (allowed isexc) es (outs c)
        /\ forall id rs, apds a id = Some (PRes rs) -> forall t, 1 <= t <= length rs -> evals id t (log c) = 1).
Proof. exact refinement. Qed.
Print Assumptions C09_refinement.

(** No execution of a correct program is infinite, and every execution can only stop at its end. *)
Theorem C09_terminates : forall (V : Type) (isexc : V -> bool) (rewrap : V -> option V) (N : nat), 0 < N ->
  forall p a es, arun rewrap p a0 = Some (a, es) ->
  Acc (fun y x => step isexc rewrap N x y) (init p)
  /\ forall c, steps isexc rewrap N (init p) c -> exists c', steps isexc rewrap N c c' /\ over isexc rewrap N c'.
Proof. intros V isexc rewrap N HN p a es H. exact (conj (term V isexc rewrap N HN p a es H) (ends V isexc rewrap N HN p a es H)). Qed.
Print Assumptions C09_terminates.

(** Two leaders; leader 1 gets the last two items, leader 0 the first one. *)
Definition xsched : list act :=
  [AIssue; AIssue; ATake 1; ATake 1; AAsk 1; AServe 0; ARecv 1; ATake 0; ATake 0; AAsk 1; AAsk 0; AServe 0; AServe 0;
   ARecv 0; ARecv 1; AAsk 1; AAsk 0; AServe 1; AServe 0; AMapEnd; AIssue; ARecv 1; ARecv 0; ATake 0; ATake 1; AGather].
Example C09_example :
  exists c, exec nat xexc xwrap 2 xsched (init [CPar [3; 4; 5]; CMap xsq 1; CCollect 2]) = Some c
         /\ stuck nat xexc xwrap 2 c = true /\ outs c = [OPds 1; OPds 2; OList [9; 16; 25]]
         /\ lpds c 0 2 = Some (Some [(1, 9)]) /\ lpds c 1 2 = Some (Some [(3, 25); (2, 16)]).
Proof. eexists. vm_compute. repeat split. Qed.
Example C09_example_valid : exists a es, arun xwrap [CPar [3; 4; 5]; CMap xsq 1; CCollect 2; CDelP 1; CMap xsq 1; CDelP 3] a0 = Some (a, es).
Proof. eexists. eexists. vm_compute. reflexivity. Qed.

(** BackendDummy accepts map over a mapped data set; the MPI scheduler dies of a KeyError. *)
Theorem C09_map_of_map_refuted : exists (p : list (cmd nat)) c,
  p = [CPar [1; 2]; CMap xsq 1; CMap xsq 2; CCollect 3] /\ steps xexc xwrap 1 (init p) c /\ sph c = SDead.
Proof.
  eexists. destruct (exec nat xexc xwrap 1 [AIssue; AIssue; ATake 0; ATake 0; AAsk 0; AServe 0; ARecv 0; AAsk 0; AServe 0; ARecv 0; AAsk 0; AServe 0; AMapEnd; AIssue]
     (init [CPar [1; 2]; CMap xsq 1; CMap xsq 2; CCollect 3])) as [c|] eqn:E; [|vm_compute in E; discriminate].
  exists c. split; [reflexivity|]. split; [eapply exec_steps; exact E|]. vm_compute in E. inversion E. reflexivity.
Qed.
Print Assumptions C09_map_of_map_refuted.
(** Collecting a data set that was only parallelised kills the leader and the scheduler waits for ever. *)
Theorem C09_collect_raw_refuted : exists (p : list (cmd nat)) c,
  p = [CPar [1; 2]; CCollect 1] /\ steps xexc xwrap 1 (init p) c /\ over xexc xwrap 1 c /\ lp c 0 = LDead /\ sph c = SGather 1.
Proof.
  eexists. destruct (exec nat xexc xwrap 1 [AIssue; AIssue; ATake 0; ATake 0] (init [CPar [1; 2]; CCollect 1])) as [c|] eqn:E; [|vm_compute in E; discriminate].
  exists c. split; [reflexivity|]. split; [eapply exec_steps; exact E|]. vm_compute in E. inversion E; subst c.
  split; [apply stuck_over; vm_compute; reflexivity|]. split; reflexivity.
Qed.
Print Assumptions C09_collect_raw_refuted.

(** * C10 *)
(** If some item raises, collect raises, and what it raises is (the rebuilt form of) an exception raised by f on an item
    of the list; every execution ends (C09_terminates). *)
Theorem C10_exception : forall (V : Type) (isexc : V -> bool) (rewrap : V -> option V) (N : nat), 0 < N ->
  forall pre l (f : func V) post a es c,
  let p := pre ++ CPar l :: CMap f (S (created pre)) :: CCollect (S (S (created pre))) :: post in
  arun rewrap p a0 = Some (a, es) ->
  (forall x v, In x l -> f x = Returned v -> isexc v = false) ->
  (forall x e e', In x l -> f x = Raised e -> rewrap e = Some e' -> isexc e' = true) ->
  steps isexc rewrap N (init p) c -> over isexc rewrap N c ->
  (exists x e, In x l /\ f x = Raised e) ->
  exists x e e', In x l /\ f x = Raised e /\ rewrap e = Some e' /\ nth_error (outs c) (length pre + 2) = Some (ORaise e').
Proof. intros V isexc rewrap N HN pre l f post a es c. exact (pmc_exc V isexc rewrap N HN pre l f post a es c). Qed.
Print Assumptions C10_exception.

(** One failing item of three; the program goes on afterwards. *)
Example C10_example : exists c, steps xexc xwrap 2 (init [CPar [4; 5; 6]; CMap xodd 1; CCollect 2; CBcast 7]) c
  /\ over xexc xwrap 2 c /\ outs c = [OPds 1; OPds 2; ORaise 150; OBds 1] /\ lbds c 1 1 = Some 7.
Proof.
  destruct (exec nat xexc xwrap 2 (xsched ++ [AIssue; ATake 0; ATake 1]) (init [CPar [4; 5; 6]; CMap xodd 1; CCollect 2; CBcast 7])) as [c|] eqn:E; [|vm_compute in E; discriminate].
  exists c. split; [eapply exec_steps; exact E|]. vm_compute in E. inversion E; subst c.
  split; [apply stuck_over; vm_compute; reflexivity|]. split; reflexivity.
Qed.

(** An exception whose class needs more than one string: rebuilding it (line 439) raises again outside the try block,
    the leader dies, the map never ends. *)
Theorem C10_unbuildable_refuted : exists (p : list (cmd nat)) (f : func nat) c,
  p = [CPar [1]; CMap f 1; CCollect 2] /\ f 1 = Raised 200 /\ steps xexc xwrap 1 (init p) c /\ over xexc xwrap 1 c
  /\ prog c = [CCollect 2] /\ lp c 0 = LDead.
Proof.
  eexists. exists (fun _ => Raised 200).
  destruct (exec nat xexc xwrap 1 [AIssue; AIssue; ATake 0; ATake 0; AAsk 0; AServe 0; ARecv 0] (init [CPar [1]; CMap (fun _ => Raised 200) 1; CCollect 2])) as [c|] eqn:E; [|vm_compute in E; discriminate].
  exists c. split; [reflexivity|]. split; [reflexivity|]. split; [eapply exec_steps; exact E|]. vm_compute in E. inversion E; subst c.
  split; [apply stuck_over; vm_compute; reflexivity|]. split; reflexivity.
Qed.
Print Assumptions C10_unbuildable_refuted.
(** A function that returns an exception object makes collect raise although nothing failed. *)
Theorem C10_returned_exception_refuted : exists (p : list (cmd nat)) (f : func nat) c,
  p = [CPar [1]; CMap f 1; CCollect 2] /\ (forall x, f x = Returned 150) /\ steps xexc xwrap 1 (init p) c /\ over xexc xwrap 1 c
  /\ outs c = [OPds 1; OPds 2; ORaise 150].
Proof.
  eexists. exists (fun _ => Returned 150).
  destruct (exec nat xexc xwrap 1 [AIssue; AIssue; ATake 0; ATake 0; AAsk 0; AServe 0; ARecv 0; AAsk 0; AServe 0; ARecv 0; AMapEnd; AIssue; ATake 0; AGather]
             (init [CPar [1]; CMap (fun _ => Returned 150) 1; CCollect 2])) as [c|] eqn:E; [|vm_compute in E; discriminate].
  exists c. split; [reflexivity|]. split; [reflexivity|]. split; [eapply exec_steps; exact E|]. vm_compute in E. inversion E; subst c.
  split; [apply stuck_over; vm_compute; reflexivity|]. reflexivity.
Qed.
Print Assumptions C10_returned_exception_refuted.

(** * C11 *)
(** Identifiers handed out are 1, 2, 3, …, in every execution of every program, correct or not. *)
Theorem C11_ids_fresh : forall (V : Type) (isexc : V -> bool) (rewrap : V -> option V) (N : nat) (p : list (cmd V)) c,
  steps isexc rewrap N (init p) c ->
  (exists k, pds_ids (outs c) = seq 1 k) /\ (exists k, bds_ids (outs c) = seq 1 k).
Proof. exact ids_fresh. Qed.
Print Assumptions C11_ids_fresh.

(** Whenever a leader holds a work item, its broadcast store is the scheduler's, however late it is with other commands. *)
Theorem C11_broadcast_seen : forall (V : Type) (isexc : V -> bool) (rewrap : V -> option V) (N : nat), 0 < N ->
  forall p a es c i src dst f rdd t x d, arun rewrap p a0 = Some (a, es) -> steps isexc rewrap N (init p) c -> i < N ->
  lp c i = LWait src dst f rdd -> dq c i = Some (t, x) :: d -> forall id, lbds c i id = sbds c id.
Proof. exact bcast_seen. Qed.
Print Assumptions C11_broadcast_seen.

(** At the end of an execution every rank holds exactly the live broadcasts, with their values, and exactly the live data sets. *)
Theorem C11_stores : forall (V : Type) (isexc : V -> bool) (rewrap : V -> option V) (N : nat), 0 < N ->
  forall p a es c, arun rewrap p a0 = Some (a, es) -> steps isexc rewrap N (init p) c -> over isexc rewrap N c ->
  forall i, i < N -> (forall id, lbds c i id = abds a id) /\ (forall id, sbds c id = abds a id)
                     /\ forall id, lpds c i id <> None <-> alive a id = true.
Proof. exact stores. Qed.
Print Assumptions C11_stores.

(** Removing all deletions from a program changes none of its other answers. *)
Theorem C11_delete_independent : forall (V : Type) (isexc : V -> bool) (rewrap : V -> option V) (N : nat), 0 < N ->
  forall p a es c, arun rewrap p a0 = Some (a, es) -> steps isexc rewrap N (init p) c -> over isexc rewrap N c ->
  existsb israise (outs c) = false ->
  forall c', steps isexc rewrap N (init (filter nodel p)) c' -> over isexc rewrap N c' -> outs c' = filter answered (outs c).
Proof. exact del_indep. Qed.
Print Assumptions C11_delete_independent.

Definition xprog : list (cmd nat) := [CPar [1; 2]; CBcast 8; CMap xsq 1; CDelP 1; CBcast 9; CDelB 1; CCollect 2].
Example C11_example : exists a es, arun xwrap xprog a0 = Some (a, es) /\ abds a 2 = Some 9 /\ abds a 1 = None /\ alive a 2 = true /\ alive a 1 = false
  /\ filter nodel xprog = [CPar [1; 2]; CBcast 8; CMap xsq 1; CBcast 9; CCollect 2].
Proof. eexists. eexists. vm_compute. repeat split. Qed.
Example C11_example_run : exists c, steps xexc xwrap 1 (init xprog) c /\ over xexc xwrap 1 c
  /\ outs c = [OPds 1; OBds 1; OPds 2; ODone; OBds 2; ODone; OList [1; 4]].
Proof.
  destruct (exec nat xexc xwrap 1 [AIssue; AIssue; AIssue; ATake 0; ATake 0; ATake 0; AAsk 0; AServe 0; ARecv 0; AAsk 0; AServe 0; ARecv 0; AAsk 0; AServe 0; AMapEnd;
     AIssue; AIssue; AIssue; AIssue; ARecv 0; ATake 0; ATake 0; ATake 0; ATake 0; AGather] (init xprog)) as [c|] eqn:E; [|vm_compute in E; discriminate].
  exists c. split; [eapply exec_steps; exact E|]. vm_compute in E. inversion E; subst c.
  split; [apply stuck_over; vm_compute; reflexivity|]. reflexivity.
Qed.
