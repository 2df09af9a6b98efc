(** Vocabulary of C96: a parallel map whose work items are executed by several processes, each with its own copy of the graph. *)
From Verif Require Import M_Base M_Num M_Graph S_Graph M_Worker S_Worker.

Section Spec.
Variables (g : graph) (roots o : list nat) (base : nat -> option (list Q)) (tries k : nat).
(** [plan]: which process executes which work item, in the order in which the items are executed; [graphs]: the copies of the graph.
    The first exception ends the map.  The sequential backend (backends/base.py:161-179): one process.  MPI (backends/mpi.py:274-343, 578-629) and
    Spark: the function, and with it the graph, is serialised by the scheduler and executed from that copy elsewhere. *)
Fixpoint spread {A B} (f : A -> prog B) (plan : list (nat * A)) (graphs : nat -> st) : res (list B) :=
  match plan with
  | [] => Ok []
  | (q, a) :: plan' =>
      match on_graph g roots tries k (f a) (graphs q) with
      | (s', Ok y) => match spread f plan' (upd graphs q s') with Ok ys => Ok (y :: ys) | Err e => Err e end
      | (_, Err e) => Err e
      end
  end.
(** The results do not depend on which process executes a work item, when, and what the process did before: the same item gives the same
    result in any two maps that end, and two maps over the same items in the same order give the same results or the same exception.
    [Ready] says how the copies of the graph start, [R] restricts the work items. *)
Definition Location_free {A B} (Ready : st -> Prop) (R : A -> Prop) (f : A -> prog B) : Prop :=
  forall plan1 plan2 graphs1 graphs2, Forall (fun x => R (snd x)) plan1 -> Forall (fun x => R (snd x)) plan2 ->
  (forall q, Ready (graphs1 q)) -> (forall q, Ready (graphs2 q)) ->
  spread f plan1 graphs1 <> Err OutOfFuel -> spread f plan2 graphs2 <> Err OutOfFuel ->
  (forall ys1 ys2, spread f plan1 graphs1 = Ok ys1 -> spread f plan2 graphs2 = Ok ys2 ->
     forall i j q1 q2 a, nth_error plan1 i = Some (q1, a) -> nth_error plan2 j = Some (q2, a) -> nth_error ys1 i = nth_error ys2 j)
  /\ (map snd plan1 = map snd plan2 -> spread f plan1 graphs1 = spread f plan2 graphs2).
(** the graph has been used before, in whatever way, and holds some parameters; or it has not been sampled yet *)
Definition Used (s : st) : Prop := exists cur, Stands g roots o base s cur.
Definition Any (s : st) : Prop := Used s \/ Unsampled g roots o base s.
(** the values [th] pass the checks of their nodes, each evaluated with the values of [th] for its parents *)
Definition acceptable (th : Vec) : Prop :=
  forall i n v, nth_error o i = Some n -> nth_error th i = Some v -> gchk_out g n (inputs_at g (assign o th base) n) v = true.
(** for every parameter: its check does not look at its parents, or set_parameters meets those of its parents that are parameters before it *)
Definition steady : Prop :=
  forall i n, nth_error o i = Some n ->
    (forall ins ins' v, gchk_out g n ins v = gchk_out g n ins' v) \/ (forall m j, In (m, j) (gconn g n) -> In m o -> In m (firstn i o)).
(** among any hundred consecutive draws of the kernel one is acceptable *)
Fixpoint draw_after {Pop} (kupd : Pop -> nat -> nat -> nat * Vec) (p : Pop) (i t r : nat) : Vec :=
  match t with 0 => snd (kupd p i r) | S t' => draw_after kupd p i t' (fst (kupd p i r)) end.
Definition hits_home {Pop} (kupd : Pop -> nat -> nat -> nat * Vec) : Prop :=
  forall p i r, exists t, t < 100 /\ acceptable (draw_after kupd p i t r).
End Spec.
