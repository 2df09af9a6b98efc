(** Specification vocabulary for model graphs, independent of the walks of the code. *)
From Verif Require Import M_Base M_Graph.

(** A well-formed graph: inputs of a node were created before it, fixed numbers have no inputs, and connectors
    refer to existing components of the input model's output (probabilisticmodels.py:58-59, 293-299). *)
Definition wf (g : graph) : Prop :=
  (forall n p, In p (gpar g n) -> p < n)
  /\ (forall n, is_hyper g n = true -> gconn g n = [])
  /\ (forall n m j, In (m, j) (gconn g n) -> j < gdim g m).

(** [Anc g a n]: a is a (direct or indirect) input of n. *)
Inductive Anc (g : graph) : nat -> nat -> Prop :=
| anc_par a n : In a (gpar g n) -> Anc g a n
| anc_step a p n : In p (gpar g n) -> Anc g a p -> Anc g a n.

(** No observed model is an input of an observed model (the same model may be listed twice). *)
Definition indep (g : graph) (roots : list nat) : Prop :=
  forall r r', In r roots -> In r' roots -> ~ Anc g r r'.

(** [Expand g n l]: l lists the nodes met when all input paths from n are walked depth first (n first, then its
    inputs in order), without remembering what was already met. *)
Inductive Expand (g : graph) : nat -> list nat -> Prop :=
| expand n ls : Forall2 (Expand g) (gpar g n) ls -> Expand g n (n :: concat ls).

(** First occurrences. *)
Fixpoint first_occ (l : list nat) : list nat :=
  match l with
  | [] => []
  | x :: l' => x :: filter (fun y => negb (Nat.eqb y x)) (first_occ l')
  end.

(** The parameter order of a graph: depth-first order of first occurrence of the free parameters. *)
Definition ParamOrder (g : graph) (roots o : list nat) : Prop :=
  exists ls, Forall2 (Expand g) (flat_map (gpar g) roots) ls
             /\ o = filter (is_free g) (first_occ (concat ls)).

(** All marks of the graph of [roots] are down. *)
Definition clean (g : graph) (roots : list nat) (s : st) : Prop :=
  forall r n, In r roots -> n = r \/ Anc g n r -> vis s n = false.

(** Stored outputs have the declared dimension. *)
Definition vals_ok (g : graph) (s : st) : Prop :=
  forall n v, val s n = Some v -> length v = gdim g n.

(** [v] with the nodes of [o] overwritten by [params], position by position. *)
Fixpoint assign (o : list nat) (params : list (list Q)) (v : nat -> option (list Q)) : nat -> option (list Q) :=
  match o, params with
  | n :: o', x :: params' => assign o' params' (upd v n (Some x))
  | _, _ => v
  end.

(** Input values of a node under an assignment of values to nodes. *)
Definition inputs_at (g : graph) (v : nat -> option (list Q)) (n : nat) : list (option Q) :=
  map (fun mj => match v (fst mj) with Some l => nth_error l (snd mj) | None => None end) (gconn g n).

Definition prodQ (l : list Q) : Q := fold_right Qmult 1%Q l.

(** Node [n] holds, in the assignment [v], the first value the simulator returned for the inputs of [n] that [v]
    holds, with the random generator in its [t]-th state. *)
Definition drawn (g : graph) (v : nat -> option (list Q)) (n t : nat) : Prop :=
  exists x rest, gsim g n (inputs_at g v n) 1 t = Some (x :: rest) /\ v n = Some x
                 /\ gchk_in g n (inputs_at g v n) = true.

(** The graph operations of the public interface, as commands. *)
Inductive op :=
| OSample (tries : nat)                       (* sample_from_prior *)
| OGet                                        (* get_parameters *)
| OSet (params : list (list Q))               (* set_parameters, accepted or rejected *)
| OOrder (pm : list (nat * list (list Q)))    (* get_correct_ordering *)
| OMap                                        (* _get_mapping *)
| OApm                                        (* AcceptedParametersManager.get_mapping *)
| OPdf (params : list (list Q)).              (* pdf_of_prior *)
(** [Some s'] if the operation returned normally, [None] if it raised. *)
Definition outcome {A} (r : st * res A) : option st :=
  match r with (s', Ok _) => Some s' | (_, Err _) => None end.
Definition run_op (g : graph) (roots : list nat) (o : op) (s : st) : option st :=
  match o with
  | OSample t => outcome (sample_from_prior g roots t s)
  | OGet => outcome (get_parameters g roots s)
  | OSet p => outcome (set_parameters g roots p s)
  | OOrder pm => outcome (get_correct_ordering g roots pm s)
  | OMap => outcome (get_mapping g roots s)
  | OApm => outcome (apm_get_mapping g roots s)
  | OPdf p => outcome (pdf_of_prior g roots p s)
  end.
Fixpoint run_ops (g : graph) (roots : list nat) (os : list op) (s : st) : option st :=
  match os with
  | [] => Some s
  | o :: os' => match run_op g roots o s with Some s' => run_ops g roots os' s' | None => None end
  end.

(** values proposed for model n: all values of the first entry naming it *)
Definition values_of {A} (pm : list (nat * list A)) (n : nat) : list A :=
  match find (fun e => Nat.eqb (fst e) n) pm with Some e => snd e | None => [] end.
