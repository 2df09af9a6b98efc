(** Vocabulary of C95: the operations of the schemes' models, read off a newly built graph. *)
From Verif Require Import M_Base M_Num M_Graph S_Graph M_Worker.

Section Spec.
Variables (g : graph) (roots o : list nat) (base : nat -> option (list Q)) (tries k : nat).
(** the graph as it is built (values [base], in particular of the hyperparameters), with the parameter values [cur] stored; nothing else has
    ever happened to it *)
Definition built (cur : Vec) (r : nat) : st := mkst (fun _ => false) (assign o cur base) (fun _ => None) r [].
(** the parameter values stored in a graph, in the order of get_parameters *)
Definition stored (s : st) : Vec := map (fun n => known (val s n)) o.
(** set_parameters: verdict and the parameters afterwards *)
Definition set_of (th cur : Vec) : bool * Vec :=
  match set_parameters g roots th (built cur 0) with (s, Ok (b, _)) => (b, stored s) | (s, Err _) => (false, stored s) end.
(** the part of pdf_of_prior after its set_parameters *)
Definition dens_of (th cur : Vec) : num :=
  match (mp <- get_mapping g roots ;; rs <- forM (pdf_root g (fst mp) th (depth roots)) roots ;; ret (fold_left Qmult rs 1%Q)) (built cur 0) with
  | (_, Ok q) => Fin q
  | (_, Err _) => NaN
  end.
(** sample_from_prior on the graph as it is built *)
Definition prior_of (r : nat) : nat * Vec := let s := fst (sample_from_prior g roots tries (built [] r)) in (ctr s, stored s).
(** simulate on the graph that stores the parameters *)
Definition sim_of (cur : Vec) (r : nat) : nat * option Data :=
  match simulate g (depth roots) roots k (built cur r) with (s, Ok y) => (ctr s, y) | (s, Err _) => (ctr s, None) end.

(** a parameter vector: one vector of the declared dimension per parameter *)
Definition fits (th : Vec) : Prop := Forall2 (fun n v => length v = gdim g n) o th.
(** the graph stands for the parameter vector: its marks are down, the stored values have the declared dimensions, and wherever the walks look
    it holds what the graph as it is built with these parameters holds *)
Definition Stands (s : st) (cur : Vec) : Prop :=
  clean g roots s /\ vals_ok g s /\ fits cur
  /\ forall r n, In r roots -> n = r \/ Anc g n r -> val s n = val (built cur 0) n.
(** the same before the first parameters are sampled: nothing is said about the parameters *)
Definition Unsampled (s : st) : Prop :=
  clean g roots s /\ vals_ok g s /\ forall r n, In r roots -> n = r \/ Anc g n r -> ~ In n o -> val s n = base n.
(** A graph of random variables and fixed numbers, without arithmetic nodes, whose simulators give, if anything, a first value of the declared
    dimension that the check of the same node accepts (C05). *)
Record ordinary : Prop := {
  or_wf : wf g;
  or_roots : indep g roots /\ forall r, In r roots -> is_hyper g r = false;
  or_plain : forall n, is_oper g n = false;
  or_draw : forall n ins t x, is_free g n = true -> gsim g n ins 1 t = Some x -> exists y rest, x = y :: rest /\ length y = gdim g n;
  or_check : forall n ins t y rest, is_free g n = true -> gchk_in g n ins = true -> gsim g n ins 1 t = Some (y :: rest) -> gchk_out g n ins y = true;
  or_base : forall n v, base n = Some v -> length v = gdim g n;
  or_order : ParamOrder g roots o }.
(** a program only offers parameter vectors to the graph; its result has the property Q *)
Fixpoint careful {A} (Q : A -> Prop) (p : prog A) : Prop :=
  match p with
  | Done (Ok a) => Q a
  | Done (Err _) => True
  | Prior c => careful Q c
  | Get c => forall th, fits th -> careful Q (c th)
  | Put th c => fits th /\ forall b, careful Q (c b)
  | Dens th c => fits th /\ forall v, careful Q (c v)
  | Simu c => forall y, careful Q (c y)
  | Rand f c => forall r r' x, f r = Ok (r', x) -> careful Q (c x)
  end.
End Spec.
