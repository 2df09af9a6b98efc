(** Vocabulary of C79: a graph whose simulators use independent draws. *)
From Coq Require Import Reals.
From Verif Require Import M_Base M_Graph S_Graph.

(** the graph g in which the t-th call of a simulator uses the t-th of the given draws, and answers None when there are no more: [samp n inputs a] is the value *)
Definition with_draws {A} (g : graph) (samp : nat -> list (option Q) -> A -> list Q) (draws : list A) : graph :=
  {| gkind := gkind g; gconn := gconn g; gdim := gdim g; gchk_in := gchk_in g; gchk_out := gchk_out g; gdens := gdens g;
     gsim := fun n ins _ t => match nth_error draws t with Some a => Some [samp n ins a] | None => None end; gop := gop g; gpow := gpow g |}.
(** rational numbers in lowest terms *)
Definition lowest (x : list Q) : Prop := Forall (fun q => Qred q = q) x.
Definition q_dec (a b : Q) : {a = b} + {a <> b}.
Proof. decide equality; [apply Pos.eq_dec|apply Z.eq_dec]. Defined.
Definition vec_dec : forall a b : list Q, {a = b} + {a <> b} := list_eq_dec q_dec.
Definition params_dec : forall a b : list (option (list Q)), {a = b} + {a <> b}.
Proof. apply list_eq_dec. decide equality. apply vec_dec. Defined.
(** sample_from_prior followed by get_parameters returned these parameters *)
Definition sampled_to (g : graph) (roots : list nat) (tries : nat) (s : st) (params : list (list Q)) : bool :=
  match sample_from_prior g roots tries s with
  | (s', Ok _) => match get_parameters g roots s' with
                  | (_, Ok l) => if params_dec l (map Some params) then true else false
                  | _ => false
                  end
  | _ => false
  end.
(** the first pass through the graph was not refused *)
Definition drawn_at_once (g : graph) (roots : list nat) (s : st) : bool :=
  match sample_roots g (depth roots) roots s with (_, Ok b) => b | _ => false end.
