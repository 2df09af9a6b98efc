(** Concrete model graphs used as examples and counterexamples. *)
From Verif Require Import M_Base M_Graph S_Graph.

(** A graph given as a finite list of nodes; missing numbers are unconnected fixed numbers. *)
Record node := mknode { nk : kind; ncn : list (nat * nat); no : opk }.
Definition dflt : node := mknode Hyper [] OSum.

(* continuousmodels.py:31-51  Uniform._check_input: two values, lower <= upper *)
Definition unif_in (ins : list (option Q)) : bool :=
  match ins with
  | [Some lo; Some hi] => Qle_bool lo hi
  | _ => false
  end.
(* continuousmodels.py:53-64  Uniform._check_output: lower <= value <= upper, at the current inputs *)
Definition unif_out (ins : list (option Q)) (v : list Q) : bool :=
  match ins, v with
  | [Some lo; Some hi], [x] => Qle_bool lo x && Qle_bool x hi
  | _, _ => false
  end.
(* continuousmodels.py:98-119  Uniform.pdf *)
Definition unif_pdf (ins : list (option Q)) (v : list Q) : Q :=
  match ins, v with
  | [Some lo; Some hi], [x] => if Qle_bool lo x && Qle_bool x hi then 1 / (hi - lo) else 0
  | _, _ => 0
  end.
(** a deterministic stand-in for the random generator: k points in [lower, upper] depending on the state t *)
Definition unif_sim (ins : list (option Q)) (k t : nat) : option (list (list Q)) :=
  match ins with
  | [Some lo; Some hi] =>
      Some (map (fun i => [lo + (hi - lo) * (inject_Z (Z.of_nat (S i)) / inject_Z (Z.of_nat (S i + S t)))]%Q) (seq 0 k))
  | _ => None
  end.

(** All free nodes are one-dimensional uniform variables, [Cont] or (with the same mass) [Disc]. *)
Definition mkgraph (l : list node) : graph := {|
  gkind n := nk (nth n l dflt);
  gconn n := ncn (nth n l dflt);
  gdim n := 1;
  gchk_in n ins := match nk (nth n l dflt) with Oper => true | Hyper => true | _ => unif_in ins end;
  gchk_out n ins v := match nk (nth n l dflt) with Oper => true | Hyper => true | _ => unif_out ins v end;
  gdens n ins v := unif_pdf ins v;
  gsim n ins k t := unif_sim ins k t;
  gop n := no (nth n l dflt);
  gpow x y := Qpower x (Qnum y) |}.

Fixpoint wf_listb (i : nat) (l : list node) : bool :=
  match l with
  | [] => true
  | nd :: l' =>
      forallb (fun mj => Nat.ltb (fst mj) i && Nat.ltb (snd mj) 1) (ncn nd)
      && match nk nd with Hyper => Nat.eqb (length (ncn nd)) 0 | _ => true end
      && wf_listb (S i) l'
  end.

Definition hy : node := mknode Hyper [] OSum.
Definition un (a b : nat) : node := mknode Cont [(a, 0); (b, 0)] OSum.
Definition du (a b : nat) : node := mknode Disc [(a, 0); (b, 0)] OSum.
Definition ops (k : opk) (a b : nat) : node := mknode Oper [(a, 0); (b, 0)] k.

(** Initial state: fixed numbers hold their value (probabilisticmodels.py:744-762), all else is unset. *)
Definition st0 (vals : list (option (list Q))) : st :=
  mkst (fun _ => false) (fun n => nth n vals None) (fun _ => None) 0 [].

(** 0 and 1 are the numbers 0 and 10; X = 2 ~ U(0,10); Y = 3 ~ U(X,10); 4 = X + Y; 5 = an observed model with
    inputs Y and X + Y (a diamond on X). *)
Definition g1 : graph := mkgraph [hy; hy; un 0 1; un 2 1; ops OSum 2 3; un 3 4].
Definition s1 : st := st0 [Some [0]; Some [10]; Some [5]; Some [7]; Some [12]; None]%Q.
(** the same with X a discrete variable *)
Definition g2 : graph := mkgraph [hy; hy; du 0 1; un 2 1; ops OSum 2 3; un 3 4].
