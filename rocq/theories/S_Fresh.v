(** What a simulation of k values of a node computes, written down from the stored values only. *)
From Verif Require Import M_Base M_Graph S_Graph.

(** every arithmetic node has two inputs *)
Definition binary (g : graph) : Prop := forall n, gkind g n = Oper -> exists a b, gpar g n = [a; b].

(** the results of an operation on k values of each operand; number ** model ignores its second operand and delivers
    one long result *)
Definition op_values (g : graph) (o : opk) (xs ys : list (list Q)) : list (list Q) :=
  let each (f : Q -> Q -> Q) us vs := map (fun uv => map (fun xy => f (fst xy) (snd xy)) (combine (fst uv) (snd uv))) (combine us vs) in
  match o with
  | OSum => each Qplus xs ys
  | OSub => each Qminus xs ys
  | OMul => each Qmult xs ys
  | ODiv => each Qdiv xs ys
  | OPow => each (gpow g) xs ys
  | ORPow => [concat (each (gpow g) xs xs)]
  end.

(** [Fresh g v k n t u xs]: evaluating k values of node n, from the stored values v, with the generator states t, t+1,
    ..., u-1, gives xs.  A hyperparameter gives its stored value; a random variable is drawn anew, given the stored
    values of its inputs; an arithmetic node evaluates its first and then its second operand, and an operand that
    occurs on both sides only once. *)
Inductive Fresh (g : graph) (v : nat -> option (list Q)) (k : nat) : nat -> nat -> nat -> list (list Q) -> Prop :=
| fresh_hyper n t x : gkind g n = Hyper -> v n = Some x -> Fresh g v k n t t (repeat x k)
| fresh_free n t xs : is_free g n = true -> gsim g n (inputs_at g v n) k t = Some xs -> Fresh g v k n t (S t) xs
| fresh_same n a t u xs :
    gkind g n = Oper -> gpar g n = [a; a] -> Fresh g v k a t u xs -> k <= length xs ->
    Fresh g v k n t u (op_values g (gop g n) (firstn k xs) (firstn k xs))
| fresh_diff n a b t u w xs ys :
    gkind g n = Oper -> gpar g n = [a; b] -> a <> b ->
    Fresh g v k a t u xs -> Fresh g v k b u w ys -> k <= length xs -> k <= length ys ->
    Fresh g v k n t w (op_values g (gop g n) (firstn k xs) (firstn k ys)).

(** The answers of the graph operations, and of a list of them one after the other (none after an exception). *)
Inductive reply :=
| RDone                                       (* sample_from_prior returned *)
| RParams (l : list (option (list Q)))        (* get_parameters *)
| RSet (b : bool) (j : nat)                   (* set_parameters: accepted, values consumed *)
| ROrder (l : list (list Q))                  (* get_correct_ordering *)
| RMap (l : list (nat * nat)) (k : nat)       (* both mappings *)
| RPdf (q : Q)                                (* pdf_of_prior *)
| RErr (e : pyerr).
Definition answer {A} (f : A -> reply) (r : st * res A) : st * reply :=
  (fst r, match snd r with Ok a => f a | Err e => RErr e end).
Definition ask (g : graph) (roots : list nat) (o : op) (s : st) : st * reply :=
  match o with
  | OSample t => answer (fun _ => RDone) (sample_from_prior g roots t s)
  | OGet => answer RParams (get_parameters g roots s)
  | OSet p => answer (fun r => RSet (fst r) (snd r)) (set_parameters g roots p s)
  | OOrder pm => answer ROrder (get_correct_ordering g roots pm s)
  | OMap => answer (fun r => RMap (fst r) (snd r)) (get_mapping g roots s)
  | OApm => answer (fun r => RMap (fst r) (snd r)) (apm_get_mapping g roots s)
  | OPdf p => answer RPdf (pdf_of_prior g roots p s)
  end.
Fixpoint asks (g : graph) (roots : list nat) (os : list op) (s : st) : list reply :=
  match os with
  | [] => []
  | o :: os' => let (s', r) := ask g roots o s in
                match r with RErr _ => [r] | _ => r :: asks g roots os' s' end
  end.
(** the graph just built, with the stored values and the generator of s *)
Definition newborn (s : st) : st := mkst (fun _ => false) (val s) (fun _ => None) (ctr s) [].
