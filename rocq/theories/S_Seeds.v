(** Chunks of a request. *)
From Verif Require Import M_Base.

(** sizes of the chunks of n samples with at most m per chunk: full chunks, then the rest *)
Definition chunk_sizes (n m : nat) : list nat := repeat m (n / m) ++ (if n mod m =? 0 then [] else [n mod m]).
(** successive chunks of the given sizes, generated in order *)
Fixpoint gen_all {G A} (gen : G -> nat -> G * list A) (sizes : list nat) (g : G) : G * list (list A) :=
  match sizes with
  | [] => (g, [])
  | k :: sizes' => let '(g', part) := gen g k in let '(g'', parts) := gen_all gen sizes' g' in (g'', part :: parts)
  end.
