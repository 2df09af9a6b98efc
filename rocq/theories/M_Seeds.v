(** Model of abcpy/inferences.py, class DrawFromPrior (154-424): seeds of the workers and chunked sampling. *)
From Verif Require Import M_Base M_Journal M_Rejection M_Num.

Fixpoint zinsert (x : Z) (l : list Z) : list Z := match l with [] => [x] | y :: l' => if (x <=? y)%Z then x :: l else y :: zinsert x l' end.
Fixpoint zsort (l : list Z) : list Z := match l with [] => [] | x :: l' => zinsert x (zsort l') end.
(* inferences.py:367-370  indices = s[:-1] == s[1:]; s[:-1][indices] += 1 (computed from the unchanged array) *)
Fixpoint bump (s : list Z) : list Z :=
  match s with
  | x :: s' => match s' with
               | y :: _ => (if (x =? y)%Z then x + 1 else x)%Z :: bump s'
               | [] => [x]
               end
  | [] => []
  end.
(* inferences.py:344-374  [seed_arr] is what randint(0, 2**32 - 1, size=n, dtype=uint32) returned: values 0 <= s < 2**32 - 1.
   The result are the seeds given to RandomState. *)
Definition worker_seeds (seed_arr : list Z) : list Z := bump (zsort seed_arr).

Section Chunks.
(** state of self.rng; one call of _sample (map over the generators of that chunk, C09) *)
Variables G A : Type.
Variable gen : G -> nat -> G * list A.
(* inferences.py:218-223.  A negative size makes randint raise ValueError; max_chunk_size = 0 never ends. *)
Fixpoint chunk_loop (m : Z) (fuel : nat) (todo : Z) (g : G) (acc : list A) : res (G * list A) :=
  if (0 <? todo)%Z then
    match fuel with
    | 0 => Err OutOfFuel
    | S f => if (Z.min todo m <? 0)%Z then Err ValueError
             else let '(g', part) := gen g (Z.to_nat (Z.min todo m)) in chunk_loop m f (todo - m) g' (acc ++ part)
    end
  else Ok (g, acc).
(* inferences.py:200-241  sample: type-1 journal of n samples *)
Definition prior_parameters (m : Z) (fuel n : nat) (g : G) : res (G * list A) := chunk_loop m fuel (Z.of_nat n) g [].
End Chunks.
(* inferences.py:243-275  sample_par_sim_pairs: two lists of parts, concatenated at the end; np.concatenate([]) raises ValueError.
   A part comes from zip( * ) of the collected pairs (335-336). *)
Fixpoint pairs_loop {G P S} (gen : G -> nat -> G * list (P * S)) (m : Z) (fuel : nat) (todo : Z) (g : G) (ps : list (list P)) (ss : list (list S))
  : res (G * list (list P) * list (list S)) :=
  if (0 <? todo)%Z then
    match fuel with
    | 0 => Err OutOfFuel
    | Datatypes.S f => if (Z.min todo m <? 0)%Z then Err ValueError
             else let '(g', part) := gen g (Z.to_nat (Z.min todo m)) in
                  pairs_loop gen m f (todo - m) g' (ps ++ [map fst part]) (ss ++ [map snd part])
    end
  else Ok (g, ps, ss).
Definition sample_par_sim_pairs {G P S} (gen : G -> nat -> G * list (P * S)) (m : Z) (fuel n : nat) (g : G) : res (G * list P * list S) :=
  match pairs_loop gen m fuel (Z.of_nat n) g [] [] with
  | Err e => Err e
  | Ok (g', ps, ss) => match ps with [] => Err ValueError | _ => Ok (g', concat ps, concat ss) end
  end.

(** The values among which randint(lo, hi) chooses: lo, ..., hi - 1. *)
Definition randint_values (r : Z * Z) : list Z := map (fun i => (fst r + Z.of_nat i)%Z) (seq 0 (Z.to_nat (snd r - fst r))).
(* inferences.py:580, modelselections.py:148 and 193, statisticslearning.py:120  rng.randint(1, n * n, size=n) *)
Definition square_range (n : nat) : Z * Z := (1, Z.of_nat n * Z.of_nat n)%Z.
(* inferences.py:365, 875, 1305, 1688, 2171, 2645, 2997, 3523, 4542, output.py:1207  rng.randint(0, np.iinfo(np.uint32).max, size=n) *)
Definition uint32_range : Z * Z := (0, 2 ^ 32 - 1)%Z.
