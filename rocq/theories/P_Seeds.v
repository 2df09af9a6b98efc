(** Properties C42, C43: worker seeds and chunked prior sampling. *)
From Verif Require Import M_Base M_Seeds S_Seeds L_Seeds.

(** C42.  As many seeds as were drawn, all of them valid 32-bit seeds. *)
Theorem C42_range : forall draws, (forall v, In v draws -> 0 <= v < 2 ^ 32 - 1)%Z ->
  length (worker_seeds draws) = length draws /\ forall v, In v (worker_seeds draws) -> (0 <= v <= 2 ^ 32 - 1)%Z.
Proof. exact worker_seeds_range. Qed.
Print Assumptions C42_range.
(** They are pairwise distinct exactly when no value was drawn three times and no value drawn twice has its successor drawn too. *)
Theorem C42_distinct : forall draws,
  NoDup (worker_seeds draws) <->
  (forall v, count_occ Z.eq_dec draws v <= 2) /\ (forall v, count_occ Z.eq_dec draws v = 2 -> ~ In (v + 1)%Z draws).
Proof. exact worker_seeds_nodup. Qed.
Print Assumptions C42_distinct.
Example C42_case : worker_seeds [9; 4; 7; 4]%Z = [5; 4; 7; 9]%Z. Proof. reflexivity. Qed.
(** So the repair of duplicates does not achieve its purpose. *)
Theorem C42_distinct_refuted : exists draws, (forall v, In v draws -> 0 <= v < 2 ^ 32 - 1)%Z /\ ~ NoDup (worker_seeds draws).
Proof.
  exists [6; 5; 5]%Z. split; [intros v H; cbn in H; intuition lia|]. intros H. vm_compute in H. inversion H as [|? ? Hn _]. apply Hn. right. left. reflexivity.
Qed.
Print Assumptions C42_distinct_refuted.

(** C43.  n samples, being the concatenation, in order, of chunks of sizes [chunk_sizes n m]: positive, at most m, of sum n.  [gen g k]
    is what one chunk of k samples produces from generator state g. *)
Theorem C43_sample : forall (G A : Type) (gen : G -> nat -> G * list A) m n fuel g,
  0 < m -> length (chunk_sizes n m) <= fuel -> (forall g k, length (snd (gen g k)) = k) ->
  exists g' xs, prior_parameters G A gen (Z.of_nat m) fuel n g = Ok (g', xs) /\ length xs = n
  /\ (g', xs) = (fst (gen_all gen (chunk_sizes n m) g), concat (snd (gen_all gen (chunk_sizes n m) g)))
  /\ list_sum (chunk_sizes n m) = n /\ forall k, In k (chunk_sizes n m) -> 0 < k <= m.
Proof. exact chunks_ok. Qed.
Print Assumptions C43_sample.
Theorem C43_pairs : forall (G P S : Type) (gen : G -> nat -> G * list (P * S)) m n fuel g,
  0 < m -> 0 < n -> length (chunk_sizes n m) <= fuel -> (forall g k, length (snd (gen g k)) = k) ->
  exists g' ps ss, sample_par_sim_pairs gen (Z.of_nat m) fuel n g = Ok (g', ps, ss)
  /\ length ps = n /\ length ss = n /\ combine ps ss = concat (snd (gen_all gen (chunk_sizes n m) g)).
Proof. exact pairs_ok. Qed.
Print Assumptions C43_pairs.
Definition ex_gen (g : nat) (k : nat) : nat * list (nat * nat) := (g + k, map (fun i => (i, 10 * i)) (seq g k)).
Example C43_case : chunk_sizes 7 3 = [3; 3; 1] /\ sample_par_sim_pairs ex_gen 3 5 7 0 = Ok (7, [0; 1; 2; 3; 4; 5; 6], [0; 10; 20; 30; 40; 50; 60])
  /\ (forall g k, length (snd (ex_gen g k)) = k).
Proof. split; [reflexivity|]. split; [reflexivity|]. intros. cbn. rewrite map_length, seq_length. reflexivity. Qed.
(** Asking for 0 pairs is an error, and a maximal chunk size of 0 never returns. *)
Theorem C43_none_refuted : sample_par_sim_pairs ex_gen 3 5 0 0 = Err ValueError.
Proof. reflexivity. Qed.
Print Assumptions C43_none_refuted.
Theorem C43_zero_chunk_refuted : forall (G A : Type) (gen : G -> nat -> G * list A) n fuel g,
  0 < n -> prior_parameters G A gen 0 fuel n g = Err OutOfFuel.
Proof. intros. apply chunk_zero. assumption. Qed.
Print Assumptions C43_zero_chunk_refuted.
