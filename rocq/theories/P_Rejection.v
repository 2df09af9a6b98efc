(** Properties C16, C17: RejectionABC; consequences of equal worker seeds (C42). *)
From Verif Require Import M_Base M_Num L_Num M_Journal M_Rejection S_Rejection L_Rejection.
From Coq Require Import Qround.
Open Scope nat_scope.

(** C16.  Whenever sample returns a journal: row i, distance i come from the first attempt of worker i whose distance is not above the
    threshold, the parameters of that attempt being the prior draw the data set was simulated from ([FirstHit], [Attempt]); n rows, n
    distances, n weights 1; no distance is above the threshold (a NaN distance is not); named columns are the columns of the rows; the
    recorded number of simulations is the total number of attempts. *)
Theorem C16_threshold :
  forall (Rng Y E Name : Type) (neqb : Name -> Name -> bool)
         (prior : Rng -> Rng * list E) (sim : list E -> Rng -> Rng * option Y) mkrng dist dist_max cols n eps full seeds fuel c0 j,
  length seeds = n ->
  sample Rng Y E Name neqb prior sim mkrng dist dist_max cols (Some n) None (Some eps) None full seeds fuel c0 = Ok j ->
  exists rows ds ks, Draws prior sim dist dist_max mkrng eps seeds rows ds ks
  /\ length rows = n /\ length ds = n
  /\ (forall d, In d ds -> nle d eps = true \/ is_nan d = true \/ is_nan eps = true)
  /\ get_accepted_parameters j None = Ok rows /\ get_distances j None = Ok ds /\ get_weights j None = Ok (Col (repeat 1%Q n))
  /\ get_parameters j None = Ok (dict_of neqb (map (fun c => (fst c, map (fun row => [snd c row]) rows)) cols))
  /\ j_nsim j = [c0 + list_sum ks].
Proof.
  intros Rng Y E Name neqb prior sim mkrng dist dist_max cols n eps full seeds fuel c0 j Hl H.
  destruct (sample_eps Rng Y E Name neqb prior sim mkrng dist dist_max cols n eps full seeds fuel c0 j Hl H) as (rows & ds & ks & G & A & B & C & D & F).
  exists rows, ds, ks. split; [exact G|]. pose proof G as (G1 & G2 & _). split; [congruence|]. split; [congruence|].
  split; [|auto]. intros d Hd. eapply draws_below; eassumption.
Qed.
Print Assumptions C16_threshold.

(** and it does return one: 2 to 46340 samples, dist_max above the threshold, every worker reaching the threshold *)
Theorem C16_total :
  forall (Rng Y E Name : Type) (neqb : Name -> Name -> bool)
         (prior : Rng -> Rng * list E) (sim : list E -> Rng -> Rng * option Y) mkrng dist dist_max cols n eps full seeds fuel c0,
  length seeds = n -> (2 <= Z.of_nat n <= 46340)%Z -> full = 0 \/ full = 1 -> nlt eps dist_max = true ->
  (forall seed, In seed seeds -> exists k th d, k <= fuel /\ FirstHit prior sim dist dist_max eps (mkrng seed) k th d) ->
  exists j, sample Rng Y E Name neqb prior sim mkrng dist dist_max cols (Some n) None (Some eps) None full seeds fuel c0 = Ok j.
Proof. intros. eapply sample_eps_total; eassumption. Qed.
Print Assumptions C16_total.

(** a small machine: the generator counts, the prior draws the count modulo 7, the simulator repeats the parameter (and fails on 5) *)
Definition ex_prior (r : Z) : Z * list Q := ((r + 1)%Z, [inject_Z (r mod 7)]).
Definition ex_sim (th : list Q) (r : Z) : Z * option Q := (r, if Qeq_bool (hd 0%Q th) 5 then None else Some (hd 0%Q th)).
Definition ex_sample := sample Z Q Q nat Nat.eqb ex_prior ex_sim (fun s => s) Fin PInf [(0, fun row => hd 0%Q row)].
Example C16_case : exists j, ex_sample (Some 3) None (Some (Fin 1)) None 0 [2; 7; 4]%Z 10 0 = Ok j
  /\ get_accepted_parameters j None = Ok [[0%Q]; [0%Q]; [0%Q]] /\ j_nsim j = [11]
  /\ get_parameters j None = Ok [(0, [[0%Q]; [0%Q]; [0%Q]])].
Proof. eexists. split; [vm_compute; reflexivity|]. vm_compute. auto. Qed.

(** Never a journal outside 2..46340 samples: randint(1, n*n, dtype=int32) has an empty or too large range. *)
Theorem C16_sizes_refuted :
  forall (Rng Y E Name : Type) (neqb : Name -> Name -> bool)
         (prior : Rng -> Rng * list E) (sim : list E -> Rng -> Rng * option Y) mkrng dist dist_max cols n eps full seeds fuel c0,
  full = 0 \/ full = 1 -> n = 1 \/ (46341 <= Z.of_nat n)%Z ->
  sample Rng Y E Name neqb prior sim mkrng dist dist_max cols (Some n) None (Some eps) None full seeds fuel c0 = Err ValueError.
Proof.
  intros Rng Y E Name neqb prior sim mkrng dist dist_max cols n eps full seeds fuel c0 Hf [-> | Hn].
  - apply sample_one. exact Hf.
  - apply sample_many; assumption.
Qed.
Print Assumptions C16_sizes_refuted.
(** A threshold that dist_max does not exceed: the loop is never entered. *)
Theorem C16_unbound_refuted :
  forall (Rng Y E Name : Type) (neqb : Name -> Name -> bool)
         (prior : Rng -> Rng * list E) (sim : list E -> Rng -> Rng * option Y) mkrng dist dist_max cols n eps full seeds fuel c0,
  full = 0 \/ full = 1 -> (2 <= Z.of_nat n <= 46340)%Z -> seeds <> [] -> nlt eps dist_max = false ->
  sample Rng Y E Name neqb prior sim mkrng dist dist_max cols (Some n) None (Some eps) None full seeds fuel c0 = Err UnboundLocalError.
Proof. intros. apply sample_unbound; assumption. Qed.
Print Assumptions C16_unbound_refuted.
Example C16_unbound_case : nlt (Fin 1) (Fin 1) = false. Proof. reflexivity. Qed.
(** A NaN distance is accepted whatever the threshold. *)
Theorem C16_nan_refuted : exists (dist : Q -> num) j,
  sample Z Q Q nat Nat.eqb ex_prior ex_sim (fun s => s) dist PInf [] (Some 2) None (Some (Fin 1)) None 0 [4; 1]%Z 10 0 = Ok j
  /\ get_distances j None = Ok [NaN; Fin 1].
Proof. exists (fun y => if Qeq_bool y 4 then NaN else Fin y). eexists. split; [vm_compute; reflexivity|]. vm_compute. reflexivity. Qed.
Print Assumptions C16_nan_refuted.

(** C17.  Whenever sample with a budget returns a journal, exactly one of quantile and threshold was given, and the journal holds exactly
    the drawn (row, distance) pairs whose distance is strictly below the cut-off ([Kept]). *)
Theorem C17_budget :
  forall (Rng Y E Name : Type) (neqb : Name -> Name -> bool), (forall a b, reflect (a = b) (neqb a b)) ->
  forall (prior : Rng -> Rng * list E) (sim : list E -> Rng -> Rng * option Y) mkrng dist dist_max cols b q epsilon full seeds fuel c0 j,
  length seeds = b ->
  sample Rng Y E Name neqb prior sim mkrng dist dist_max cols None (Some b) epsilon q full seeds fuel c0 = Ok j ->
  (q = None <-> epsilon <> None) /\
  exists rows ds ks, Draws prior sim dist dist_max mkrng (Fin max_double) seeds rows ds ks
  /\ Kept neqb cols rows ds q (match epsilon with Some e => e | None => NaN end) [c0 + list_sum ks] j.
Proof. intros. eapply sample_budget; eassumption. Qed.
Print Assumptions C17_budget.

(** the budget is spent exactly, one simulation per seed, when no attempt has an infinite distance *)
Theorem C17_budget_spent :
  forall (Rng Y E : Type) (prior : Rng -> Rng * list E) (sim : list E -> Rng -> Rng * option Y) mkrng dist dist_max seeds rows ds ks,
  (forall r r' th d, Attempt prior sim dist dist_max r r' th d -> nlt (Fin max_double) d = false) ->
  Draws prior sim dist dist_max mkrng (Fin max_double) seeds rows ds ks -> list_sum ks = length seeds.
Proof.
  intros Rng Y E prior sim mkrng dist dist_max seeds rows ds ks Ha H. rewrite (draws_one _ _ _ prior sim mkrng dist dist_max _ seeds rows ds ks Ha H).
  unfold list_sum. induction (length seeds); cbn; congruence.
Qed.
Print Assumptions C17_budget_spent.

(** how many are kept: for pairwise different finite distances, the quantile q keeps ceil((n-1) q) of them *)
Theorem C17_count : forall ql q c, distinct ql -> ql <> [] -> (0 <= q <= 1)%Q -> quantile (map Fin ql) q = Ok (Fin c) ->
  Z.of_nat (length (filter (fun d => nlt d (Fin c)) (map Fin ql))) = Qceiling (inject_Z (Z.of_nat (length ql) - 1) * q).
Proof.
  intros ql q c Hd Hne [H0 H1] Hq. pose proof (count_below_quantile ql q c Hd Hne H0 H1 Hq) as H. unfold rank in H. rewrite <- H. f_equal.
  clear. induction ql as [|x ql IH]; [reflexivity|]. cbn [map filter]. destruct (nlt (Fin x) (Fin c)); cbn [length]; congruence.
Qed.
Print Assumptions C17_count.
Example C17_count_case : exists c, quantile (map Fin [3; 1; 4; 2; 5]%Q) (3 # 10) = Ok (Fin c)
  /\ length (filter (fun d => nlt d (Fin c)) (map Fin [3; 1; 4; 2; 5]%Q)) = 2 /\ Qceiling ((5 - 1) * (3 # 10)) = 2%Z.
Proof. eexists. split; [vm_compute; reflexivity|]. vm_compute. auto. Qed.
Example C17_case : exists j, ex_sample None (Some 5) None (Some (1 # 2)%Q) 0 [2; 8; 4; 3; 6]%Z 10 0 = Ok j
  /\ get_accepted_parameters j None = Ok [[2%Q]; [1%Q]] /\ get_distances j None = Ok [Fin 2; Fin 1] /\ j_nsim j = [5] /\ j_nsamples j = Some 2.
Proof. eexists. split; [vm_compute; reflexivity|]. vm_compute. auto. Qed.

(** Equal distances: nothing is strictly below, an error instead of a journal. *)
Theorem C17_equal_refuted : exists seeds, ex_sample None (Some 3) None (Some (1 # 2)%Q) 0 seeds 10 0 = Err RuntimeError.
Proof. exists [2; 9; 16]%Z. vm_compute. reflexivity. Qed.
Print Assumptions C17_equal_refuted.
(** A distance with a finite dist_max (LogReg, PenLogReg: 1.0; Hellinger: 2): no budget call ever returns. *)
Theorem C17_bounded_distance_refuted :
  forall (Rng Y E Name : Type) (neqb : Name -> Name -> bool)
         (prior : Rng -> Rng * list E) (sim : list E -> Rng -> Rng * option Y) mkrng dist dmax cols b q epsilon full seeds fuel c0,
  full = 0 \/ full = 1 -> (2 <= Z.of_nat b <= 46340)%Z -> seeds <> [] -> (q = None <-> epsilon <> None) -> (dmax <= max_double)%Q ->
  sample Rng Y E Name neqb prior sim mkrng dist (Fin dmax) cols None (Some b) epsilon q full seeds fuel c0 = Err UnboundLocalError.
Proof.
  intros Rng Y E Name neqb prior sim mkrng dist dmax cols b q epsilon full seeds fuel c0 Hf Hb Hs Hq Hd. apply budget_unbound; try assumption.
  apply nlt_false. left. apply nle_fin. exact Hd.
Qed.
Print Assumptions C17_bounded_distance_refuted.
Example C17_bounded_distance_case : (1 <= max_double)%Q. Proof. vm_compute. discriminate. Qed.
(** The journal of a budget call lacks configuration["type_model"]: resample (C15) raises KeyError on it. *)
Theorem C17_resample_refuted : exists j, ex_sample None (Some 5) None (Some (1 # 2)%Q) 0 [2; 8; 4; 3; 6]%Z 10 0 = Ok j
  /\ resample Nat.eqb j None true [0; 1] = Err KeyError.
Proof. eexists. split; vm_compute; reflexivity. Qed.
Print Assumptions C17_resample_refuted.

(** C42: workers with equal seeds return the same sample.  RejectionABC takes the seeds straight from randint, without removing
    duplicates (2 and 2 are both in 1 .. n*n - 1). *)
Theorem C42_equal_seeds :
  forall (Rng Y E : Type) (prior : Rng -> Rng * list E) (sim : list E -> Rng -> Rng * option Y) mkrng dist dist_max eps seeds rows ds ks i j s,
  Draws prior sim dist dist_max mkrng eps seeds rows ds ks -> nth_error seeds i = Some s -> nth_error seeds j = Some s ->
  nth_error rows i = nth_error rows j /\ nth_error ds i = nth_error ds j.
Proof. intros. eapply equal_seeds; eassumption. Qed.
Print Assumptions C42_equal_seeds.
Theorem C42_rejection_refuted : exists seeds j, (forall s, In s seeds -> 1 <= s < 3 * 3)%Z
  /\ ex_sample (Some 3) None (Some (Fin 4)) None 0 seeds 10 0 = Ok j /\ get_accepted_parameters j None = Ok [[2%Q]; [2%Q]; [3%Q]].
Proof.
  exists [2; 2; 3]%Z. eexists. split; [|split; [vm_compute; reflexivity | vm_compute; reflexivity]].
  intros s H. cbn in H. intuition lia.
Qed.
Print Assumptions C42_rejection_refuted.
