(** Properties C20 and C21 for RSMCABC. *)
From Coq Require Import Permutation Sorting.Sorted Reals Lra.
From Verif Require Import M_Base M_Num L_Num M_Infer S_Infer L_Infer M_PMCABC S_PMCABC L_PMCABC M_RSMCABC S_RSMCABC L_RSMCABC P_PMCABC.
Open Scope nat_scope.

(** the number of attempts int(log(const) / log(1 - p)) is not negative when const is in (0, 1] *)
Theorem C20_attempts_nonneg : forall const p : R, (0 < const <= 1)%R -> (0 < p < 1)%R -> (0 <= ln const / ln (1 - p))%R.
Proof.
  intros c p [Hc Hc1] [Hp Hp1]. assert (H1 : (ln c <= 0)%R). { rewrite <- ln_1. destruct Hc1 as [H| ->]; [left; apply ln_increasing; lra | right; reflexivity]. }
  assert (H2 : (ln (1 - p) < 0)%R) by (rewrite <- ln_1; apply ln_increasing; lra).
  unfold Rdiv. replace (ln c * / ln (1 - p))%R with ((- ln c) * / (- ln (1 - p)))%R by (field; lra).
  apply Rmult_le_pos; [lra|]. left. apply Rinv_0_lt_compat. lra.
Qed.
Print Assumptions C20_attempts_nonneg.

Section Statements.
Variables Theta Rng Y : Type.
Variable setp : Theta -> Theta -> bool * Theta.
Variable pdfv : Theta -> Theta -> num.
Variable kupd : pop Theta -> nat -> Rng -> Rng * Theta.
Variable kpdf : pop Theta -> Theta -> Theta -> num.
Variable prior : Rng -> Rng * Theta.
Variable simc : Theta -> Rng -> Rng * option Y.
Variable dist : Y -> num.
Variable dist_max : num.
Variable mkrng : Z -> Rng.
Variable reseed : Rng -> Rng.
Variable choiceU : nat -> Rng -> res (Rng * nat).
Variable bern : num -> Rng -> res (Rng * bool).
Variable newR : Q -> res Z.
Notation rs_sample := (rs_sample Theta Rng Y setp pdfv kupd kpdf prior simc dist dist_max mkrng reseed choiceU bern newR).
Notation Particle := (Particle setp pdfv kupd prior simc dist dist_max (fun n _ r => choiceU n r)).
Notation RRun := (RRun setp pdfv kupd kpdf simc dist bern).

(** What sample does on a fresh object.  With k = round(n alpha): n particles drawn from the prior within the first threshold; then, per
    iteration, k particles are replenished from the n - k closest ones, the threshold being the largest distance of these. *)
Theorem C20_run : set_ok setp -> (forall p z, (0 < p)%Q -> (p < 1)%Q -> newR p = Ok z -> (0 <= z)%Z) ->
  forall steps n alpha e0 ef full fuel seed dists0 cur0 count0 s, 0 < steps ->
  rs_sample steps n alpha e0 ef full None fuel seed None dists0 cur0 count0 = Ok s ->
  let k := Z.to_nat (pyround (inject_Z (Z.of_nat n) * alpha)) in
  k < n /\ exists r krows kds es rs, length (r_rows r) = n /\ Forall2 (Particle n None e0) (r_rows r) (r_ds r)
  /\ r_w r = repeat (ndiv (Fin 1) (Fin (inject_Z (Z.of_nat n)))) n
  /\ Closest (n - k) (r_rows r) (r_ds r) krows kds /\ RRun n k krows kds (r_nsim r) es rs /\ (nlt e0 dist_max = true -> count0 + n <= r_nsim r)
  /\ q_eps Theta s = e0 :: es /\ q_hist Theta s = r :: rs /\ length es = steps - 1 /\ length rs = steps - 1
  /\ q_recs Theta s = (if full =? 1 then q_hist Theta s else if full =? 0 then [last (q_hist Theta s) (mkrec [] [] [] 0)] else []).
Proof. exact (rs_sample_run Theta Rng Y setp pdfv kupd kpdf prior simc dist dist_max mkrng reseed choiceU bern newR). Qed.

(** C20.  In such a run, if no distance is NaN: every iteration has n particles, n equal weights and n distances within its threshold,
    thresholds do not increase, and each population consists of the n - k closest particles of the previous one and k others. *)
Theorem C20_population : set_ok setp -> (forall p z, (0 < p)%Q -> (p < 1)%Q -> newR p = Ok z -> (0 <= z)%Z) ->
  forall steps n alpha e0 ef full fuel seed dists0 cur0 count0 s, 0 < steps -> is_nan e0 = false ->
  rs_sample steps n alpha e0 ef full None fuel seed None dists0 cur0 count0 = Ok s ->
  (forall r, In r (q_hist Theta s) -> Forall (fun d => is_nan d = false) (r_ds r)) ->
  let k := Z.to_nat (pyround (inject_Z (Z.of_nat n) * alpha)) in
  length (q_hist Theta s) = steps
  /\ Forall2 (full_below n) (q_eps Theta s) (q_hist Theta s)
  /\ (forall t e1 e2, nth_error (q_eps Theta s) t = Some e1 -> nth_error (q_eps Theta s) (S t) = Some e2 -> nle e2 e1 = true)
  /\ (forall t r1 r2, nth_error (q_hist Theta s) t = Some r1 -> nth_error (q_hist Theta s) (S t) = Some r2 ->
      exists krows kds nrows nds, Closest (n - k) (r_rows r1) (r_ds r1) krows kds
      /\ r_rows r2 = krows ++ nrows /\ r_ds r2 = kds ++ nds /\ length nrows = k /\ nth_error (q_eps Theta s) (S t) = Some (last kds NaN)).
Proof.
  intros Hset HR steps n alpha e0 ef full fuel seed dists0 cur0 count0 s Hs He H Hnan.
  destruct (C20_run Hset HR _ _ _ _ _ _ _ _ _ _ _ _ Hs H) as [Hk (r & krows & kds & es & rs & A1 & A2 & A3 & A4 & A5 & _ & A6 & A7 & A8 & A9 & _)]. cbv zeta in *.
  set (k := Z.to_nat (pyround (inject_Z (Z.of_nat n) * alpha))) in *. clearbody k. rewrite A7 in *. rewrite A6.
  split; [cbn; lia|]. assert (Hd : length (r_ds r) = n) by (rewrite <- (F2_len _ _ _ A2); exact A1).
  assert (Hb : Forall (fun d => nle d e0 = true) (r_ds r)).
  { specialize (Hnan r (or_introl eq_refl)). clear - A2 Hnan He. induction A2 as [|th d rows ds [Hlt _] A2 IH]; [constructor|]. inversion Hnan; subst. constructor; [apply nlt_false_nle; assumption | auto]. }
  destruct (closest_in _ _ _ _ _ _ (eq_trans A1 (eq_sym Hd)) A4) as [_ Hin]. pose proof A4 as A4'. destruct A4' as (K1 & K2 & orows & ods & _ & _ & Hsort).
  destruct (Hsort (Hnan r (or_introl eq_refl))) as [Hs' _].
  assert (Hn' : Forall (fun d => is_nan d = false) kds). { apply Forall_forall. intros d Hdd. pose proof (Hnan r (or_introl eq_refl)) as Hr. rewrite Forall_forall in Hr. apply Hr, Hin, Hdd. }
  assert (HN : Forall (no_nan Theta) rs) by (apply Forall_forall; intros r' Hr'; apply Hnan; right; exact Hr').
  destruct (rrun_ok Theta Rng Y setp pdfv kupd kpdf simc dist bern n k krows kds _ es rs Hk K1 K2 Hn' Hs' A5 HN) as [B1 B2].
  split; [constructor; [repeat split; assumption | exact B1]|]. split.
  - apply B2. rewrite Forall_forall in Hb. apply Hb, Hin, last_in. destruct kds; [cbn in K2; lia | discriminate].
  - clear - A4 A5. remember (r_nsim r) as cnt eqn:Ecnt. clear Ecnt. revert e0 r A4. induction A5 as [krows kds count | krows kds count R eps nrows nds r' krows' kds' es rs C1 C2 C3 C4 C5 C6 C7 Z1 Z2 C8 HR' IH]; intros e0 r A4 t r1 r2 H1 H2.
    + destruct t as [|t]; [discriminate | destruct t; discriminate].
    + destruct t as [|t].
      * cbn in H1, H2. injection H1 as <-. injection H2 as <-. exists krows, kds, nrows, nds. cbn. subst eps. auto 10.
      * change (nth_error (r' :: rs) t = Some r1) in H1. change (nth_error (r' :: rs) (S t) = Some r2) in H2. exact (IH eps r' C8 t r1 r2 H1 H2).
Qed.

(** C21 fails for RSMCABC in every run: evaluating the prior of the old particle puts it back into the graph, so the parameters of an
    accepted move are lost.  If the particles of the first population can always be assigned, no later iteration contains a parameter
    vector that was not in the first one. *)
Theorem C21_rsmcabc_never_moves : set_ok setp -> (forall p z, (0 < p)%Q -> (p < 1)%Q -> newR p = Ok z -> (0 <= z)%Z) ->
  forall steps n alpha e0 ef full fuel seed dists0 cur0 count0 s r0, 0 < steps ->
  rs_sample steps n alpha e0 ef full None fuel seed None dists0 cur0 count0 = Ok s ->
  hd_error (q_hist Theta s) = Some r0 -> (forall th c, In th (r_rows r0) -> setp th c = (true, th)) ->
  forall r th, In r (q_hist Theta s) -> In th (r_rows r) -> In th (r_rows r0).
Proof.
  intros Hset HR steps n alpha e0 ef full fuel seed dists0 cur0 count0 s r0 Hs H H0 Hst r th Hr Hth.
  destruct (C20_run Hset HR _ _ _ _ _ _ _ _ _ _ _ _ Hs H) as [Hk (r' & krows & kds & es & rs & A1 & A2 & A3 & A4 & A5 & _ & A6 & A7 & _)]. cbv zeta in *.
  rewrite A7 in *. injection H0 as ->. destruct Hr as [<-|Hr]; [exact Hth|].
  eapply (rrun_stuck Theta Rng Y setp pdfv kupd kpdf simc dist bern _ _ _ _ _ _ _ (r_rows r0) A5); [| | |exact Hr | exact Hth].
  - destruct A4 as (? & ? & _). congruence.
  - apply (closest_in Theta _ _ _ _ _ (F2_len _ _ _ A2) A4).
  - intros t c Ht. rewrite Hst by exact Ht. reflexivity.
Qed.

(** Reaching the final threshold is an error (self.logger(...) is called): a run that returns has used no threshold below it. *)
Theorem C20_final_threshold_raises : forall steps n alpha e0 ef full jf fuel seed mgr0 dists0 cur0 count0 s,
  rs_sample steps n alpha e0 ef full jf fuel seed mgr0 dists0 cur0 count0 = Ok s -> Forall (fun e => nlt e ef = false) (q_eps Theta s).
Proof. intros. unfold M_RSMCABC.rs_sample in H. eapply rs_final; [exact H | constructor]. Qed.
(** zero attempts, which follow an acceptance rate above 1 - const, are an error too *)
Theorem C20_zero_attempts_raise : forall n k steps e0 ef full fuel t seed s s', q_R Theta s = 0%Z ->
  rs_step Theta Rng Y setp pdfv kupd kpdf prior simc dist dist_max mkrng reseed choiceU bern newR n k steps e0 ef full fuel (S t) seed s <> Ok s'.
Proof. intros. apply rs_zero. assumption. Qed.
End Statements.
Print Assumptions C20_run.
Print Assumptions C20_population.
Print Assumptions C21_rsmcabc_never_moves.
Print Assumptions C20_final_threshold_raises.
Print Assumptions C20_zero_attempts_raise.

(** * Cases *)
Definition xbern (p : num) (r : Z) : res (Z * bool) := Ok ((r + 1)%Z, true).
Definition xchoiceU (n : nat) (r : Z) : res (Z * nat) := Ok ((r + 1)%Z, Z.to_nat (r mod Z.of_nat n)).
Definition ykupd (p : pop Q) (i : nat) (r : Z) : Z * Q := let x := nth i (p_rows p) 0%Q in ((r + 1)%Z, (if Qle_bool (1 # 4) x then x - (1 # 4) else x)%Q).
Definition xrs := rs_sample Q Z Q xset xpdf ykupd (fun _ _ _ => Fin 1) xprior (fun c r => (r, Some c)) Fin PInf (fun s => s) (fun r => r) xchoiceU xbern (fun _ => Ok 2%Z).
Definition xseed (t j : nat) : Z := Z.of_nat (3 * t + 2 * j + 2).
Definition show (r : rec Q) := (map Qred (r_rows r), map red (r_ds r)).
Example C20_case : exists s, xrs 3 4 (1 # 2) (Fin 5) (Fin 0) 1 None 30 xseed None None 0%Q 0 = Ok s
  /\ map red (q_eps Q s) = [Fin 5; Fin 1; Fin (3 # 4)] /\ length (q_recs Q s) = 3 /\ (forall th c, In th [2; 4; 0; 1]%Q -> xset th c = (true, th)).
Proof.
  eexists. split; [vm_compute; reflexivity|]. split; [vm_compute; reflexivity|]. split; [reflexivity|].
  intros th c [<-|[<-|[<-|[<-|[]]]]]; reflexivity.
Qed.
(** C21: the moves of the second iteration are simulated at 3/4, but reported with the parameter 1 *)
Theorem C21_rsmcabc_refuted : exists s, xrs 3 4 (1 # 2) (Fin 5) (Fin 0) 1 None 30 xseed None None 0%Q 0 = Ok s
  /\ map show (q_recs Q s) = [([2; 4; 0; 1]%Q, [Fin 2; Fin 4; Fin 0; Fin 1]); ([0; 1; 1; 1]%Q, [Fin 0; Fin 1; Fin (3 # 4); Fin (3 # 4)]);
                              ([0; 1; 0; 0]%Q, [Fin 0; Fin (3 # 4); Fin 0; Fin 0])]
  /\ ~ exists r r' : Z, (r, Some 1%Q) = (r', Some (3 # 4)%Q).
Proof. eexists. split; [vm_compute; reflexivity|]. split; [vm_compute; reflexivity|]. intros (r & r' & H). discriminate. Qed.
Print Assumptions C21_rsmcabc_refuted.
(** restarting from a journal: as soon as a move is refused, the distances of the old population are missing *)
Theorem C20_restart_refuted : xrs 1 4 (1 # 2) (Fin 1) (Fin 0) 1 (Some (mkpop [2; 3]%Q [Fin (1 # 2); Fin (1 # 2)])) 30 xseed None None 0%Q 0 = Err AttributeError.
Proof. vm_compute. reflexivity. Qed.
Print Assumptions C20_restart_refuted.
(** round(n alpha) = 0: the second iteration has nothing to replenish and raises ValueError *)
Theorem C20_nothing_to_replenish_refuted : xrs 2 4 (1 # 10) (Fin 5) (Fin 0) 1 None 30 xseed None None 0%Q 0 = Err ValueError.
Proof. vm_compute. reflexivity. Qed.
Print Assumptions C20_nothing_to_replenish_refuted.
(** a second call on the same object starts from the old population and the old distances, which the new threshold need not respect *)
Theorem C20_second_call_refuted : exists s1 s2, xrs 2 4 (1 # 2) (Fin 5) (Fin 0) 1 None 30 xseed None None 0%Q 0 = Ok s1
  /\ xrs 1 4 (1 # 2) (Fin (1 # 8)) (Fin 0) 1 None 30 (fun _ j => Z.of_nat j) (q_mgr Q s1) (q_dists Q s1) 0%Q 0 = Ok s2
  /\ existsb (nlt (Fin (1 # 8))) (concat (map (fun r => r_ds r) (q_recs Q s2))) = true.
Proof. eexists. eexists. split; [vm_compute; reflexivity|]. split; [vm_compute; reflexivity|]. vm_compute. reflexivity. Qed.
Print Assumptions C20_second_call_refuted.
