(** Properties C18, C19, C21 for PMCABC. *)
From Verif Require Import M_Base M_Num L_Num M_Infer S_Infer L_Infer M_PMCABC S_PMCABC L_PMCABC.
Open Scope nat_scope.

Section Statements.
Variables Theta Rng Y : Type.
Variable setp : Theta -> Theta -> bool * Theta.
Variable pdfv : Theta -> Theta -> num.
Variable kupd : pop Theta -> nat -> Rng -> Rng * Theta.
Variable kpdf : pop Theta -> Theta -> Theta -> num.
Variable prior : Rng -> Rng * Theta.
Variable simc : Theta -> Rng -> Rng * option Y.
Variable dist : Y -> num.
Variable dist_max : num.
Variable mkrng : Z -> Rng.
Variable reseed : Rng -> Rng.
Variable choice : nat -> list num -> Rng -> res (Rng * nat).
Notation sample := (sample Theta Rng Y setp pdfv kupd kpdf prior simc dist dist_max mkrng reseed choice).
Notation Run := (Run setp pdfv kupd kpdf prior simc dist dist_max choice).

(** C18.  Whenever sample returns, its iterations form a [Run]: the first threshold is the user's (restarting from a journal: the larger
    of it and the percentile of the journal's distances), each later one the percentile of the distances just accepted or the larger of it
    and the user's value, and the particles of an iteration are drawn from
    the prior or by perturbing the previous population, simulated and not above its threshold; the simulations are counted.  With full_output = 1 every
    iteration is recorded, with 0 the last one. *)
Theorem C18_run : set_ok setp -> forall steps init n a full jf fuel seeds mgr0 cur0 count0 s,
  0 < steps -> length seeds = steps -> sample steps init n a full jf fuel seeds mgr0 cur0 count0 = Ok s ->
  exists e0, hd_error init = Some e0
  /\ (let us := if length init =? steps then map Some (tl init) else repeat None (steps - 1) in
      match jf with
      | None => Run n a mgr0 count0 e0 us seeds (s_used Theta s) (s_hist Theta s)
      | Some rs => exists pc, percentile (rs_ds Theta rs) a = Ok pc /\ Run n a (Some (rs_pop Theta rs)) count0 (nmax pc e0) us seeds (s_used Theta s) (s_hist Theta s)
      end)
  /\ s_recs Theta s = (if full =? 1 then s_hist Theta s else if full =? 0 then [last (s_hist Theta s) (mkrec [] [] [] 0)] else [])
  /\ (exists extra, s_eps Theta s = map Some (s_used Theta s) ++ extra).
Proof. exact (sample_run Theta Rng Y setp pdfv kupd kpdf prior simc dist dist_max mkrng reseed choice). Qed.

(** every distance of an iteration is at most its threshold *)
Theorem C18_respected : forall n a mgr count e us seeds es rs, Run n a mgr count e us seeds es rs ->
  length es = length seeds /\ length rs = length seeds
  /\ forall t et r d, nth_error es t = Some et -> nth_error rs t = Some r -> In d (r_ds r) -> nle d et = true \/ is_nan d = true \/ is_nan et = true.
Proof.
  intros n a mgr count e us seeds es rs H. destruct (run_length _ _ _ _ _ _ _ _ _ _ _ _ _ _ _ _ _ _ _ _ _ H) as [A B]. split; [exact A|]. split; [exact B|].
  intros t et r d H1 H2 H3. apply nlt_false. exact (run_below _ _ _ _ _ _ _ _ _ _ _ _ _ _ _ _ _ _ _ _ _ H t et r d H1 H2 H3).
Qed.
(** with a percentile in 0..100, no later user thresholds or a non-increasing list of them, and finite distances, no threshold is above
    its predecessor *)
Theorem C18_nonincreasing : forall n a mgr count e us seeds es rs, (0 <= a <= 100)%Q -> Run n a mgr count e us seeds es rs ->
  is_nan e = false -> nonincreasing e us ->
  (forall r d, In r rs -> In d (r_ds r) -> exists q, d = Fin q) ->
  forall t e1 e2, nth_error es t = Some e1 -> nth_error es (S t) = Some e2 -> nle e2 e1 = true.
Proof. intros n a mgr count e us seeds es rs [H0 H1] H. exact (run_monotone _ _ _ _ _ _ _ _ _ _ _ _ n a mgr count e us seeds es rs H0 H1 H). Qed.

(** C21 for PMCABC: a reported pair was simulated from that parameter vector (or from what a refused assignment of it left). *)
Theorem C21_pmcabc : forall n a mgr count e us seeds es rs, Run n a mgr count e us seeds es rs ->
  forall r, In r rs -> Forall2 (fun th d => d = dist_max \/ Simulated setp simc dist th d) (r_rows r) (r_ds r).
Proof.
  assert (Hi : forall n m c e sd r, Iter setp pdfv kupd kpdf prior simc dist dist_max choice n m c e sd r -> Forall2 (fun th d => d = dist_max \/ Simulated setp simc dist th d) (r_rows r) (r_ds r)).
  { intros n m c e sd r (_ & _ & H & _). induction H as [|th d rows ds [_ H] HF IH]; constructor; [tauto | assumption]. }
  induction 1 as [mgr count e sd r HI | mgr count e u us sd sds r pc es rs HI Hpc HR IH]; intros r0 Hin.
  - destruct Hin as [<-|[]]. eapply Hi; eassumption.
  - destruct Hin as [<-|Hin]; [eapply Hi; eassumption | apply IH; exact Hin].
Qed.

(** C19 for PMCABC: with positive finite prior and kernel densities, and n samples per iteration, every iteration has n positive weights
    that sum to one. *)
Theorem C19_pmcabc : forall n a mgr count e us seeds es rs, Run n a mgr count e us seeds es rs -> 0 < n -> Forall (fun sd => length sd = n) seeds ->
  (forall th c, exists q, pdfv th c = Fin q /\ (0 < q)%Q) -> (forall p x y, exists q, kpdf p x y = Fin q /\ (0 < q)%Q) ->
  (forall p, mgr = Some p -> exists ws, p_w p = map Fin ws /\ Forall (fun x => 0 < x)%Q ws) ->
  forall r, In r rs -> good_weights r.
Proof. exact (run_weights Theta Rng Y setp pdfv kupd kpdf prior simc dist dist_max choice). Qed.
End Statements.
Print Assumptions C18_run.
Print Assumptions C18_respected.
Print Assumptions C18_nonincreasing.
Print Assumptions C21_pmcabc.
Print Assumptions C19_pmcabc.

(** * A small machine: parameters in 0..6 from the prior, moved down by a quarter by the kernel; refused below -1, prior density 0 below 0 *)
Open Scope Q_scope.
Definition xset (th cur : Q) : bool * Q := if Qle_bool (-1) th then (true, th) else (false, cur).
Definition xpdf (th cur : Q) : num := if Qle_bool 0 th then Fin (1 # 7) else Fin 0.
Definition xkupd (p : pop Q) (i : nat) (r : Z) : Z * Q := ((r + 1)%Z, nth i (p_rows p) 0 - (1 # 4)).
Definition xprior (r : Z) : Z * Q := ((r + 1)%Z, inject_Z (r mod 7)).
Definition xchoice (n : nat) (w : list num) (r : Z) : res (Z * nat) := Ok ((r + 1)%Z, Z.to_nat (r mod Z.of_nat n)).
Definition xsample (kp : pop Q -> Q -> Q -> num) := sample Q Z Q xset xpdf xkupd kp xprior (fun c r => (r, Some c)) Fin PInf (fun s => s) (fun r => r) xchoice.
Lemma xset_ok : set_ok xset.
Proof. split; [intros th cur cur' | intros th]; unfold xset; destruct (Qle_bool (-1) th); cbn; congruence. Qed.
Open Scope nat_scope.
Example C18_case : exists s, xsample (fun _ _ _ => Fin 1) 3 [Fin 4] 3 50 1 None 30 [[2; 8; 10]; [1; 2; 3]; [4; 5; 6]]%Z None 0%Q 0 = Ok s
  /\ map (fun r => length (r_rows r)) (s_recs Q s) = [3; 3; 3]
  /\ nth_error (s_used Q s) 0 = Some (Fin 4)
  /\ (forall e, nth_error (s_used Q s) 1 = Some e -> nle e (Fin 2) = true /\ nle (Fin 2) e = true).
Proof.
  eexists. split; [vm_compute; reflexivity|]. split; [vm_compute; reflexivity|]. split; [vm_compute; reflexivity|].
  intros e H. vm_compute in H. injection H as <-. split; reflexivity.
Qed.
Example C18_nonincreasing_case : nonincreasing (Fin 4) [Some (Fin 3); Some (Fin 3)].
Proof. cbn. auto 10. Qed.
Definition red (w : num) : num := match w with Fin q => Fin (Qred q) | _ => w end.
Example C19_pmcabc_case : exists s, xsample (fun _ _ _ => Fin 1) 2 [Fin 4] 2 50 1 None 30 [[2; 8]; [1; 3]]%Z None 0%Q 0 = Ok s
  /\ map (fun r => map red (r_w r)) (s_recs Q s) = [[Fin (1 # 2); Fin (1 # 2)]; [Fin (1 # 2); Fin (1 # 2)]].
Proof. eexists. split; [vm_compute; reflexivity|]. vm_compute. reflexivity. Qed.

(** A schedule of [steps] thresholds is the caller's own list: sample overwrites it. *)
Theorem C18_caller_list_refuted : exists s, xsample (fun _ _ _ => Fin 1) 2 [Fin 4; Fin 0] 3 100 0 None 30 [[2; 8; 10]; [1; 2; 3]]%Z None 0%Q 0 = Ok s
  /\ exists e, s_eps Q s = [Some (Fin 4); Some e] /\ nle (Fin 3) e = true.
Proof. eexists. split; [vm_compute; reflexivity|]. eexists. split; vm_compute; reflexivity. Qed.
Print Assumptions C18_caller_list_refuted.
(** A second call on the same object does not start from the prior: the manager still holds the population of the first call.  The prior
    here never gives 7/4. *)
Theorem C18_second_call_refuted : exists s1 s2,
  xsample (fun _ _ _ => Fin 1) 1 [Fin 4] 2 50 0 None 30 [[2; 8]]%Z None 0%Q 0 = Ok s1
  /\ xsample (fun _ _ _ => Fin 1) 1 [Fin 4] 2 50 0 None 30 [[2; 8]]%Z (s_mgr Q s1) (s_cur Q s1) (s_count Q s1) = Ok s2
  /\ map (fun r => map Qred (r_rows r)) (s_recs Q s1) = [[2; 1]]%Q /\ map (fun r => map Qred (r_rows r)) (s_recs Q s2) = [[7 # 4; 7 # 4]]%Q.
Proof. eexists. eexists. split; [vm_compute; reflexivity|]. split; [vm_compute; reflexivity|]. split; vm_compute; reflexivity. Qed.
Print Assumptions C18_second_call_refuted.
(** Restarting appends the whole threshold list once per iteration: 1 entry becomes 1 + 2 * 2. *)
Theorem C18_restart_configuration_refuted : exists s,
  xsample (fun _ _ _ => Fin 1) 2 [Fin 4] 2 50 0 (Some (mkrs Q (mkpop [2; 1]%Q [Fin (1 # 2); Fin (1 # 2)]) [Fin 2; Fin 1] (Some [Some (Fin 9)]))) 30 [[2; 8]; [1; 2]]%Z None 0%Q 0 = Ok s
  /\ length (conf_value Q s) = 5 /\ length (s_used Q s) = 2.
Proof. eexists. split; [vm_compute; reflexivity|]. split; vm_compute; reflexivity. Qed.
Print Assumptions C18_restart_configuration_refuted.
(** A kernel density of 0 from every old particle (underflow): all weights are NaN. *)
Theorem C19_pmcabc_refuted : exists s, xsample (fun _ _ _ => Fin 0) 2 [Fin 4] 2 50 0 None 30 [[2; 8]; [1; 3]]%Z None 0%Q 0 = Ok s
  /\ map (fun r => r_w r) (s_recs Q s) = [[NaN; NaN]].
Proof. eexists. split; vm_compute; reflexivity. Qed.
Print Assumptions C19_pmcabc_refuted.
(** dist_max not above the threshold: particles that were never simulated, all the same leftover vector of the graph. *)
Theorem C21_pmcabc_refuted : exists s,
  sample Q Z Q xset xpdf xkupd (fun _ _ _ => Fin 1) xprior (fun c r => (r, Some c)) Fin (Fin 1) (fun s => s) (fun r => r) xchoice
    1 [Fin 4] 2 50 0 None 30 [[2; 8]]%Z None 42%Q 0 = Ok s
  /\ map (fun r => (r_rows r, r_ds r, r_nsim r)) (s_recs Q s) = [([42; 42]%Q, [Fin 1; Fin 1], 0)].
Proof. eexists. split; vm_compute; reflexivity. Qed.
Print Assumptions C21_pmcabc_refuted.
