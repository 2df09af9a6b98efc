(** Property C19 for PMC. *)
From Coq Require Import Reals Qreals Lra.
From Verif Require Import M_Base M_Num L_Num M_Infer S_Infer L_Infer M_PMCABC S_PMCABC L_PMCABC M_RSMCABC L_RSMCABC M_XReal M_PMC S_PMC L_PMC.
Open Scope nat_scope.

Section Statements.
Variables Theta Rng Y : Type.
Variable setp : Theta -> Theta -> bool * Theta.
Variable pdfv : Theta -> Theta -> num.
Variable kupd : wpop Theta -> nat -> Rng -> Rng * Theta.
Variable kpdf : wpop Theta -> Theta -> Theta -> xr.
Variable prior : Rng -> Rng * Theta.
Variable simc : Theta -> Rng -> Rng * option Y.
Variable loglik : Y -> xr.
Variable mkrng : Z -> Rng.
Variable choiceN : nat -> nat -> list xr -> Rng -> res (Rng * list nat).
Notation PIter := (PIter setp pdfv kupd kpdf simc loglik choiceN).
Notation PmRun := (PmRun setp pdfv kupd kpdf simc loglik choiceN).
Notation pm_sample := (pm_sample Theta Rng Y setp pdfv kupd kpdf prior simc loglik mkrng choiceN).

Definition Prior (th : Theta) : Prop := exists r r', prior r = (r', th).
Lemma draws_spec n : forall r, length (snd (draws Theta Rng prior n r)) = n /\ Forall Prior (snd (draws Theta Rng prior n r)).
Proof.
  induction n as [|n IH]; intros r; cbn; [split; [reflexivity | constructor]|]. destruct (prior r) as [r1 th] eqn:Ep. specialize (IH r1). destruct (draws Theta Rng prior n r1) as [r2 l]. cbn in *. destruct IH as [E H]. split; [congruence|]. constructor; [exists r, r1; exact Ep | exact H].
Qed.
(** A run: n prior draws with equal weights (or the journal's particles), then [steps] iterations [PIter], each of n * per simulations.
    With full_output = 1 all are recorded, with 0 the last one. *)
Theorem C19_pmc_run : set_ok setp -> forall steps n per full journal fuel r0 gen seed cur0 count0 s,
  pm_sample steps n per full None journal fuel r0 gen seed cur0 count0 = Ok s ->
  exists p rs, match journal with
               | Some q => p = q
               | None => Forall Prior (wp_rows p) /\ length (wp_rows p) = n /\ wp_w p = repeat (xdiv (XR 1) (XR (INR n))) n
               end
  /\ PmRun n per p count0 rs /\ length rs = steps /\ Forall (fun r => length (wr_rows r) = n) rs
  /\ m_recs Theta s = (if full =? 1 then rs else if full =? 0 then firstn 1 (rev rs) else []).
Proof.
  intros Hset steps n per full journal fuel r0 gen seed cur0 count0 s H. unfold M_PMC.pm_sample in H. cbv beta zeta in H.
  apply iterate_spec in H; [|exact Hset | reflexivity]. destruct H as (rs & H1 & H2 & _ & H4 & H5). cbn [m_pop m_count m_recs app] in *.
  eexists. exists rs. split; [|split; [exact H1|]; split; [exact H2|]; split; [exact H5 | exact H4]]. destruct journal as [q|]; [reflexivity|]. cbn. destruct (draws_spec n r0). auto.
Qed.
(** data simulated from th *)
Definition Data (th : Theta) (y : Y) : Prop := exists c r r', simc c r = (r', Some y) /\ (c = th \/ exists c0, setp th c0 = (false, c)).

Variable pi : Theta -> Q.
Variable K : wpop Theta -> Theta -> Theta -> R.
Variable L : Y -> R.
(** mixture density of the previous population at th *)
Definition mixture (n : nat) (p : wpop Theta) (w : list R) (th : Theta) : R := rsum (map (fun wr => fst wr * K p (snd wr) th)%R (combine w (firstn n (wp_rows p)))).

Lemma mixture_spec n p w th : (forall x th, kpdf p x th = XR (K p x th)) -> wp_w p = map XR w ->
  xsum (map (fun wr => xmul (fst wr) (kpdf p (snd wr) th)) (combine (wp_w p) (firstn n (wp_rows p)))) = XR (mixture n p w th).
Proof.
  intros HK Hw. unfold mixture. rewrite Hw. rewrite <- xsum_fin. f_equal. clear Hw. generalize (firstn n (wp_rows p)). induction w as [|x w IH]; intros [|y l]; cbn; try reflexivity. rewrite HK. cbn. rewrite IH. reflexivity.
Qed.
Lemma mixture_pos n p w th : (forall x th, (0 < K p x th)%R) -> Forall (fun x => 0 < x)%R w -> length w = n -> 0 < n -> n <= length (wp_rows p) -> (0 < mixture n p w th)%R.
Proof.
  intros HK Hw Hlw Hn Hlr. unfold mixture. apply rsum_pos.
  - destruct w as [|x w]; [cbn in Hlw; lia|]. destruct (wp_rows p) as [|y l]; [cbn in Hlr; lia|]. destruct n; [lia|]. discriminate.
  - apply Forall_forall. intros z Hz. apply in_map_iff in Hz. destruct Hz as ([x y] & <- & Hz). apply in_combine_l in Hz. rewrite Forall_forall in Hw. apply Rmult_lt_0_compat; [apply Hw; exact Hz | apply HK].
Qed.
(** The new weights, exactly: proportional to prior^2 * likelihood / mixture density of the previous population, with the likelihood of
    data simulated from the particle.  (Hypotheses: densities and likelihoods are finite, kernel densities positive.) *)
Theorem C19_pmc_iteration : (forall th c, pdfv th c = Fin (pi th)) -> (forall th, (0 <= pi th)%Q) -> (forall p x th, kpdf p x th = XR (K p x th)) -> (forall p x th, (0 < K p x th)%R) ->
  (forall y, loglik y = XR (L y)) -> forall n p p' w, 0 < n -> wp_w p = map XR w -> Forall (fun x => 0 < x)%R w -> PIter n p p' ->
  exists ys, Forall2 Data (wp_rows p') ys /\ length ys = n
  /\ (let A := map (fun ty => (Q2R (pi (fst ty)) * Q2R (pi (fst ty)) * exp (L (snd ty)) / mixture n p w (fst ty))%R) (combine (wp_rows p') ys) in
      Forall (fun a => 0 < a)%R A /\ wp_w p' = map (fun a => XR (a / rsum A)) A).
Proof.
  intros Hpi Hpi0 HK HK0 HL n p p' w Hn Hw Hwp (r0 & r1 & idx & vls & m & _ & Hidx & Hlw & Hlr & HP & HF & Hm & Hws). cbv zeta in *.
  assert (Hlw' : length w = n) by (rewrite Hw, map_length in Hlw; exact Hlw).
  assert (Hmix : forall th, (0 < mixture n p w th)%R) by (intros th; apply mixture_pos; auto).
  assert (Hpos : Forall (fun th => 0 < Q2R (pi th))%R (wp_rows p')).
  { clear - HP Hpi Hpi0. induction HP as [|i th ix rows (r2 & r3 & c & _ & Hne) HP IH]; constructor; [|exact IH]. rewrite Hpi in Hne. apply Q2R_pos. destruct (Qlt_le_dec 0 (pi th)) as [|Hle]; [assumption|]. exfalso.
    assert (E : (pi th == 0)%Q) by (apply Qle_antisym; auto). cbn in Hne. apply Qeq_bool_iff in E. congruence. }
  assert (Hlen : length (wp_rows p') = n) by (apply F2_len in HP; rewrite <- HP; apply firstn_length_le; exact Hidx).
  set (lg := fun ty : Theta * Y => (ln (Q2R (pi (fst ty)) / mixture n p w (fst ty)) + (ln (Q2R (pi (fst ty))) + L (snd ty)))%R).
  assert (Hys : exists ys, Forall2 Data (wp_rows p') ys /\ map (fun vl => xadd (xlog (fst vl)) (snd vl)) vls = map XR (map lg (combine (wp_rows p') ys))).
  { clear Hm Hws HP Hlen. induction HF as [|th vl rows vls ((c & Hv) & (c0 & r2 & r3 & y & c1 & Hy & Hc & Hl)) HF IH]; [exists []; split; [constructor | reflexivity]|].
    pose proof (Forall_inv Hpos) as Hp1. pose proof (Forall_inv_tail Hpos) as Hp2. destruct (IH Hp2) as (ys & Hys & E). exists (y :: ys). split; [constructor; [exists c0, r2, r3; auto | exact Hys]|]. cbn [map combine]. rewrite E. f_equal.
    rewrite Hv, Hl, !Hpi, HL. rewrite (mixture_spec n p w th); [|intros; apply HK | exact Hw]. cbn [toX xmul]. specialize (Hmix th). rewrite xdiv_fin by lra. unfold xlog. rewrite (rsign_pos (Q2R (pi th))) by exact Hp1.
    assert (Hq : (0 < 1 * Q2R (pi th) / mixture n p w th)%R) by (apply Rdiv_lt_0_compat; lra). rewrite rsign_pos by exact Hq. cbn [xadd]. unfold lg. cbn [fst snd]. rewrite Rmult_1_l. reflexivity. }
  destruct Hys as (ys & Hys & E). exists ys. split; [exact Hys|]. split; [apply F2_len in Hys; congruence|].
  assert (Eexp : map exp (map lg (combine (wp_rows p') ys)) = map (fun ty => (Q2R (pi (fst ty)) * Q2R (pi (fst ty)) * exp (L (snd ty)) / mixture n p w (fst ty))%R) (combine (wp_rows p') ys)).
  { rewrite map_map. apply map_ext_in. intros [th y] Hin. unfold lg. cbn [fst snd]. apply in_combine_l in Hin. rewrite Forall_forall in Hpos. specialize (Hpos th Hin). specialize (Hmix th).
    rewrite !exp_plus, !exp_ln; [field; lra | exact Hpos | apply Rdiv_lt_0_compat; assumption]. }
  split.
  - rewrite <- Eexp. apply Forall_forall. intros a Ha. apply in_map_iff in Ha. destruct Ha as (z & <- & _). apply exp_pos.
  - rewrite E in Hm, Hws. rewrite Hws. pose proof (from_logs_fin (map lg (combine (wp_rows p') ys))) as HFL. unfold from_logs in HFL.
    destruct (combine (wp_rows p') ys) as [|t0 tl] eqn:Ec.
    { exfalso. apply (f_equal (@length _)) in Ec. rewrite combine_length in Ec. apply F2_len in Hys. cbn in Ec. lia. }
    rewrite <- Ec in *. assert (Hne : map lg (combine (wp_rows p') ys) <> []) by (rewrite Ec; discriminate). specialize (HFL Hne).
    destruct (map XR (map lg (combine (wp_rows p') ys))) as [|x0 xl]; [destruct Hm|]. rewrite <- Hm in HFL. match type of HFL with Ok ?a = Ok ?b => assert (HFL' : a = b) by (injection HFL; intros; congruence) end. etransitivity; [exact HFL'|]. clear HFL HFL'. rewrite Eexp. match goal with |- map (fun a => XR (exp a / ?S)) ?l = _ => rewrite <- (map_map exp (fun a => XR (a / S)%R) l) end. rewrite Eexp. reflexivity.
Qed.
(** C19 for PMC: starting from positive weights, all recorded weights are positive and sum to 1 *)
Theorem C19_pmc : (forall th c, pdfv th c = Fin (pi th)) -> (forall th, (0 <= pi th)%Q) -> (forall p x th, kpdf p x th = XR (K p x th)) -> (forall p x th, (0 < K p x th)%R) ->
  (forall y, loglik y = XR (L y)) -> forall n per p w count rs, 0 < n -> wp_w p = map XR w -> Forall (fun x => 0 < x)%R w -> PmRun n per p count rs ->
  Forall (fun r => exists ws, wr_w r = map XR ws /\ length ws = n /\ Forall (fun x => 0 < x)%R ws /\ rsum ws = 1%R) rs.
Proof.
  intros Hpi Hpi0 HK HK0 HL n per p w count rs Hn Hw Hwp HR. revert w Hw Hwp. induction HR as [|p count p' rs HI HR IH]; intros w Hw Hwp; constructor.
  - destruct (C19_pmc_iteration Hpi Hpi0 HK HK0 HL n p p' w Hn Hw Hwp HI) as (ys & Hys & Hly & HA & E). cbn [wr_w]. set (A := map _ (combine (wp_rows p') ys)) in *.
    assert (HlA : length A = n) by (unfold A; rewrite map_length, combine_length; apply F2_len in Hys; lia). assert (HS : (0 < rsum A)%R) by (apply rsum_pos; [destruct A; [cbn in HlA; lia | discriminate] | exact HA]).
    exists (map (fun a => a / rsum A)%R A). split; [rewrite map_map; exact E|]. split; [rewrite map_length; exact HlA|]. split; [|apply norm_sum; exact HS].
    apply Forall_forall. intros z Hz. apply in_map_iff in Hz. destruct Hz as (a & <- & Ha). rewrite Forall_forall in HA. apply Rdiv_lt_0_compat; [apply HA; exact Ha | exact HS].
  - destruct (C19_pmc_iteration Hpi Hpi0 HK HK0 HL n p p' w Hn Hw Hwp HI) as (ys & Hys & Hly & HA & E). set (A := map _ (combine (wp_rows p') ys)) in *.
    assert (HlA : length A = n) by (unfold A; rewrite map_length, combine_length; apply F2_len in Hys; lia). assert (HS : (0 < rsum A)%R) by (apply rsum_pos; [destruct A; [cbn in HlA; lia | discriminate] | exact HA]).
    apply (IH (map (fun a => a / rsum A)%R A)); [rewrite map_map; exact E|]. apply Forall_forall. intros z Hz. apply in_map_iff in Hz. destruct Hz as (a & <- & Ha). rewrite Forall_forall in HA. apply Rdiv_lt_0_compat; [apply HA; exact Ha | exact HS].
Qed.
(** ... in particular for every run from the prior *)
Theorem C19_pmc_sample : set_ok setp -> (forall th c, pdfv th c = Fin (pi th)) -> (forall th, (0 <= pi th)%Q) -> (forall p x th, kpdf p x th = XR (K p x th)) -> (forall p x th, (0 < K p x th)%R) ->
  (forall y, loglik y = XR (L y)) -> forall steps n per full fuel r0 gen seed cur0 count0 s, 0 < n -> pm_sample steps n per full None None fuel r0 gen seed cur0 count0 = Ok s ->
  Forall (fun r => exists ws, wr_w r = map XR ws /\ length ws = n /\ Forall (fun x => 0 < x)%R ws /\ rsum ws = 1%R) (m_recs Theta s).
Proof.
  intros Hset Hpi Hpi0 HK HK0 HL steps n per full fuel r0 gen seed cur0 count0 s Hn H. apply C19_pmc_run in H; [|exact Hset]. destruct H as (p & rs & (_ & _ & Hw) & HR & _ & _ & E).
  assert (HnR : (0 < INR n)%R) by (apply lt_0_INR; exact Hn).
  assert (Hw' : wp_w p = map XR (repeat (1 / INR n)%R n)) by (rewrite Hw, xdiv_fin by lra; clear; generalize (1 / INR n)%R; intros x; generalize n; induction n0 as [|k IH]; cbn; congruence).
  assert (Hpos : Forall (fun x => 0 < x)%R (repeat (1 / INR n)%R n)) by (apply Forall_forall; intros x Hx; apply repeat_spec in Hx; subst x; apply Rdiv_lt_0_compat; lra).
  pose proof (C19_pmc Hpi Hpi0 HK HK0 HL n per p _ count0 rs Hn Hw' Hpos HR) as HF. rewrite E. destruct (full =? 1); [exact HF|]. destruct (full =? 0); [|constructor].
  rewrite Forall_forall in *. intros x Hx. apply HF. apply in_rev. destruct (rev rs) as [|a l]; [destruct Hx|]. destruct Hx as [<-|[]]. left. reflexivity.
Qed.
(** iniPoints cannot be used, except with a single one-dimensional point: comparing an array with None gives an array. *)
Theorem C19_pmc_inipoints : forall steps n per full pts dim journal fuel r0 gen seed cur0 count0, length pts * dim <> 1 ->
  pm_sample steps n per full (Some (pts, dim)) journal fuel r0 gen seed cur0 count0 = Err ValueError.
Proof. intros. unfold M_PMC.pm_sample. destruct (Nat.eqb_spec (length pts * dim) 1); [contradiction | reflexivity]. Qed.
End Statements.
Print Assumptions C19_pmc_run.
Print Assumptions C19_pmc_iteration.
Print Assumptions C19_pmc.
Print Assumptions C19_pmc_sample.
Print Assumptions C19_pmc_inipoints.

(** A toy model: density 1/4 below 1 and 1/2 from 1 on, likelihood 1, kernel density 1. *)
Definition mpdf (th c : Q) : num := Fin (if Qle_bool 1 th then 1 # 2 else 1 # 4).
Definition mset (th cur : Q) : bool * Q := (true, th).
Definition mkup (p : wpop Q) (i : nat) (r : Z) : Z * Q := ((r + 1)%Z, inject_Z (r mod 2)).
Definition mprior (r : Z) : Z * Q := ((r + 1)%Z, inject_Z (r mod 3)).
Definition mrun (steps full : nat) := pm_sample Q Z Q mset mpdf mkup (fun _ _ _ => XR 1) mprior (fun c r => (r, Some c)) (fun _ => XR 0) (fun s => s) (fun k n w r => Ok (r, seq 0 n))
  steps 2 5 full None None 10 0%Z (fun t => (2 * Z.of_nat t)%Z) (fun t j => 0%Z) 7%Q 3.
Example C19_pmc_case : exists s, mrun 2 1 = Ok s /\ map wr_rows (m_recs Q s) = [[0; 1]; [0; 1]]%Q /\ map wr_nsim (m_recs Q s) = [13; 23].
Proof. eexists. split; [unfold mrun; cbv -[xdiv xadd xmul xsum xlog toX xmax xsub xexp INR R1 Rplus IZR]; reflexivity|]. split; cbn; reflexivity. Qed.
(** The prior density enters twice (once in the ratio, once in the approximate log likelihood): particles 0 and 1, with prior densities
    1/4 and 1/2, likelihood 1 and equal proposal densities, get weights 1/5 and 4/5 instead of 1/3 and 2/3. *)
Theorem C19_pmc_prior_twice_refuted : exists s r, mrun 1 0 = Ok s /\ m_recs Q s = [r] /\ wr_rows r = [0; 1]%Q /\ wr_w r = [XR (1 / 5); XR (4 / 5)].
Proof.
  destruct (mrun 1 0) as [s|] eqn:E; [|exfalso; unfold mrun in E; cbv -[xdiv xadd xmul xsum xlog toX xmax xsub xexp INR R1 Rplus IZR] in E; discriminate].
  assert (Hrows : map wr_rows (m_recs Q s) = [[0; 1]]%Q) by (clear - E; unfold mrun in E; cbv -[xdiv xadd xmul xsum xlog toX xmax xsub xexp INR R1 Rplus IZR] in E; injection E as <-; reflexivity).
  unfold mrun in E. apply C19_pmc_run in E; [|split; [intros th c c' H; injection H as <-; reflexivity | reflexivity]].
  destruct E as (p & rs & (_ & Hl & Hw) & HR & Hls & _ & E). change (if 0 =? 1 then rs else if 0 =? 0 then firstn 1 (rev rs) else []) with (firstn 1 (rev rs)) in E.
  destruct rs as [|r [|r2 rs]]; try discriminate. cbn in E. exists s, r. split; [reflexivity|]. split; [exact E|]. rewrite E in Hrows. cbn in Hrows. injection Hrows as Hrows. split; [exact Hrows|].
  inversion HR as [|p0 c0 p1 rs1 HI HRnil]; subst. rename p1 into p'. cbn [wr_w wr_rows] in *.
  assert (Hw' : wp_w p = map XR [1 / 2; 1 / 2]%R) by (rewrite Hw; cbn [repeat map]; rewrite xdiv_fin by (cbn; lra); cbn; reflexivity).
  edestruct (C19_pmc_iteration Q Z Q mset mpdf mkup (fun _ _ _ => XR 1) (fun c r => (r, Some c)) (fun _ => XR 0) (fun k n w r => Ok (r, seq 0 n)) (fun th => if Qle_bool 1 th then 1 # 2 else 1 # 4) (fun _ _ _ => 1%R) (fun _ => 0%R)) with (n := 2) (p := p) (p' := p') (w := [1 / 2; 1 / 2]%R)
    as (ys & Hys & Hly & HA & ->); [reflexivity | intros th; destruct (Qle_bool 1 th); discriminate | reflexivity | intros; lra | reflexivity | lia | exact Hw' | repeat constructor; lra | exact HI |].
  rewrite Hrows. destruct ys as [|y1 [|y2 [|]]]; try discriminate. destruct (wp_rows p) as [|x1 [|x2 [|]]] eqn:Ep; try discriminate.
  unfold mixture. rewrite Ep. cbn [combine map fst snd firstn Qle_bool]. unfold rsum. cbn. rewrite exp_0. unfold Q2R. cbn. f_equal; [|f_equal]; f_equal; field.
Qed.
Print Assumptions C19_pmc_prior_twice_refuted.
