(** Property C22, and C19, C21 for APMCABC. *)
From Verif Require Import M_Base M_Num L_Num M_Infer S_Infer L_Infer M_PMCABC S_PMCABC L_PMCABC M_RSMCABC L_RSMCABC M_APMCABC S_APMCABC L_APMCABC P_PMCABC.
From Coq Require Import Lqa Qround.
Open Scope nat_scope.

Section Statements.
Variables Theta Rng Y : Type.
Variable setp : Theta -> Theta -> bool * Theta.
Variable pdfv : Theta -> Theta -> num.
Variable kupd : pop Theta -> nat -> Rng -> Rng * Theta.
Variable kpdf : pop Theta -> Theta -> Theta -> num.
Variable prior : Rng -> Rng * Theta.
Variable simc : Theta -> Rng -> Rng * option Y.
Variable dist : Y -> num.
Variable mkrng : Z -> Rng.
Variable reseed : Rng -> Rng.
Variable choice : nat -> list num -> Rng -> res (Rng * nat).
Notation ap_sample := (ap_sample Theta Rng Y setp pdfv kupd kpdf prior simc dist mkrng reseed choice).
Notation ARun := (ARun setp pdfv kupd kpdf prior simc dist choice).

(** What sample does, when round(n alpha) is neither 0 nor above n.  Fewer iterations than asked for mean an early stop, and then
    nothing is recorded unless full_output = 1. *)
Theorem C22_run : set_ok setp -> forall steps n alpha cutoff full journal fuel seed mgr0 cur0 count0 s,
  let k := Z.to_nat (pyround (inject_Z (Z.of_nat n) * alpha)) in
  0 < steps -> 0 < k -> k <= n -> ap_sample steps n alpha cutoff full journal fuel seed mgr0 cur0 count0 = Ok s ->
  ARun n k alpha (match journal with Some p => Some p | None => mgr0 end) [] n count0 (z_eps Theta s) (z_hist Theta s)
  /\ 0 < length (z_hist Theta s) <= steps /\ (length (z_hist Theta s) < steps -> z_stop Theta s = true)
  /\ Stopping cutoff None (z_eps Theta s) (z_hist Theta s) (z_stop Theta s)
  /\ z_recs Theta s = (if full =? 1 then z_hist Theta s else if (full =? 0) && (length (z_hist Theta s) =? steps) then [last (z_hist Theta s) (mkrec [] [] [] 0)] else []).
Proof. exact (ap_sample_run Theta Rng Y setp pdfv kupd kpdf prior simc dist mkrng reseed choice). Qed.

(** C22: the next population consists of the particles strictly below the threshold, with normalised weights, and of n - k new ones. *)
Theorem C22_retained : forall n k alpha mgr old m count es rs, ARun n k alpha mgr old m count es rs ->
  forall t e r r', nth_error es t = Some e -> nth_error rs t = Some r -> nth_error rs (S t) = Some r' ->
  percentile (r_ds r) (alpha * 100) = Ok e
  /\ exists new, particles r' = below e (particles r) ++ new /\ length new = n - k.
Proof.
  induction 1 as [mgr old m count | mgr old m count new r e es rs A1 A2 A3 A4 A5 A6 A7 A8 HR IH]; intros t e0 r0 r' He Hr Hr'; [destruct t; discriminate|].
  destruct t as [|t]; [|cbn in He, Hr, Hr'; exact (IH t e0 r0 r' He Hr Hr')].
  cbn in He, Hr. injection He as <-. injection Hr as <-. split; [exact A8|]. change (nth_error rs 0 = Some r') in Hr'.
  inversion HR as [| ? ? ? ? new' r1 e1 es1 rs1 B1 B2 B3 B4]; subst; [discriminate|]. cbn in Hr'. injection Hr' as <-. exists new'. auto.
Qed.
(** C22: the threshold does not increase if more than (N - 1) alpha, rounded up, of the N distances are at most the old threshold. *)
Theorem C22_threshold : forall n k alpha mgr old m count es rs, (0 <= alpha <= 1)%Q -> ARun n k alpha mgr old m count es rs ->
  forall t e e' r', nth_error es t = Some e -> nth_error es (S t) = Some e' -> nth_error rs (S t) = Some r' ->
  (forall d, In d (r_ds r') -> exists q, d = Fin q) ->
  (Qceiling (inject_Z (Z.of_nat (length (r_ds r')) - 1) * alpha) < Z.of_nat (count_le e (r_ds r')))%Z -> nle e' e = true.
Proof.
  intros n k alpha mgr old m count es rs [Ha0 Ha1] H. induction H as [mgr old m count | mgr old m count new r e es rs A1 A2 A3 A4 A5 A6 A7 A8 HR IH]; intros t e0 e' r' He He' Hr' Hfin Hc; [destruct t; discriminate|].
  destruct t as [|t]; [|cbn in He, He', Hr'; exact (IH t e0 e' r' He He' Hr' Hfin Hc)].
  cbn in He. injection He as <-. change (nth_error es 0 = Some e') in He'. change (nth_error rs 0 = Some r') in Hr'.
  inversion HR as [| ? ? ? ? new' r1 e1 es1 rs1 B1 B2 B3 B4 B5 B6 B7 B8]; subst; [discriminate|]. cbn in He', Hr'. injection He' as <-. injection Hr' as <-.
  destruct (fin_list _ Hfin) as [ql Hql]. rewrite Hql in *. unfold percentile in B8.
  assert (Hq : (alpha * 100 / 100 == alpha)%Q) by field.
  assert (Hne : ql <> []) by (intros ->; unfold quantile in B8; destruct (negb _); discriminate B8).
  rewrite map_length in Hc.
  destruct (quantile_below ql (alpha * 100 / 100) e1 e Hne) as (v & _ & Hv); [rewrite Hq; exact Ha0 | rewrite Hq; exact Ha1 | exact B8 | | exact Hv].
  assert (Hce : Qceiling (inject_Z (Z.of_nat (length ql) - 1) * (alpha * 100 / 100)) = Qceiling (inject_Z (Z.of_nat (length ql) - 1) * alpha)) by (apply Qceiling_comp; rewrite Hq; reflexivity).
  rewrite Hce. exact Hc.
Qed.

(** C21: a reported distance is that of data simulated at the reported parameters, or at parameters whose assignment was refused and left
    the reported ones in the graph. *)
Theorem C21_apmcabc : forall n k alpha mgr m count es rs, ARun n k alpha mgr [] m count es rs ->
  forall r th d w, In r rs -> In (th, (d, w)) (particles r) ->
  exists th0, Simulated setp simc dist th0 d /\ (th = th0 \/ exists c, setp th0 c = (false, th)).
Proof.
  intros n k alpha mgr m count es rs H.
  assert (Hgen : forall old, (forall th d w, In (th, (d, w)) old -> exists th0, Simulated setp simc dist th0 d /\ (th = th0 \/ exists c, setp th0 c = (false, th))) ->
    ARun n k alpha mgr old m count es rs -> forall r th d w, In r rs -> In (th, (d, w)) (particles r) -> exists th0, Simulated setp simc dist th0 d /\ (th = th0 \/ exists c, setp th0 c = (false, th))).
  { clear H. intros old Hold H. induction H as [mgr old m count | mgr old m count new r e es rs A1 A2 A3 A4 A5 A6 A7 A8 HR IH]; intros r0 th d w Hr Hin; [destruct Hr|].
    assert (Hall : forall th d w, In (th, (d, w)) (particles r) -> exists th0, Simulated setp simc dist th0 d /\ (th = th0 \/ exists c, setp th0 c = (false, th))).
    { intros t0 d0 w0 Hi. rewrite A4 in Hi. apply in_app_or in Hi. destruct Hi as [Hi|Hi]; [eapply Hold; exact Hi|]. rewrite Forall_forall in A3. destruct (A3 _ Hi) as (th0 & _ & Hs & Ht & _). eauto. }
    destruct Hr as [<-|Hr]; [eapply Hall; exact Hin|]. apply (IH) with (r := r0) (w := w); [|exact Hr | exact Hin].
    intros t0 d0 w0 Hi. unfold below in Hi. apply in_map_iff in Hi. destruct Hi as ([t1 [d1 w1]] & E & Hi). cbn in E. inversion E; subst. apply filter_In in Hi. destruct Hi as [Hi _]. eapply Hall; exact Hi. }
  apply (Hgen []); [intros ? ? ? [] | exact H].
Qed.

(** C19: with positive finite prior and kernel densities, all recorded weights are positive, and those of a non-empty retained population
    sum to one. *)
Theorem C19_apmcabc : forall n k alpha m count es rs, ARun n k alpha None [] m count es rs ->
  (forall ws r x, choice 0 ws r <> Ok x) ->
  (forall th c, exists q, pdfv th c = Fin q /\ (0 < q)%Q) -> (forall p x y, exists q, kpdf p x y = Fin q /\ (0 < q)%Q) ->
  forall t e r, nth_error es t = Some e -> nth_error rs t = Some r ->
  Forall (fun w => exists q, w = Fin q /\ (0 < q)%Q) (r_w r)
  /\ (below e (particles r) <> [] ->
      exists ws, map (fun x => snd (snd x)) (below e (particles r)) = map Fin ws /\ Forall (fun x => 0 < x)%Q ws /\ (qsum ws == 1)%Q).
Proof.
  intros n k alpha m count es rs H Hch Hpr Hk.
  set (good := fun l : list (Theta * (num * num)) => Forall (fun x => exists q, snd (snd x) = Fin q /\ (0 < q)%Q) l).
  assert (Hgb : forall e l, good l -> good (below e l) /\ (below e l <> [] -> exists ws, map (fun x => snd (snd x)) (below e l) = map Fin ws /\ Forall (fun x => 0 < x)%Q ws /\ (qsum ws == 1)%Q)).
  { intros e l Hl. unfold below. set (sel := filter (fun x => nlt (fst (snd x)) e) l). destruct sel as [|x0 sel0] eqn:Es; [split; [constructor | intros Hx; exfalso; apply Hx; reflexivity]|]. rewrite <- Es.
    assert (Hs : Forall (fun w => exists q, w = Fin q /\ (0 < q)%Q) (map (fun x => snd (snd x)) sel)).
    { apply Forall_map. unfold sel. unfold good in Hl. rewrite Forall_forall in *. intros x Hx. apply filter_In in Hx. apply Hl. apply Hx. }
    destruct (normalise_pos (map (fun x => snd (snd x)) sel)) as (ws & W1 & W2 & W3 & W4); [rewrite Es; discriminate | exact Hs|].
    rewrite !map_map in *. cbn [fst snd] in *. split; [|intros _; exists ws; auto].
    unfold good. apply Forall_map. cbn [snd]. rewrite Forall_forall. intros x Hx.
    assert (Hin : In (ndiv (snd (snd x)) (nsum (map (fun x => snd (snd x)) sel))) (map Fin ws)) by (rewrite <- W1; apply in_map_iff; exists x; auto).
    apply in_map_iff in Hin. destruct Hin as (q & Eq & Hq). rewrite <- Eq. exists q. split; [reflexivity|]. rewrite Forall_forall in W3. auto. }
  assert (Hgen : forall mgr old m count es rs, ARun n k alpha mgr old m count es rs -> good old -> (mgr = None \/ mgr = Some (as_pop old)) ->
    forall t e r, nth_error es t = Some e -> nth_error rs t = Some r -> good (particles r) /\ r_w r = map (fun x => snd (snd x)) (particles r)).
  { clear H. intros mgr old m0 c0 es0 rs0 H. induction H as [mgr old m0 c0 | mgr old m0 c0 new r e es0 rs0 A1 A2 A3 A4 A5 A6 A7 A8 HR IH]; intros Hg Hm t e0 r0 He Hr; [destruct t; discriminate|].
    assert (Hgr : good (particles r)).
    { rewrite A4. apply Forall_app. split; [exact Hg|]. rewrite Forall_forall in A3 |- *. intros [th [d w]] Hx. destruct (A3 _ Hx) as (th0 & Hd & _ & _ & Hw). cbn [snd]. destruct Hm as [-> | ->].
      - exists 1%Q. split; [exact Hw | reflexivity].
      - destruct Hw as (c & ->). destruct (Hpr th0 (snd (setp th0 c))) as (q & -> & Hq). cbn [nmul].
        assert (Hne : old <> []). { intros ->. destruct Hd as (i & r1 & r2 & r3 & r4 & c' & Hc & _). exact (Hch _ _ _ Hc). }
        assert (Hsum : exists sq, nsum (map (fun wr => nmul (fst wr) (kpdf (as_pop old) (snd wr) th0)) (combine (p_w (as_pop old)) (p_rows (as_pop old)))) = Fin sq /\ (0 < sq)%Q).
        { set (P := as_pop old). unfold as_pop in P. cbn [p_w p_rows P].
          assert (Hl : exists l, map (fun wr => nmul (fst wr) (kpdf P (snd wr) th0)) (combine (map (fun x => snd (snd x)) old) (map fst old)) = map (fun wk => nmul (Fin (fst wk)) (Fin (snd wk))) l
                        /\ (forall w k, In (w, k) l -> 0 < w /\ 0 < k)%Q /\ length l = length old).
          { clearbody P. clear - Hg Hk. induction old as [|x old IH]; [exists []; repeat split; intros; contradiction|]. unfold good in Hg. inversion Hg as [|? ? (qw & Ew & Hw) Hg']; subst.
            destruct (IH Hg') as (l & E & B & C). destruct (Hk P (fst x) th0) as (kq & Ek & Hkq). exists ((qw, kq) :: l). cbn [map combine fst snd]. rewrite Ew, Ek, E.
            split; [reflexivity|]. split; [intros w0 k0 [E0|Hi]; [inversion E0; subst; auto | apply B; exact Hi] | cbn; congruence]. }
          destruct Hl as (l & -> & B & C). apply nsum_pos; [exact B|]. intros ->. destruct old; [congruence | discriminate]. }
        destruct Hsum as (sq & -> & Hsq). rewrite ndiv_fin by lra. eexists. split; [reflexivity|]. apply Qlt_shift_div_l; lra. }
    destruct t as [|t].
    - cbn in Hr. injection Hr as <-. split; [exact Hgr|]. unfold particles. symmetry. apply (zip3_proj (r_rows r) (r_ds r) (r_w r) A5 A6).
    - cbn in He, Hr. apply (IH (proj1 (Hgb e _ Hgr)) (or_intror eq_refl) t e0 r0 He Hr). }
  intros t e r He Hr. destruct (Hgen _ _ _ _ _ _ H ltac:(constructor) (or_introl eq_refl) t e r He Hr) as [G1 G2]. split; [rewrite G2; apply Forall_map; exact G1 | apply Hgb; exact G1].
Qed.
End Statements.
Print Assumptions C22_run.
Print Assumptions C22_retained.
Print Assumptions C22_threshold.
Print Assumptions C21_apmcabc.
Print Assumptions C19_apmcabc.

(** A toy instance as in P_PMCABC; the kernel sometimes moves a particle up, and drawing from nothing is an error. *)
Definition zkupd (p : pop Q) (i : nat) (r : Z) : Z * Q := let x := nth i (p_rows p) 0%Q in ((r + 1)%Z, (if Z.even r then x + (1 # 4) else x - (1 # 4))%Q).
(* numpy refuses to draw from nothing, and weights that do not sum to one *)
Definition zchoice (n : nat) (w : list num) (r : Z) : res (Z * nat) :=
  match n with 0 => Err ValueError | _ => if neqb (nsum w) (Fin 1) then Ok ((r + 1)%Z, Z.to_nat (r mod Z.of_nat n)) else Err ValueError end.
Definition zap := ap_sample Q Z Q xset xpdf zkupd (fun _ _ _ => Fin 1) xprior (fun c r => (r, Some c)) Fin (fun s => s) (fun r => r) zchoice.
Definition zseed (t j : nat) : Z := Z.of_nat (3 * t + 2 * j + 2).
Definition rq (d : num) : num := match d with Fin q => Fin (Qred q) | _ => d end.
Definition showr (r : rec Q) := (map Qred (r_rows r), map rq (r_ds r), map rq (r_w r), r_nsim r).
(* a kernel whose moves go far up *)
Definition up (p : pop Q) (i : nat) (r : Z) : Z * Q := ((r + 1)%Z, (nth i (p_rows p) 0 + 9)%Q).
Definition zap_up := ap_sample Q Z Q xset xpdf up (fun _ _ _ => Fin 1) xprior (fun c r => (r, Some c)) Fin (fun s => s) (fun r => r) zchoice.

Example C22_case : exists s, zap 3 4 (1 # 2) 0 1 None 30 zseed None 0%Q 0 = Ok s
  /\ map rq (z_eps _ s) = [Fin 3; Fin (5 # 4); Fin (3 # 4)]
  /\ map showr (z_recs _ s) = [([2; 4; 6; 1], [Fin 2; Fin 4; Fin 6; Fin 1], [Fin 1; Fin 1; Fin 1; Fin 1], 4%nat);
                               ([2; 1; 5 # 4; 5 # 4], [Fin 2; Fin 1; Fin (5 # 4); Fin (5 # 4)], [Fin (1 # 2); Fin (1 # 2); Fin (1 # 7); Fin (1 # 7)], 6%nat);
                               ([1; 3 # 4; 3 # 4], [Fin 1; Fin (3 # 4); Fin (3 # 4)], [Fin 1; Fin (1 # 7); Fin (1 # 7)], 8%nat)]%Q
  /\ (Qceiling (inject_Z (Z.of_nat 4 - 1) * (1 # 2)) < Z.of_nat (count_le (Fin 3) [Fin 2; Fin 1; Fin (5 # 4); Fin (5 # 4)]))%Z.
Proof. eexists. split; [vm_compute; reflexivity|]. split; [vm_compute; reflexivity|]. split; vm_compute; reflexivity. Qed.
(** C22, false in general: the threshold increases when the new particles are far away. *)
Theorem C22_threshold_refuted : exists s, zap_up 2 4 (1 # 2) 0 1 None 30 zseed None 0%Q 0 = Ok s
  /\ match z_eps _ s with [e; e'] => nlt e e' = true | _ => False end.
Proof. eexists. split; vm_compute; reflexivity. Qed.
(** C22, false: the population need not have n_samples particles (third iteration: 3 of 4), since the retained particles need not be
    round(n alpha) many. *)
Theorem C22_size_refuted : exists s, zap 3 4 (1 # 2) 0 1 None 30 zseed None 0%Q 0 = Ok s /\ map (fun r => length (r_rows r)) (z_recs _ s) = [4; 4; 3].
Proof. eexists. split; vm_compute; reflexivity. Qed.
(** C22, false: stopping early with full_output = 0 leaves a journal without any population, without epsilon_arr. *)
Theorem C22_early_stop_refuted : exists s, zap_up 5 4 (1 # 2) (1 # 10) 0 None 30 zseed None 0%Q 0 = Ok s
  /\ length (z_hist _ s) = 2 /\ z_stop _ s = true /\ z_recs _ s = [].
Proof. eexists. split; [vm_compute; reflexivity|]. split; [vm_compute; reflexivity|]. split; vm_compute; reflexivity. Qed.
(** C22, false: when all distances are equal nothing is retained, and the second iteration raises. *)
Theorem C22_ties_refuted :
  ap_sample Q Z Q xset xpdf zkupd (fun _ _ _ => Fin 1) (fun r => (r, 1%Q)) (fun c r => (r, Some c)) Fin (fun s => s) (fun r => r) zchoice
    2 4 (1 # 2) 0 1 None 30 zseed None 0%Q 0 = Err ValueError.
Proof. vm_compute. reflexivity. Qed.
(** C19, false for what APMCABC reports: the recorded weights sum to n_samples after the first iteration ... *)
Theorem C19_apmcabc_refuted : exists s r, zap 1 4 (1 # 2) 0 1 None 30 zseed None 0%Q 0 = Ok s /\ z_recs _ s = [r] /\ nsum (r_w r) = Fin 4.
Proof. eexists. eexists. split; [vm_compute; reflexivity|]. split; vm_compute; reflexivity. Qed.
(** ... so that restarting from its own journal raises. *)
Theorem C22_restart_refuted : exists s r, zap 1 4 (1 # 2) 0 1 None 30 zseed None 0%Q 0 = Ok s /\ z_recs _ s = [r]
  /\ zap 1 4 (1 # 2) 0 1 (Some (mkpop (r_rows r) (r_w r))) 30 zseed None 0%Q 0 = Err ValueError.
Proof. eexists. eexists. split; [vm_compute; reflexivity|]. split; [vm_compute; reflexivity|]. vm_compute. reflexivity. Qed.
Example C19_apmcabc_case : exists s r e, zap 1 4 (1 # 2) 0 1 None 30 zseed None 0%Q 0 = Ok s /\ z_recs _ s = [r] /\ z_eps _ s = [e]
  /\ length (below e (particles r)) = 2 /\ forall ws r x, zchoice 0 ws r <> Ok x.
Proof. do 3 eexists. split; [vm_compute; reflexivity|]. do 3 (split; [vm_compute; reflexivity|]). intros ws r x. discriminate. Qed.

Print Assumptions C22_threshold_refuted.
Print Assumptions C22_size_refuted.
Print Assumptions C22_early_stop_refuted.
Print Assumptions C22_ties_refuted.
Print Assumptions C19_apmcabc_refuted.
Print Assumptions C22_restart_refuted.
