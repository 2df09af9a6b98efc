(** Properties C27, C28, C29. *)
From Coq Require Import Lqa Reals Lra.
From Verif Require Import M_Base M_Num S_Infer M_MCMC S_MCMC L_MCMC M_XReal L_PMC.
Open Scope nat_scope.

Section Statements.
Variables Theta Rng Y F Cov : Type.
Variables fadd fsub fmul fdiv : F -> F -> F.
Variable fexp : F -> F.
Variable flt : F -> F -> bool.
Variable fzero : F -> bool.
Variable setp : Theta -> Theta -> bool * Theta.
Variable pdfv : Theta -> Theta -> F.
Variable kupd : Theta -> Cov -> Rng -> Rng * Theta.
Variable prior : Rng -> Rng * Theta.
Variable simc : Theta -> Rng -> Rng * option Y.
Variable loglik : Y -> F.
Variable tr : Theta -> res Theta.
Variable inv : Theta -> Theta.
Variable ldj : Theta -> res F.
Variable unif : Rng -> Rng * F.
Variable eye : Theta -> Cov.
Variable adapt : list Theta -> Cov.
Notation Move := (Move fadd fsub fmul fdiv fexp flt fzero setp pdfv kupd simc loglik inv ldj unif).
Notation Walk := (Walk fadd fsub fmul fdiv fexp flt fzero setp pdfv kupd simc loglik inv ldj unif adapt).
Notation mh_sample := (mh_sample Theta Rng Y F Cov fadd fsub fmul fdiv fexp flt fzero setp pdfv kupd prior simc loglik tr inv ldj unif eye adapt).
Notation mh_step := (mh_step Theta Rng Y F Cov fadd fsub fmul fdiv fexp flt fzero setp pdfv kupd simc loglik inv ldj unif adapt).
Notation mh_loop := (mh_loop Theta Rng Y F Cov fadd fsub fmul fdiv fexp flt fzero setp pdfv kupd simc loglik inv ldj unif adapt).
Notation q_th := (q_th Theta F).
Notation mkpt := (mkpt Theta F).

(** C27.  A fresh run is a walk of burnin + n moves from the initial point or a draw from the prior; the journal has the states after the
    last n moves, the acceptance rate of those moves, and the number of parameters for which data were simulated. *)
Theorem C27_run : set_ok setp -> forall n burnin cov ini interval r0 cur0 count0 j c,
  mh_sample n burnin cov ini interval None r0 cur0 count0 = Ok (j, c) ->
  exists th0 y0 ll0 pdf0 jac0 l,
    match ini with None => exists r1, prior r0 = (r1, th0) | Some x => th0 = x end
    /\ LogLik setp simc loglik th0 ll0 /\ (exists c0, pdf0 = pdfv th0 c0) /\ tr th0 = Ok y0 /\ ldj th0 = Ok jac0
    /\ Walk burnin interval 0 (mkpt th0 y0 ll0 pdf0 jac0) (match cov with Some m => m | None => eye y0 end) (if burnin =? 0 then [th0] else []) l (j_cov j)
    /\ length l = burnin + n /\ 0 < n /\ j_n j = n /\ j_weights j = n
    /\ j_params j = map (fun x => q_th (snd x)) (skipn burnin l)
    /\ (exists q, j_rates j = [q] /\ (q == inject_Z (Z.of_nat (tally Accepted (map fst (skipn burnin l)))) / inject_Z (Z.of_nat n))%Q)
    /\ j_nsims j = [count0 + 1 + (burnin + n - tally Outside (map fst l))]
    /\ j_ll j = q_ll Theta F (last (map snd l) (mkpt th0 y0 ll0 pdf0 jac0)).
Proof.
  intros Hset n burnin cov ini interval r0 cur0 count0 j c H. unfold M_MCMC.mh_sample in H.
  destruct (match ini with Some th => (r0, th, cur0) | None => let '(r1, th) := prior r0 in (r1, th, th) end) as [[r1 th0] cur1] eqn:Ei.
  destruct (sim_ll _ _ _ _ _ _ _ th0 cur1 r1) as [[[r2 ll0] cur2]|] eqn:Es; [|discriminate]. apply sim_ll_spec in Es; [|exact Hset].
  destruct (tr th0) as [y0|] eqn:Et; [|discriminate]. destruct (ldj th0) as [jac0|] eqn:Ej; [|discriminate]. cbv zeta in H.
  destruct (M_MCMC.mh_loop _ _ _ _ _ _ _ _ _ _ _ _ _ _ _ _ _ _ _ _ _ _ _ _ _ _) as [c'|] eqn:El; [|discriminate]. destruct (Nat.eqb_spec n 0) as [|Hn]; [discriminate|]. injection H as <- <-.
  apply loop_spec in El; [|exact Hset]. destruct El as (l & HW & Hl & Hp & Ht & Ha & Hs). cbn [c_pt c_cov c_burn c_trace c_acc c_sims] in *. rewrite Nat.sub_0_r in *.
  exists th0, y0, ll0, (pdfv th0 (snd (setp th0 cur2))), jac0, l. split.
  { destruct ini as [x|]; [injection Ei; auto|]. destruct (prior r0) as [r3 th] eqn:Ep. injection Ei as <- <- <-. eauto. }
  split; [exact Es|]. split; [eexists; reflexivity|]. split; [exact Et|]. split; [exact Ej|]. split; [exact HW|]. split; [exact Hl|]. split; [lia|]. split; [reflexivity|]. split; [reflexivity|]. split; [exact Ht|].
  split. { eexists. split; [reflexivity|]. rewrite Ha. cbn [plus]. field. intros E. apply Hn. unfold Qeq in E. cbn in E. lia. }
  split; [|cbn; rewrite Hp; reflexivity]. cbn. f_equal. assert (Htl : tally Outside (map fst l) <= length l) by (clear; unfold tally; rewrite <- (map_length fst l); generalize (map fst l); induction l0 as [|a l0 IH]; cbn; [lia | destruct a; cbn; lia]). lia.
Qed.

Lemma walk_states burnin interval t s cov burn l covN : Walk burnin interval t s cov burn l covN ->
  forall i v, nth_error (map fst l) i = Some v -> v <> Accepted -> nth_error (s :: map snd l) (S i) = nth_error (s :: map snd l) i.
Proof.
  induction 1 as [|t s cov burn v s' cov' l covN HM _ HW IH]; intros i w Hi Hw; [destruct i; discriminate|]. destruct i as [|i].
  - cbn in Hi. injection Hi as ->. cbn. inversion HM; subst; congruence.
  - cbn [map] in *. apply (IH i w Hi Hw).
Qed.
(** C27 in short: n states; a state differs from the one before it only if the proposal in between was accepted; the acceptance rate is
    the fraction of accepted proposals, a number in [0,1]. *)
Theorem C27_chain : set_ok setp -> forall n burnin cov ini interval r0 cur0 count0 j c,
  mh_sample n burnin cov ini interval None r0 cur0 count0 = Ok (j, c) ->
  length (j_params j) = n /\ exists x0 vs q, length vs = n
  /\ (forall i v, nth_error vs i = Some v -> v <> Accepted -> nth_error (x0 :: j_params j) (S i) = nth_error (x0 :: j_params j) i)
  /\ j_rates j = [q] /\ (q == inject_Z (Z.of_nat (tally Accepted vs)) / inject_Z (Z.of_nat n))%Q /\ (0 <= q <= 1)%Q.
Proof.
  intros Hset n burnin cov ini interval r0 cur0 count0 j c H. apply C27_run in H; [|exact Hset].
  destruct H as (th0 & y0 & ll0 & pdf0 & jac0 & l & _ & _ & _ & _ & _ & HW & Hl & Hn & _ & _ & HP & (q & Hq & Eq) & _).
  split; [rewrite HP, map_length, skipn_length; lia|]. set (s0 := mkpt th0 y0 ll0 pdf0 jac0) in *.
  exists (q_th (nth burnin (s0 :: map snd l) s0)), (map fst (skipn burnin l)), q. split; [rewrite map_length, skipn_length; lia|]. split; [|split; [exact Hq|]; split; [exact Eq|]].
  - intros i v Hi Hv. rewrite HP. pose proof (walk_states _ _ _ _ _ _ _ _ HW (burnin + i) v) as Hs.
    assert (Hs' : nth_error (s0 :: map snd l) (S (burnin + i)) = nth_error (s0 :: map snd l) (burnin + i)).
    { apply Hs; [|exact Hv]. rewrite nth_error_map in Hi |- *. rewrite <- Hi. f_equal. clear. revert l. induction burnin as [|b IH]; intros [|x l]; cbn; try reflexivity; [destruct i; reflexivity | apply IH]. }
    assert (Hd : forall k, k <= n -> nth_error (q_th (nth burnin (s0 :: map snd l) s0) :: map (fun x => q_th (snd x)) (skipn burnin l)) k = option_map q_th (nth_error (s0 :: map snd l) (burnin + k))).
    { intros k Hk. destruct k as [|k]; cbn [nth_error].
      - rewrite Nat.add_0_r. rewrite (nth_error_nth' (s0 :: map snd l) s0); [reflexivity|]. cbn. rewrite map_length. lia.
      - rewrite Nat.add_succ_r. cbn [nth_error]. rewrite !nth_error_map. replace (nth_error (skipn burnin l) k) with (nth_error l (burnin + k)); [destruct (nth_error l (burnin + k)); reflexivity|].
        clear. revert l. induction burnin as [|b IH]; intros [|x l]; cbn; try reflexivity; [destruct k; reflexivity | apply IH]. }
    assert (Hin : i < n) by (assert (i < length (map fst (skipn burnin l))) by (apply nth_error_Some; congruence); rewrite map_length, skipn_length in *; lia).
    rewrite (Hd (S i)) by lia. rewrite (Hd i) by lia. rewrite Nat.add_succ_r. f_equal. exact Hs'.
  - assert (Ht : tally Accepted (map fst (skipn burnin l)) <= n).
    { replace n with (length (map fst (skipn burnin l))) by (rewrite map_length, skipn_length; lia). clear. generalize (map fst (skipn burnin l)). unfold tally. induction l0 as [|a l0 IH]; cbn; [lia | destruct a; cbn; lia]. }
    rewrite Eq. assert (H0 : (0 < inject_Z (Z.of_nat n))%Q) by (change 0%Q with (inject_Z 0); rewrite <- Zlt_Qlt; lia).
    split; [apply Qle_shift_div_l; [exact H0|]; change (0 * inject_Z (Z.of_nat n))%Q with (inject_Z 0); rewrite <- Zle_Qle; lia | apply Qle_shift_div_r; [exact H0|]; rewrite Qmult_1_l, <- Zle_Qle; lia].
Qed.
(** without samples the acceptance rate is 0/0 *)
Theorem C27_no_samples : forall burnin cov ini interval r0 cur0 count0 j c, mh_sample 0 burnin cov ini interval None r0 cur0 count0 <> Ok (j, c).
Proof.
  intros burnin cov ini interval r0 cur0 count0 j c. unfold M_MCMC.mh_sample. destruct (match ini with Some th => (r0, th, cur0) | None => let '(r1, th) := prior r0 in (r1, th, th) end) as [[r1 th0] cur1].
  destruct (sim_ll _ _ _ _ _ _ _ th0 cur1 r1) as [[[r2 ll0] cur2]|]; [|discriminate]. destruct (tr th0); [|discriminate]. destruct (ldj th0); [|discriminate]. cbv zeta.
  destruct (M_MCMC.mh_loop _ _ _ _ _ _ _ _ _ _ _ _ _ _ _ _ _ _ _ _ _ _ _ _ _ _); discriminate.
Qed.
(** C29.  A restart appends n states to the saved ones; the acceptance rate is that of all states together, weighted with their numbers;
    burn-in states of the restart are discarded again. *)
Theorem C29_restart : set_ok setp -> forall n burnin cov interval jn r0 cur0 count0 j c,
  mh_sample n burnin cov None interval (Some jn) r0 cur0 count0 = Ok (j, c) ->
  exists th0 rate ns y0 pdf0 jac0 l, last_opt (j_params jn) = Some th0 /\ last_opt (j_rates jn) = Some rate /\ last_opt (j_nsims jn) = Some ns
  /\ Walk burnin interval 0 (mkpt th0 y0 (j_ll jn) pdf0 jac0) (match cov with Some m => m | None => j_cov jn end) [] l (j_cov j)
  /\ length l = burnin + n /\ j_params j = j_params jn ++ map (fun x => q_th (snd x)) (skipn burnin l)
  /\ j_n j = j_n jn + n /\ j_weights j = j_n jn + n
  /\ (exists q, j_rates j = j_rates jn ++ [q]
        /\ (q == (rate * inject_Z (Z.of_nat (j_n jn)) + inject_Z (Z.of_nat (tally Accepted (map fst (skipn burnin l))))) / inject_Z (Z.of_nat (j_n jn + n)))%Q)
  /\ j_nsims j = j_nsims jn ++ [ns + (burnin + n - tally Outside (map fst l))].
Proof.
  intros Hset n burnin cov interval jn r0 cur0 count0 j c H. unfold M_MCMC.mh_sample in H. destruct (last_opt (j_rates jn)) as [rate|]; [|discriminate]. destruct (last_opt (j_params jn)) as [th0|]; [|discriminate]. destruct (last_opt (j_nsims jn)) as [ns|]; [|discriminate].
  destruct (tr th0) as [y0|] eqn:Et; [|discriminate]. destruct (ldj th0) as [jac0|] eqn:Ej; [|discriminate]. cbv zeta in H.
  destruct (M_MCMC.mh_loop _ _ _ _ _ _ _ _ _ _ _ _ _ _ _ _ _ _ _ _ _ _ _ _ _ _) as [c'|] eqn:El; [|discriminate]. destruct (Nat.eqb_spec (j_n jn + n) 0) as [|Hn]; [discriminate|]. injection H as <- <-.
  apply loop_spec in El; [|exact Hset]. destruct El as (l & HW & Hl & Hp & Ht & Ha & Hs). cbn [c_pt c_cov c_burn c_trace c_acc c_sims] in *. rewrite Nat.sub_0_r in *.
  exists th0, rate, ns, y0, (pdfv th0 (snd (setp th0 cur0))), jac0, l. split; [reflexivity|]. split; [reflexivity|]. split; [reflexivity|]. split; [destruct cov; exact HW|]. split; [exact Hl|]. split; [cbn; rewrite Ht; reflexivity|]. split; [reflexivity|]. split; [reflexivity|].
  split. { eexists. split; [reflexivity|]. rewrite Ha. cbn [plus]. reflexivity. }
  cbn. f_equal. f_equal. assert (Htl : tally Outside (map fst l) <= length l) by (clear; unfold tally; rewrite <- (map_length fst l); generalize (map fst l); induction l0 as [|a l0 IH]; cbn; [lia | destruct a; cbn; lia]). lia.
Qed.

(** step number t + m of a burn-in is an adaptation step: a multiple of the interval and not a proposal outside the prior *)
Definition adapts (burnin : nat) (interval : option nat) (t : nat) (vs : list verdict) (m : nat) : Prop :=
  exists k v, interval = Some k /\ t + m < burnin /\ (t + m + 1) mod k = 0 /\ nth_error vs m = Some v /\ v <> Outside.
Lemma walk_cov burnin interval t s cov burn l covN : t <= burnin -> Walk burnin interval t s cov burn l covN ->
  ((forall m, ~ adapts burnin interval t (map fst l) m) /\ covN = cov)
  \/ exists m, adapts burnin interval t (map fst l) m /\ (forall m', adapts burnin interval t (map fst l) m' -> m' <= m) /\ covN = adapt (burn ++ map (fun x => q_th (snd x)) (firstn (S m) l)).
Proof.
  intros Hle HW. revert Hle. induction HW as [t s cov burn|t s cov burn v s' cov' l covN HM Hc HW IH]; intros Hle.
  - left. split; [|reflexivity]. intros m (k & v & _ & _ & _ & H & _). destruct m; discriminate.
  - assert (Hsh : forall m, adapts burnin interval t (map fst ((v, s') :: l)) (S m) <-> adapts burnin interval (S t) (map fst l) m).
    { intros m. unfold adapts. cbn [map fst nth_error]. replace (t + S m) with (S t + m) by lia. reflexivity. }
    destruct (Nat.ltb_spec t burnin) as [Hlt|Hge].
    + cbn [andb] in Hc. destruct (IH Hlt) as [[Hno ->] | (m & Hm & Hmax & ->)].
      * destruct (negb (veqb v Outside) && match interval with None => false | Some k => (t + 1) mod k =? 0 end) eqn:E.
        -- apply andb_true_iff in E. destruct E as [Ev Ek]. right. exists 0. split; [|split].
           ++ destruct interval as [k|]; [|discriminate]. exists k, v. rewrite Nat.add_0_r. apply Nat.eqb_eq in Ek. split; [reflexivity|]. split; [exact Hlt|]. split; [exact Ek|]. split; [reflexivity|]. intros ->. discriminate.
           ++ intros [|m'] Hm'; [lia|]. exfalso. apply (Hno m'), Hsh, Hm'.
           ++ rewrite Hc. reflexivity.
        -- left. split; [|exact Hc]. intros [|m] Hm; [|apply (Hno m), Hsh, Hm]. destruct Hm as (k & v' & -> & _ & Hk & Hv & Hv'). cbn in Hv. injection Hv as <-. rewrite Nat.add_0_r in Hk. rewrite (proj2 (Nat.eqb_eq _ _) Hk) in E. destruct v; [congruence | discriminate | discriminate].
      * right. exists (S m). split; [apply Hsh, Hm|]. split; [intros [|m'] Hm'; [lia | apply Hsh, Hmax in Hm'; lia]|]. rewrite <- app_assoc. reflexivity.
    + assert (Hno : forall l0 t0 m, burnin <= t0 -> ~ adapts burnin interval t0 l0 m) by (intros l0 t0 m Ht0 (k & v' & _ & H & _); lia).
      left. split; [intros m; apply Hno, Hge|]. cbn [andb] in Hc. subst cov'. clear - HW Hge Hno. assert (Hge' : burnin <= S t) by lia. clear Hge. remember (S t) as t1. clear Heqt1 t. revert Hge'.
      induction HW as [|t s0 cov0 burn0 v0 s0' cov0' l covN HM Hc HW IH]; intros Hge; [reflexivity|]. rewrite IH by lia. rewrite Hc. destruct (Nat.ltb_spec t burnin); [lia|]. reflexivity.
Qed.
(** C54.  The covariance matrices the run ends with are the initial ones if there was no adaptation step, else those computed from the states
    - in the original space - up to the last adaptation step. *)
Theorem C54_adaptation : set_ok setp -> forall n burnin cov ini interval r0 cur0 count0 j c, mh_sample n burnin cov ini interval None r0 cur0 count0 = Ok (j, c) ->
  exists th0 y0 vs states, (match ini with None => exists r1, prior r0 = (r1, th0) | Some x => th0 = x end) /\ tr th0 = Ok y0 /\ length vs = burnin + n /\ length states = burnin + n /\ j_params j = skipn burnin states
  /\ (((forall m, ~ adapts burnin interval 0 vs m) /\ j_cov j = match cov with Some m => m | None => eye y0 end)
      \/ exists m, adapts burnin interval 0 vs m /\ (forall m', adapts burnin interval 0 vs m' -> m' <= m) /\ j_cov j = adapt (firstn (S m) states)).
Proof.
  intros Hset n burnin cov ini interval r0 cur0 count0 j c H. apply C27_run in H; [|exact Hset]. destruct H as (th0 & y0 & ll0 & pdf0 & jac0 & l & Hi & _ & _ & Hy & _ & HW & Hl & Hn & _ & _ & HP & _).
  exists th0, y0, (map fst l), (map (fun x => q_th (snd x)) l). split; [exact Hi|]. split; [exact Hy|]. rewrite !map_length. split; [exact Hl|]. split; [exact Hl|]. split; [rewrite HP; clear; revert l; induction burnin as [|b IH]; intros [|x l]; cbn; try reflexivity; apply IH|].
  apply walk_cov in HW; [|lia]. destruct HW as [HW | (m & Hm & Hmax & Hc)]; [left; exact HW | right]. exists m. split; [exact Hm|]. split; [exact Hmax|]. rewrite Hc. destruct (Nat.eqb_spec burnin 0) as [->|_].
  - destruct Hm as (k & v & _ & H & _). lia.
  - cbn [app]. rewrite firstn_map. reflexivity.
Qed.

Notation chain := (chain Theta Rng F Cov).
Notation c_pt := (c_pt Theta Rng F Cov).
Notation c_acc := (c_acc Theta Rng F Cov).
Notation c_sims := (c_sims Theta Rng F Cov).
Notation c_cov := (c_cov Theta Rng F Cov).
Notation c_trace := (c_trace Theta Rng F Cov).
Notation c_rng := (c_rng Theta Rng F Cov).
(** the values kept with a position are those of its parameters *)
Definition coherent (s : M_MCMC.pt Theta F) : Prop := tr (q_th s) = Ok (q_tr Theta F s) /\ ldj (q_th s) = Ok (q_ldj Theta F s) /\ forall c, q_pdf Theta F s = pdfv (q_th s) c.
Definition same (a : nat) (p : list Theta) (c1 c2 : chain) : Prop :=
  c_pt c1 = c_pt c2 /\ c_cov c1 = c_cov c2 /\ c_rng c1 = c_rng c2 /\ c_sims c1 = c_sims c2 /\ c_acc c1 = a + c_acc c2 /\ c_trace c1 = p ++ c_trace c2.
Section Composition.
Hypothesis Hinv : forall y, tr (inv y) = Ok y.
Hypothesis Hpdf : forall th c c', pdfv th c = pdfv th c'.
Hypothesis Hpos : forall th c c', fzero (pdfv th c) = false -> snd (setp th c') = th.
Lemma step_same a p burnin interval i2 t t2 c1 c2 c1' : burnin <= t -> same a p c1 c2 -> mh_step burnin interval t c1 = Ok c1' -> exists c2', mh_step 0 i2 t2 c2 = Ok c2' /\ same a p c1' c2'.
Proof.
  intros Hb (Ep & Ec & Er & Es & Ea & Et) H. unfold M_MCMC.mh_step in *. rewrite <- Ep, <- Ec, <- Er. destruct (kupd _ _ _) as [r1 y]. cbv zeta in *. rewrite (proj2 (Nat.leb_le burnin t) Hb) in H. cbn [Nat.leb].
  rewrite (Hpdf (inv y) (snd (setp (inv y) (c_cur _ _ _ _ c2))) (snd (setp (inv y) (c_cur _ _ _ _ c1)))). destruct (fzero _) eqn:Ez.
  - injection H as <-. eexists. split; [reflexivity|]. unfold same. cbn. rewrite Et, app_assoc. auto 10.
  - unfold sim_ll in *. rewrite !(Hpos _ _ _ Ez) in *. destruct (simc (inv y) r1) as [r2 [d|]]; [|discriminate]. destruct (ldj (inv y)) as [j|]; [|discriminate]. destruct (unif r2) as [r3 u].
    injection H as <-. eexists. split; [reflexivity|]. unfold same. cbn. rewrite Et, Ea, Es, app_assoc, andb_true_r. destruct (flt u _); rewrite ?Nat.add_succ_r; auto 10.
Qed.
Lemma loop_same a p burnin interval i2 k : forall t t2 c1 c2 c1', burnin <= t -> same a p c1 c2 -> mh_loop burnin interval t k c1 = Ok c1' -> exists c2', mh_loop 0 i2 t2 k c2 = Ok c2' /\ same a p c1' c2'.
Proof.
  induction k as [|k IH]; intros t t2 c1 c2 c1' Hb HS H; cbn [M_MCMC.mh_loop] in *; [injection H as <-; eauto|].
  destruct (mh_step burnin interval t c1) as [d|] eqn:E; [|discriminate]. destruct (step_same _ _ _ _ i2 _ t2 _ _ _ Hb HS E) as (d2 & -> & HS'). apply (IH (S t) (S t2) d d2 c1'); [lia | exact HS' | exact H].
Qed.
Lemma step_same_conv a p burnin interval i2 t t2 c1 c2 c2' : burnin <= t -> same a p c1 c2 -> mh_step 0 i2 t2 c2 = Ok c2' -> exists c1', mh_step burnin interval t c1 = Ok c1' /\ same a p c1' c2'.
Proof.
  intros Hb (Ep & Ec & Er & Es & Ea & Et) H. unfold M_MCMC.mh_step in *. rewrite Ep, Ec, Er. destruct (kupd _ _ _) as [r1 y]. cbv zeta in *. rewrite (proj2 (Nat.leb_le burnin t) Hb). cbn [Nat.leb] in H.
  rewrite (Hpdf (inv y) (snd (setp (inv y) (c_cur _ _ _ _ c1))) (snd (setp (inv y) (c_cur _ _ _ _ c2)))). destruct (fzero _) eqn:Ez.
  - injection H as <-. eexists. split; [reflexivity|]. unfold same. cbn. rewrite Et, app_assoc. auto 10.
  - unfold sim_ll in *. rewrite !(Hpos _ _ _ Ez) in *. destruct (simc (inv y) r1) as [r2 [d|]]; [|discriminate]. destruct (ldj (inv y)) as [j|]; [|discriminate]. destruct (unif r2) as [r3 u].
    injection H as <-. eexists. split; [reflexivity|]. unfold same. cbn. rewrite Et, Ea, Es, app_assoc, andb_true_r. destruct (flt u _); rewrite ?Nat.add_succ_r; auto 10.
Qed.
Lemma loop_same_conv a p burnin interval i2 k : forall t t2 c1 c2 c2', burnin <= t -> same a p c1 c2 -> mh_loop 0 i2 t2 k c2 = Ok c2' -> exists c1', mh_loop burnin interval t k c1 = Ok c1' /\ same a p c1' c2'.
Proof.
  induction k as [|k IH]; intros t t2 c1 c2 c2' Hb HS H; cbn [M_MCMC.mh_loop] in *; [injection H as <-; eauto|].
  destruct (mh_step 0 i2 t2 c2) as [d|] eqn:E; [|discriminate]. destruct (step_same_conv _ _ _ interval _ t _ _ _ _ Hb HS E) as (d2 & -> & HS'). apply (IH (S t) (S t2) d2 d c2'); [lia | exact HS' | exact H].
Qed.
Lemma loop_app burnin interval k n : forall t c, mh_loop burnin interval t (k + n) c = match mh_loop burnin interval t k c with Err e => Err e | Ok c' => mh_loop burnin interval (t + k) n c' end.
Proof.
  induction k as [|k IH]; intros t c; cbn [M_MCMC.mh_loop plus]; [rewrite Nat.add_0_r; reflexivity|]. destruct (mh_step burnin interval t c); [|reflexivity]. rewrite IH, Nat.add_succ_r. reflexivity.
Qed.
Lemma loop_coherent burnin interval k : forall t c c', coherent (c_pt c) -> mh_loop burnin interval t k c = Ok c' -> coherent (c_pt c').
Proof.
  induction k as [|k IH]; intros t c c' Hc H; cbn [M_MCMC.mh_loop] in *; [injection H as <-; exact Hc|]. destruct (mh_step burnin interval t c) as [d|] eqn:E; [|discriminate]. apply (IH (S t) d c'); [|exact H].
  clear - Hc E Hinv Hpdf Hpos. unfold M_MCMC.mh_step in E. destruct (kupd _ _ _) as [r1 y]. cbv zeta in E. destruct (fzero _); [injection E as <-; exact Hc|].
  destruct (sim_ll _ _ _ _ _ _ _ _ _ _) as [[[r2 l] cur2]|]; [|discriminate]. destruct (ldj (inv y)) as [j|] eqn:Ej; [|discriminate]. destruct (unif r2) as [r3 u].
  set (s' := mkpt _ _ _ _ _) in *. set (ok := flt u _) in E. assert (Hs : coherent (if ok then s' else c_pt c)).
  { destruct ok; [|exact Hc]. split; [apply Hinv|]. split; [exact Ej|]. intros c0. apply Hpdf. }
  destruct (burnin <=? t); [injection E as <-; exact Hs|]. destruct interval as [[|m]|]; [discriminate | |]; injection E as <-; exact Hs.
Qed.
Lemma step_trace burnin interval t c c' : mh_step burnin interval t c = Ok c' -> burnin <= t -> c_trace c' = c_trace c ++ [q_th (c_pt c')].
Proof.
  intros E Hb. unfold M_MCMC.mh_step in E. destruct (kupd _ _ _) as [r1 y]. cbv zeta in E. rewrite (proj2 (Nat.leb_le burnin t) Hb) in E. destruct (fzero _); [injection E as <-; reflexivity|].
  destruct (sim_ll _ _ _ _ _ _ _ _ _ _) as [[[r2 l] cur2]|]; [|discriminate]. destruct (ldj (inv y)) as [j|]; [|discriminate]. destruct (unif r2) as [r3 u]. injection E as <-. reflexivity.
Qed.
Lemma trace_last burnin interval k : forall t c c', 0 < k -> burnin <= t + (k - 1) -> mh_loop burnin interval t k c = Ok c' -> last_opt (c_trace c') = Some (q_th (c_pt c')).
Proof.
  intros t c c' Hk Hb H. replace k with ((k - 1) + 1) in H by lia. rewrite loop_app in H. destruct (mh_loop burnin interval t (k - 1) c) as [d|]; [|discriminate]. cbn [M_MCMC.mh_loop] in H.
  destruct (mh_step _ _ _ d) as [d'|] eqn:E; [|discriminate]. injection H as <-. rewrite (step_trace _ _ _ _ _ E Hb). unfold last_opt. rewrite rev_app_distr. reflexivity.
Qed.
(** C29.  m samples and then a restart from the journal for n more, without burn-in, with the generator as the first run left it, give what
    m + n samples at once would have given.  The simulators must see the parameters exactly (a parameter with positive prior density is
    never refused), densities must depend on the parameters only, and the transformation must undo its inverse. *)
Theorem C29_composition : forall m n burnin cov ini interval r0 cur0 count0 j1 c1 ini2 interval2 cur' count' j2 c2,
  mh_sample m burnin cov ini interval None r0 cur0 count0 = Ok (j1, c1) ->
  mh_sample n 0 None ini2 interval2 (Some j1) (c_rng c1) cur' count' = Ok (j2, c2) ->
  exists j c q q', mh_sample (m + n) burnin cov ini interval None r0 cur0 count0 = Ok (j, c)
  /\ j_params j = j_params j2 /\ j_n j = j_n j2 /\ j_weights j = j_weights j2 /\ j_ll j = j_ll j2 /\ j_cov j = j_cov j2 /\ c_rng c = c_rng c2
  /\ last_opt (j_nsims j) = last_opt (j_nsims j2) /\ last_opt (j_rates j) = Some q /\ last_opt (j_rates j2) = Some q' /\ (q == q')%Q.
Proof.
  intros m n burnin cov ini interval r0 cur0 count0 j1 c1 ini2 interval2 cur' count' j2 c2 H1 H2. unfold M_MCMC.mh_sample in *.
  destruct (match ini with Some th => (r0, th, cur0) | None => let '(r1, th) := prior r0 in (r1, th, th) end) as [[r1 th0] cur1].
  destruct (sim_ll _ _ _ _ _ _ _ th0 cur1 r1) as [[[r2 ll0] cur2]|]; [|discriminate].
  destruct (tr th0) as [y0|] eqn:Et; [|discriminate]. destruct (ldj th0) as [jac0|] eqn:Ej; [|discriminate]. cbv zeta in H1.
  set (m0 := match cov with Some m => m | None => eye y0 end) in *. set (s0 := mkpt th0 y0 ll0 (pdfv th0 (snd (setp th0 cur2))) jac0) in *. set (ch0 := mkch _ _ _ _ s0 0 (S count0) m0 _ [] _ r2) in *.
  destruct (mh_loop burnin interval 0 (burnin + m) ch0) as [d|] eqn:E1; [|discriminate]. destruct (Nat.eqb_spec m 0) as [|Hm]; [discriminate|]. injection H1 as <- <-. cbn [j_rates j_params j_nsims j_ll j_n j_cov fst snd app] in H2. change (last_opt [?x]) with (Some x) in H2.
  assert (Hc0 : coherent s0) by (split; [exact Et|]; split; [exact Ej|]; intros c0; apply Hpdf).
  pose proof (loop_coherent burnin interval (burnin + m) 0 ch0 d Hc0 E1) as (Hy & Hj & Hp). assert (Hk1 : 0 < burnin + m) by (clear - Hm; lia). assert (Hk2 : burnin <= 0 + (burnin + m - 1)) by (clear - Hm; lia). rewrite (trace_last burnin interval (burnin + m) 0 ch0 d Hk1 Hk2 E1) in H2.
  change (last_opt [?x]) with (Some x) in H2. cbv beta iota zeta in H2. rewrite Hy, Hj in H2. rewrite <- Hp in H2.
  set (e0 := mkch _ _ _ _ _ 0 _ _ [] [] _ _) in H2. destruct (mh_loop 0 interval2 0 n e0) as [e|] eqn:E2; [|cbn [plus] in H2; rewrite E2 in H2; discriminate]. cbn [plus] in H2. rewrite E2 in H2.
  destruct (Nat.eqb_spec (m + n) 0) as [|Hmn]; [lia|]. injection H2 as <- <-.
  assert (HS : same (c_acc d) (c_trace d) d e0). { unfold same, e0. cbn. rewrite Nat.add_0_r, app_nil_r. destruct (c_pt d); auto 10. }
  destruct (loop_same_conv _ _ burnin interval interval2 n (burnin + m) 0 d e0 e (ltac:(lia)) HS E2) as (d' & E3 & HS'). destruct HS' as (Ep & Ec & Er & Es & Ea & Etr).
  eexists _, d', _, _. cbv zeta. fold s0 m0 ch0. rewrite Nat.add_assoc, loop_app, E1. cbn [plus]. rewrite E3. destruct (Nat.eqb_spec (m + n) 0) as [|_]; [contradiction|]. split; [reflexivity|]. cbn [j_params j_n j_weights j_ll j_cov j_nsims j_rates fst snd app].
  split; [exact Etr|]. split; [reflexivity|]. split; [reflexivity|]. split; [rewrite Ep; reflexivity|]. split; [exact Ec|]. split; [exact Er|]. split; [unfold last_opt; cbn; rewrite Es; reflexivity|]. split; [reflexivity|]. split; [reflexivity|].
  rewrite Ea. assert (H0 : forall k, k <> 0 -> ~ (inject_Z (Z.of_nat k) == 0)%Q) by (intros k Hk E; apply Hk; unfold Qeq in E; cbn in E; lia).
  rewrite Nat2Z.inj_add, inject_Z_plus. field. split; apply H0; lia.
Qed.
(** and if the long run succeeds, so do its two parts *)
Theorem C29_split : forall m n burnin cov ini interval r0 cur0 count0 j c, 0 < m -> mh_sample (m + n) burnin cov ini interval None r0 cur0 count0 = Ok (j, c) ->
  exists j1 c1, mh_sample m burnin cov ini interval None r0 cur0 count0 = Ok (j1, c1)
  /\ forall ini2 interval2 cur' count', exists j2 c2, mh_sample n 0 None ini2 interval2 (Some j1) (c_rng c1) cur' count' = Ok (j2, c2).
Proof.
  intros m n burnin cov ini interval r0 cur0 count0 j c Hm H. unfold M_MCMC.mh_sample in H |- *.
  destruct (match ini with Some th => (r0, th, cur0) | None => let '(r1, th) := prior r0 in (r1, th, th) end) as [[r1 th0] cur1].
  destruct (sim_ll _ _ _ _ _ _ _ th0 cur1 r1) as [[[r2 ll0] cur2]|]; [|discriminate].
  destruct (tr th0) as [y0|] eqn:Et; [|discriminate]. destruct (ldj th0) as [jac0|] eqn:Ej; [|discriminate]. cbv zeta in *.
  set (m0 := match cov with Some m => m | None => eye y0 end) in *. set (s0 := mkpt th0 y0 ll0 (pdfv th0 (snd (setp th0 cur2))) jac0) in *. set (ch0 := mkch _ _ _ _ s0 0 (S count0) m0 _ [] _ r2) in *.
  rewrite Nat.add_assoc, loop_app in H. destruct (mh_loop burnin interval 0 (burnin + m) ch0) as [d|] eqn:E1; [|discriminate]. cbn [plus] in H. destruct (mh_loop burnin interval (burnin + m) n d) as [d'|] eqn:E3; [|discriminate].
  destruct (Nat.eqb_spec m 0) as [|Hm0]; [lia|]. eexists _, d. split; [reflexivity|]. intros ini2 interval2 cur' count'. cbn [j_rates j_params j_nsims j_ll j_n j_cov fst snd app]. change (last_opt [?x]) with (Some x).
  assert (Hc0 : coherent s0) by (split; [exact Et|]; split; [exact Ej|]; intros c0; apply Hpdf).
  pose proof (loop_coherent burnin interval (burnin + m) 0 ch0 d Hc0 E1) as (Hy & Hj & Hp). assert (Hk1 : 0 < burnin + m) by (clear - Hm; lia). assert (Hk2 : burnin <= 0 + (burnin + m - 1)) by (clear - Hm; lia). rewrite (trace_last burnin interval (burnin + m) 0 ch0 d Hk1 Hk2 E1).
  change (last_opt [?x]) with (Some x). cbv beta iota zeta. rewrite Hy, Hj. rewrite <- Hp. cbn [plus]. set (e0 := mkch _ _ _ _ _ 0 _ _ [] [] _ _).
  assert (HS : same (c_acc d) (c_trace d) d e0). { unfold same, e0. cbn. rewrite Nat.add_0_r, app_nil_r. destruct (c_pt d); auto 10. }
  assert (Hbm : burnin <= burnin + m) by lia. destruct (loop_same _ _ burnin interval interval2 n (burnin + m) 0 d e0 d' Hbm HS E3) as (e & -> & _).
  destruct (Nat.eqb_spec (m + n) 0) as [|_]; [lia|]. eauto.
Qed.
End Composition.
End Statements.
Print Assumptions C27_run.
Print Assumptions C27_chain.
Print Assumptions C27_no_samples.
Print Assumptions C29_restart.
Print Assumptions C29_composition.
Print Assumptions C29_split.

(** C28, with floats as extended real numbers *)
Section Reals.
Variable Theta : Type.
Notation pt := (pt Theta xr).
Notation accepts := (@accepts Theta xr xadd xsub xmul xdiv xexp xlt).
Open Scope R_scope.
(** at position s: prior density p, log likelihood l, log determinant of the Jacobian of the transformation a *)
Definition at_point (s : pt) (p l a : R) : Prop := q_pdf Theta xr s = XR p /\ q_ll Theta xr s = XR l /\ q_ldj Theta xr s = XR a.
(** density of the posterior in the transformed space: exp(-a) is the Jacobian of the inverse transformation *)
Definition target (p l a : R) : R := p * exp l * exp (- a).
(** C28.  The chance (of a uniform number in [0,1)) that a move is accepted satisfies detailed balance for the posterior in the transformed
    space, when proposals are symmetric there. *)
Theorem C28_balance : forall s s' p l a p' l' a', at_point s p l a -> at_point s' p' l' a' -> 0 < p -> 0 < p' ->
  exists pr pr', 0 <= pr <= 1 /\ 0 <= pr' <= 1
  /\ (forall u, 0 <= u < 1 -> accepts s s' (XR u) = true <-> u < pr)
  /\ (forall u, 0 <= u < 1 -> accepts s' s (XR u) = true <-> u < pr')
  /\ (forall k, target p l a * k * pr = target p' l' a' * k * pr')
  /\ pr = Rmin 1 (target p' l' a' / target p l a).
Proof.
  assert (Hone : forall s s' p l a p' l' a', at_point s p l a -> at_point s' p' l' a' -> 0 < p -> 0 < p' ->
    forall u, 0 <= u < 1 -> accepts s s' (XR u) = true <-> u < Rmin 1 (target p' l' a' / target p l a)).
  { intros s s' p l a p' l' a' (E1 & E2 & E3) (E1' & E2' & E3') Hp Hp' u Hu. unfold S_MCMC.accepts. rewrite E1, E2, E3, E1', E2', E3'. cbn [xsub xadd xopp xexp xmul]. unfold xdiv. rewrite (rsign_pos p Hp). cbn [xlt].
    assert (E : exp (a + - a' + l' + - l) * p' / p = target p' l' a' / target p l a).
    { unfold target. rewrite !exp_plus, !exp_Ropp. pose proof (exp_pos a). pose proof (exp_pos l). pose proof (exp_pos a'). field. lra. }
    rewrite E. destruct (Rlt_dec u _) as [H|H].
    - split; [intros _; apply Rmin_glb_lt; [apply Hu | exact H] | reflexivity].
    - split; [discriminate | intros H'; exfalso; apply H; eapply Rlt_le_trans; [exact H' | apply Rmin_r]]. }
  intros s s' p l a p' l' a' H H' Hp Hp'. exists (Rmin 1 (target p' l' a' / target p l a)), (Rmin 1 (target p l a / target p' l' a')).
  assert (Hg : 0 < target p l a) by (unfold target; apply Rmult_lt_0_compat; [apply Rmult_lt_0_compat; [exact Hp | apply exp_pos] | apply exp_pos]).
  assert (Hg' : 0 < target p' l' a') by (unfold target; apply Rmult_lt_0_compat; [apply Rmult_lt_0_compat; [exact Hp' | apply exp_pos] | apply exp_pos]).
  assert (Hr : forall x y, 0 < x -> 0 < y -> 0 <= Rmin 1 (x / y) <= 1) by (intros x y Hx Hy; split; [apply Rmin_glb; [lra | apply Rlt_le, Rdiv_lt_0_compat; assumption] | apply Rmin_l]).
  split; [apply Hr; assumption|]. split; [apply Hr; assumption|]. split; [apply (Hone s s'); assumption|]. split; [apply (Hone s' s); assumption|]. split; [|reflexivity].
  intros k. revert Hg Hg'. generalize (target p l a), (target p' l' a'). clear. intros g g' Hg Hg'. unfold Rmin. assert (Hd : forall x y, 0 < y -> (1 <= x / y <-> y <= x)).
  { intros x y Hy. split; intros H; [apply Rmult_le_reg_r with (/ y); [apply Rinv_0_lt_compat, Hy | rewrite Rinv_r by lra; exact H] | apply Rmult_le_reg_r with y; [exact Hy|]; unfold Rdiv; rewrite Rmult_assoc, Rinv_l by lra; lra]. }
  destruct (Rle_dec 1 (g' / g)) as [H|H], (Rle_dec 1 (g / g')) as [H'|H']; try (apply (proj1 (Hd _ _ Hg)) in H); try (apply (proj1 (Hd _ _ Hg')) in H').
  - assert (E : g' = g) by (apply Rle_antisym; assumption). subst g'. lra.
  - field. lra.
  - field. lra.
  - exfalso. assert (~ g <= g') by (intros E; apply H, Hd; assumption). assert (~ g' <= g) by (intros E; apply H', Hd; assumption). lra.
Qed.
(** without a transformation (DummyTransformer) the Jacobian terms are 0 and the balance is for prior times likelihood *)
Theorem C28_untransformed : forall s s' p l p' l', at_point s p l 0 -> at_point s' p' l' 0 -> 0 < p -> 0 < p' ->
  exists pr pr', (forall u, 0 <= u < 1 -> accepts s s' (XR u) = true <-> u < pr) /\ (forall u, 0 <= u < 1 -> accepts s' s (XR u) = true <-> u < pr')
  /\ (p * exp l) * pr = (p' * exp l') * pr'.
Proof.
  intros s s' p l p' l' H H' Hp Hp'. destruct (C28_balance s s' p l 0 p' l' 0 H H' Hp Hp') as (pr & pr' & _ & _ & H1 & H2 & H3 & _). exists pr, pr'. split; [exact H1|]. split; [exact H2|].
  specialize (H3 1). unfold target in H3. rewrite Ropp_0, exp_0 in H3. lra.
Qed.
(** a candidate with zero likelihood is never accepted; from a state with zero likelihood every candidate with positive likelihood is *)
Theorem C28_zero_likelihood : forall s s' p a p' l' a' u, q_pdf Theta xr s = XR p -> q_ldj Theta xr s = XR a -> q_pdf Theta xr s' = XR p' -> q_ldj Theta xr s' = XR a' -> 0 < p -> 0 < p' -> 0 <= u ->
  (q_ll Theta xr s = XR l' -> q_ll Theta xr s' = XNInf -> accepts s s' (XR u) = false)
  /\ (q_ll Theta xr s = XNInf -> q_ll Theta xr s' = XR l' -> accepts s s' (XR u) = true).
Proof.
  intros s s' p a p' l' a' u E1 E2 E1' E2' Hp Hp' Hu. unfold S_MCMC.accepts. rewrite E1, E2, E1', E2'. split; intros -> ->; cbn [xsub xadd xopp xexp xmul xsgn].
  - unfold xdiv. rewrite (rsign_pos p Hp). cbn [xlt]. destruct (Rlt_dec u _) as [H|]; [|reflexivity]. exfalso. rewrite Rmult_0_l in H. unfold Rdiv in H. rewrite Rmult_0_l in H. lra.
  - rewrite (rsign_pos p' Hp'). cbn [xneg xorb]. unfold xdiv. cbn [xsgn]. rewrite (rsign_pos p Hp). reflexivity.
Qed.
End Reals.
Print Assumptions C28_balance.
Print Assumptions C28_untransformed.
Print Assumptions C28_zero_likelihood.

Print Assumptions C54_adaptation.
(** A run: integers in [-2,2] with log likelihood 0, transformed by adding 10, perturbed by plus or minus the "covariance" (sum of the states). *)
Module Toy.
Definition setp (th cur : Z) : bool * Z := if (Z.abs th <=? 2)%Z then (true, th) else (false, cur).
Definition pdfv (th _ : Z) : num := if (Z.abs th <=? 2)%Z then Fin (1 # 5) else Fin 0.
Definition kupd (y cov : Z) (r : nat) : nat * Z := (S r, if Nat.leb (Nat.modulo r 5) 2 then y + cov else y - cov)%Z.
Definition prior (r : nat) : nat * Z := (S r, 1%Z).
Definition simc (th : Z) (r : nat) : nat * option Z := (S r, Some th).
Definition fzero (a : num) : bool := neqb a (Fin 0).
Definition fexp (a : num) : num := if neqb a (Fin 0) then Fin 1 else a.
Definition unif (r : nat) : nat * num := (S r, Fin (Z.of_nat (r mod 4) # 3)).
Definition tr (th : Z) : res Z := Ok (th + 10)%Z.
Definition inv (y : Z) : Z := (y - 10)%Z.
Definition adapt (l : list Z) : Z := fold_right Z.add 0%Z l.
Definition run n burnin cov interval := mh_sample Z nat Z num Z nadd nsub nmul M_Infer.ndiv fexp nlt fzero setp pdfv kupd prior simc (fun _ => Fin 0) tr inv (fun _ => Ok (Fin 0)) unif (fun _ => 1%Z) adapt n burnin cov None interval.
End Toy.
Lemma toy_set_ok : set_ok Toy.setp.
Proof. split; [intros th cur cur' | intros th]; unfold Toy.setp; destruct (Z.abs th <=? 2)%Z; cbn; congruence. Qed.
(** seven steps: accepted, three outside the prior, accepted, accepted, accepted *)
Example C27_case : exists j c, Toy.run 7 0 None None None 0 0%Z 0 = Ok (j, c) /\ j_params j = [2; 2; 2; 2; 1; 2; 1]%Z /\ j_n j = 7 /\ j_nsims j = [5] /\ (exists q, j_rates j = [q] /\ (q == 4 # 7)%Q).
Proof. eexists _, _. split; [vm_compute; reflexivity|]. split; [reflexivity|]. split; [reflexivity|]. split; [reflexivity|]. eexists. split; reflexivity. Qed.
(** three steps and a restart for four more give the same as seven *)
Example C29_case : exists j1 c1 j2 c2 j c, Toy.run 3 0 None None None 0 0%Z 0 = Ok (j1, c1) /\ Toy.run 4 0 None None (Some j1) (c_rng _ _ _ _ c1) 0%Z 99 = Ok (j2, c2) /\ Toy.run 7 0 None None None 0 0%Z 0 = Ok (j, c)
  /\ j_params j2 = j_params j /\ j_nsims j2 = [2; 5] /\ j_nsims j = [5] /\ j_rates j2 = [1 # 3; 12 # 21]%Q /\ j_rates j = [4 # 7]%Q.
Proof. eexists _, _, _, _, _, _. split; [vm_compute; reflexivity|]. split; [vm_compute; reflexivity|]. split; [vm_compute; reflexivity|]. vm_compute. auto 10. Qed.
Example C29_hypotheses : (forall y, Toy.tr (Toy.inv y) = Ok y) /\ (forall th c c', Toy.pdfv th c = Toy.pdfv th c') /\ (forall th c c', Toy.fzero (Toy.pdfv th c) = false -> snd (Toy.setp th c') = th).
Proof.
  split; [intros y; unfold Toy.tr, Toy.inv; f_equal; lia|]. split; [reflexivity|]. intros th c c'. unfold Toy.pdfv, Toy.setp. destruct (Z.abs th <=? 2)%Z; [reflexivity | discriminate].
Qed.
(** with burn-in, a restart discards burn-in states again *)
Example C29_burnin_again : exists j1 c1 j2 c2 j c, Toy.run 3 0 None None None 0 0%Z 0 = Ok (j1, c1) /\ Toy.run 4 1 None None (Some j1) (c_rng _ _ _ _ c1) 0%Z 0 = Ok (j2, c2) /\ Toy.run 7 0 None None None 0 0%Z 0 = Ok (j, c)
  /\ j_params j2 <> j_params j.
Proof. eexists _, _, _, _, _, _. split; [vm_compute; reflexivity|]. split; [vm_compute; reflexivity|]. split; [vm_compute; reflexivity|]. vm_compute. discriminate. Qed.
(** C54.  Refuted: the proposal covariance is adapted to the states in the space in which proposals are made (inferences.py:4416). *)
Theorem C54_space_refuted : ~ (forall n burnin interval r0 cur0 j c, Toy.run n burnin None (Some interval) None r0 cur0 0 = Ok (j, c) -> 0 < interval -> interval <= burnin ->
  exists l, Forall (fun y => exists th, Toy.pdfv th 0%Z <> Fin 0 /\ Toy.tr th = Ok y) l /\ 0 < length l /\ j_cov j = Toy.adapt l).
Proof.
  intros H. destruct (H 1 1 1 0 0%Z _ _ (ltac:(vm_compute; reflexivity)) (ltac:(lia)) (ltac:(lia))) as (l & Hl & H0 & Hc). cbn [j_cov] in Hc. vm_compute (0 <? 1) in Hc.
  assert (Hmin : forall l, Forall (fun y => exists th, Toy.pdfv th 0%Z <> Fin 0 /\ Toy.tr th = Ok y) l -> (8 * Z.of_nat (length l) <= Toy.adapt l)%Z).
  { clear. induction l as [|y l IH]; intros Hl; [vm_compute; discriminate|]. pose proof (IH (Forall_inv_tail Hl)). destruct (Forall_inv Hl) as (th & Hp & Ht). unfold Toy.tr in Ht. injection Ht as <-.
    unfold Toy.pdfv in Hp. destruct (Z.leb_spec (Z.abs th) 2); [|congruence]. unfold Toy.adapt in *. cbn [fold_right length]. lia. }
  specialize (Hmin l Hl). rewrite <- Hc in Hmin. lia.
Qed.
(** C54.  Refuted: every interval-th burn-in step adapts the covariance (inferences.py:4365-4372: not if the proposal at that step is outside the
    prior). *)
Theorem C54_skipped_refuted : ~ (forall n burnin cov interval r0 cur0 j c, Toy.run n burnin (Some cov) (Some interval) None r0 cur0 0 = Ok (j, c) -> 0 < interval -> burnin = interval ->
  exists states, length states = burnin /\ Forall (fun th => Z.abs th <= 2)%Z states /\ j_cov j = Toy.adapt states).
Proof.
  intros H. destruct (H 1 1 7%Z 1 0 0%Z _ _ (ltac:(vm_compute; reflexivity)) (ltac:(lia)) eq_refl) as (l & Hl & Hf & Hc). cbn [j_cov] in Hc. destruct l as [|x [|y l]]; [discriminate | | discriminate].
  apply Forall_inv in Hf. unfold Toy.adapt in Hc. cbn in Hc. lia.
Qed.
(** an adaptation interval of 0 divides by zero at the first burn-in step that is not outside the prior *)
Example C54_interval_zero : Toy.run 1 1 None (Some 0) None 0 0%Z 0 = Err ZeroDivisionError /\ exists x, Toy.run 1 0 None (Some 0) None 0 0%Z 0 = Ok x.
Proof. split; [reflexivity | eexists; vm_compute; reflexivity]. Qed.
(** C28: positions with prior densities 1/2 and 1/4 and equal likelihoods and Jacobians *)
Example C28_case : at_point unit (mkpt unit xr tt tt (XR 0) (XR (1/2)) (XR 0)) (1/2)%R 0%R 0%R /\ at_point unit (mkpt unit xr tt tt (XR 0) (XR (1/4)) (XR 0)) (1/4)%R 0%R 0%R
  /\ Rmin 1 (target (1/4) 0 0 / target (1/2) 0 0) = (1/2)%R.
Proof.
  split; [unfold at_point; cbn; auto|]. split; [unfold at_point; cbn; auto|]. unfold target. rewrite Ropp_0, exp_0. unfold Rmin. destruct (Rle_dec 1 _) as [H|H]; [exfalso; lra | lra].
Qed.
Print Assumptions C54_space_refuted.
Print Assumptions C54_skipped_refuted.
