(** Property C26 (and C21) for SABC. *)
From Coq Require Import Lqa Qabs.
From Verif Require Import M_Base M_Num L_Num M_Infer S_Infer L_Infer M_PMCABC S_PMCABC L_PMCABC M_RSMCABC M_SMCABC L_RSMCABC L_SMCABC P_PMCABC M_SABC S_SABC L_SABC.
Open Scope nat_scope.

Lemma nmin_nonan a b : is_nan a = false -> is_nan b = false -> (nmin a b = a \/ nmin a b = b) /\ nle (nmin a b) a = true /\ nle (nmin a b) b = true.
Proof.
  destruct a as [x| | |], b as [y| | |]; try discriminate; intros _ _; cbn; auto; try (split; [auto|]; split; cbn; auto; apply Qle_bool_iff; apply Qle_refl).
  destruct (Qle_bool x y) eqn:E; cbn; split; auto; split; auto; try (apply Qle_bool_iff; apply Qle_refl). apply Qle_bool_iff. destruct (Qlt_le_dec y x); [lra|]. exfalso. apply Qle_bool_iff in q. congruence.
Qed.
Lemma nle_refl a : is_nan a = false -> nle a a = true.
Proof. destruct a; cbn; try reflexivity; try discriminate. intros _. apply Qle_bool_iff. apply Qle_refl. Qed.
Lemma nminl_spec l : forall x, Forall (fun y => is_nan y = false) (x :: l) -> In (nminl x l) (x :: l) /\ (forall y, In y (x :: l) -> nle (nminl x l) y = true).
Proof.
  unfold nminl. induction l as [|a l IH]; intros x HF; cbn [fold_left]; inversion HF as [|? ? Hx HF']; subst.
  - split; [left; reflexivity|]. intros y [<-|[]]. apply nle_refl. exact Hx.
  - inversion HF' as [|? ? Ha HF'']; subst. destruct (nmin_nonan x a Hx Ha) as (Hor & Hlx & Hla).
    assert (Hm : is_nan (nmin x a) = false) by (destruct Hor as [-> | ->]; assumption). destruct (IH (nmin x a) (Forall_cons _ Hm HF'')) as [Hin Hle]. split.
    + destruct Hin as [E|Hin]; [rewrite <- E; destruct Hor as [-> | ->]; [left | right; left]; reflexivity | right; right; exact Hin].
    + intros y [<-|[<-|Hy]]; [eapply nle_trans; [apply Hle; left; reflexivity | exact Hlx] | eapply nle_trans; [apply Hle; left; reflexivity | exact Hla] | apply Hle; right; exact Hy].
Qed.
(** _smoother_distance: the fraction of the old distances below d, or, below all of them, d relative to the smallest one *)
Theorem C26_smooth : forall all d, all <> [] -> Forall (fun x => is_nan x = false) all -> Smooth all d (smooth all d).
Proof. intros [|x l] d Hne HF; [congruence|]. destruct (nminl_spec l x HF) as [A B]. exists (nminl x l). split; [exact A|]. split; [exact B|]. reflexivity. Qed.
(** C26, first claim: with non-negative distances the smoothed distance is in [0,1] *)
Theorem C26_smooth_range : forall all d, all <> [] -> (forall x, In x all -> exists q, x = Fin q /\ (0 <= q)%Q) -> (exists q, d = Fin q /\ (0 <= q)%Q) ->
  exists s, smooth all d = Fin s /\ (0 <= s <= 1)%Q.
Proof.
  intros all d Hne Hall (q & -> & Hq). assert (HF : Forall (fun x => is_nan x = false) all) by (apply Forall_forall; intros x Hx; destruct (Hall x Hx) as (p & -> & _); reflexivity).
  destruct (C26_smooth all (Fin q) Hne HF) as (m & Hm & Hle & ->). destruct (Hall m Hm) as (p & -> & Hp).
  assert (Hlen : (0 < inject_Z (Z.of_nat (length all)))%Q) by (change 0%Q with (inject_Z 0); rewrite <- Zlt_Qlt; destruct all; [congruence | cbn; lia]).
  assert (Hnz : Qeq_bool (inject_Z (Z.of_nat (length all))) 0 = false) by (destruct (Qeq_bool _ 0) eqn:E; [apply Qeq_bool_iff in E; lra | reflexivity]).
  assert (H1len : (1 <= inject_Z (Z.of_nat (length all)))%Q) by (change 1%Q with (inject_Z 1); rewrite <- Zle_Qle; destruct all; [congruence | cbn; lia]).
  destruct (nlt (Fin q) (Fin p)) eqn:E.
  - apply nlt_fin in E. assert (Hpz : Qeq_bool p 0 = false) by (destruct (Qeq_bool p 0) eqn:E'; [apply Qeq_bool_iff in E'; lra | reflexivity]).
    unfold ndiv, ofnat. rewrite Hpz, Hnz. eexists. split; [reflexivity|]. assert (H0 : (0 <= q / p)%Q) by (apply Qle_shift_div_l; lra). assert (H1 : (q / p <= 1)%Q) by (apply Qle_shift_div_r; lra).
    split; [apply Qle_shift_div_l; lra | apply Qle_shift_div_r; lra].
  - unfold ndiv, ofnat. rewrite Hnz. eexists. split; [reflexivity|].
    assert (Hf : length (filter (fun o => nlt o (Fin q)) all) <= length all) by (clear; induction all as [|a l IH]; cbn; [lia | destruct (nlt a (Fin q)); cbn; lia]).
    assert (Hf' : (inject_Z (Z.of_nat (length (filter (fun o => nlt o (Fin q)) all))) <= inject_Z (Z.of_nat (length all)))%Q) by (rewrite <- Zle_Qle; lia).
    assert (Hf0 : (0 <= inject_Z (Z.of_nat (length (filter (fun o => nlt o (Fin q)) all))))%Q) by (change 0%Q with (inject_Z 0); rewrite <- Zle_Qle; lia).
    split; [apply Qle_shift_div_l; lra | apply Qle_shift_div_r; lra].
Qed.
Print Assumptions C26_smooth.
Print Assumptions C26_smooth_range.
Example C26_smooth_case : map (smooth [Fin 2; Fin 4; Fin 1; Fin 4]) [Fin (1 # 2); Fin 1; Fin 3; Fin 9] = [ndiv (ndiv (Fin (1 # 2)) (Fin 1)) (Fin 4); Fin (0 / 4); Fin (2 / 4); Fin (4 / 4)].
Proof. reflexivity. Qed.
(** The smoothed distance is not monotone: a distance below all others counts for more than the smallest of them. *)
Theorem C26_monotone_refuted : exists all d1 d2, nlt d1 d2 = true /\ nlt (smooth all d2) (smooth all d1) = true.
Proof. exists [Fin 1; Fin 2], (Fin (9 # 10)), (Fin 1). split; vm_compute; reflexivity. Qed.
Print Assumptions C26_monotone_refuted.

Section Statements.
Variables Theta Rng Y : Type.
Variable setp : Theta -> Theta -> bool * Theta.
Variable pdfv : Theta -> Theta -> num.
Variable kupd : pop Theta -> nat -> Rng -> Rng * Theta.
Variable prior : Rng -> Rng * Theta.
Variable simc : Theta -> Rng -> Rng * option Y.
Variable dist : Y -> num.
Variable mkrng : Z -> Rng.
Variable reseed : Rng -> Rng.
Variable choiceU : nat -> Rng -> res (Rng * nat).
Variable bern : num -> Rng -> res (Rng * bool).
Variable rand : Rng -> Rng * num.
Variable nexp : num -> num.
Variable fsolve : num -> num.
Notation sa_sample := (sa_sample Theta Rng Y setp pdfv kupd prior simc dist mkrng reseed choiceU bern rand nexp fsolve).
Notation First := (First setp prior simc dist bern nexp).
Notation Cand := (Cand setp pdfv kupd simc dist choiceU rand nexp).
Notation SRun := (SRun setp pdfv kupd simc dist choiceU rand nexp fsolve).
Notation SFirst := (SFirst setp prior simc dist bern nexp fsolve).
Notation Simulated := (Simulated setp simc dist).

(** C26.  Whenever sample returns on a fresh object, the first iteration is [SFirst]: n draws from the prior, each repeated until accepted;
    the others form an [SRun]: candidates are proposed, tested and put in place of the members they were proposed from, epsilon follows
    from the mean of the smoothed distances, members are resampled once enough candidates were accepted, and the run is abandoned when
    the acceptance rate falls below the cutoff.  An abandoned iteration is not recorded.  With full_output = 1 the journal holds every
    other iteration, with 0 the last of them, with their simulation counts in either case. *)
Theorem C26_run : set_ok setp -> forall steps n eps resample n_update delta cutoff full fuel seed resamp bds0 cur0 count0 s,
  sa_sample steps n eps resample n_update delta cutoff full None fuel seed resamp None bds0 cur0 count0 = Ok s ->
  let rsm := match resample with None => n | Some k => k end in let up := match n_update with None => n | Some k => k end in
  exists all pp r eps1 rs es, SFirst n rsm delta resamp eps count0 all pp r eps1 /\ SRun n up rsm delta cutoff resamp all 1 pp eps1 0 0 (r_nsim r) rs es (a_stop Theta s)
  /\ a_hist Theta s = r :: rs /\ a_epss Theta s = eps1 :: es /\ length es = length rs /\ (a_stop Theta s = false -> length (r :: rs) = steps) /\ (a_stop Theta s = true -> length (r :: rs) < steps)
  /\ a_recs Theta s = (if full =? 1 then r :: rs else if full =? 0 then [last (r :: rs) r] else []) /\ a_nsims Theta s = (if full <? 2 then map r_nsim (r :: rs) else []).
Proof. exact (sample_run Theta Rng Y setp pdfv kupd prior simc dist mkrng reseed choiceU bern rand nexp fsolve). Qed.

Lemma latest_in {A} i (cands : list (nat * A * bool)) y : latest i cands = Some y -> In (i, y, true) cands.
Proof.
  induction cands as [|[[j x] b] cands IH]; [discriminate|]. rewrite latest_cons. destruct (latest i cands) as [z|]; [intros H; right; apply IH; exact H|]. cbn. destruct b; [|discriminate].
  destruct (Nat.eqb_spec j i) as [->|]; [|discriminate]. cbn. intros H. injection H as ->. left. reflexivity.
Qed.
(** C26, third claim: what is in a population was in the one before or is a candidate for which the acceptance test succeeded. *)
Inductive Kept (n : nat) (all : list num) : list (Theta * num) -> num -> list (rec Theta) -> list num -> Prop :=
| ke_nil pp eps : Kept n all pp eps [] []
| ke_cons pp eps r eps2 rs es pop2 :
    r_rows r = map fst pop2 -> r_ds r = map snd pop2 ->
    Forall (fun x => In x pp \/ exists i, Cand n all (mkpop (map fst pp) (repeat (Fin 1) n)) (map snd pp) eps i (fst x) (snd x) true) pop2 ->
    Kept n all pop2 eps2 rs es -> Kept n all pp eps (r :: rs) (eps2 :: es).
Theorem C26_replaced : forall n n_update resample delta cutoff resamp all t pp eps acc until count rs es b,
  SRun n n_update resample delta cutoff resamp all t pp eps acc until count rs es b -> Kept n all pp eps rs es.
Proof.
  intros n n_update resample delta cutoff resamp all t pp eps acc until count rs es b H.
  induction H as [| | t pp eps acc until count cands pop1 pop2 acc2 until2 r eps2 rs es b C1 C2 C3 (R0 & R1) C4 C5 -> C6 HR IH]; [constructor | constructor|].
  apply ke_cons with (pop2 := pop2); [reflexivity | reflexivity | | exact IH].
  assert (H1 : Forall (fun x => In x pp \/ exists i, Cand n all (mkpop (map fst pp) (repeat (Fin 1) n)) (map snd pp) eps i (fst x) (snd x) true) pop1).
  { apply Forall_forall. intros x Hx. apply In_nth_error in Hx. destruct Hx as [i Hi]. assert (Hlt : i < length pp) by (rewrite <- R0; apply nth_error_Some; congruence).
    destruct (nth_error pp i) as [y|] eqn:Ey; [|apply nth_error_None in Ey; lia]. specialize (R1 i y Ey). rewrite Hi in R1. injection R1 as ->.
    destruct (latest i cands) as [z|] eqn:El; [|left; eapply nth_error_In; eassumption]. apply latest_in in El. rewrite Forall_forall in C3. apply C3 in El. right. exists i. exact El. }
  cbv zeta in C5. destruct C5 as [(_ & -> & _) | (_ & _ & _ & _ & idx & _ & HP)]; [exact H1|]. clear - H1 HP. induction HP as [|i x idx pop2 Hi HP IH]; constructor; [|exact IH]. rewrite Forall_forall in H1. apply H1. eapply nth_error_In; eassumption.
Qed.
(** C21 for SABC: a recorded pair was simulated from that parameter vector (or from what a refused assignment of it left). *)
Theorem C21_sabc : forall n n_update resample delta cutoff resamp eps count all pp r eps1 rs es b,
  SFirst n resample delta resamp eps count all pp r eps1 -> SRun n n_update resample delta cutoff resamp all 1 pp eps1 0 0 (r_nsim r) rs es b ->
  Forall (fun r => Forall (fun x => Simulated (fst x) (snd x)) (combine (r_rows r) (r_ds r))) (r :: rs).
Proof.
  intros n n_update resample delta cutoff resamp eps count all pp r eps1 rs es b HF HR.
  assert (Hsplit : forall pp : list (Theta * num), combine (map fst pp) (map snd pp) = pp) by (induction pp0 as [|[x y] l IH]; cbn; congruence).
  assert (Hpp : Forall (fun x => Simulated (fst x) (snd x)) pp /\ r_rows r = map fst pp /\ r_ds r = map snd pp).
  { destruct HF as (tried & first & U & F1 & F2 & F3 & F4 & F5 & F6 & F7 & ->). split; [|split; reflexivity].
    assert (Hfirst : Forall (fun x => Simulated (fst x) (snd x)) first).
    { apply Forall_forall. intros x Hx. apply In_nth_error in Hx. destruct Hx as [i Hi]. destruct (nth_error tried i) as [l|] eqn:El; [|apply nth_error_None in El; assert (i < length first) by (apply nth_error_Some; congruence); lia].
      specialize (F4 i x l Hi El). clear - F4. induction F4; assumption. }
    destruct F7 as [(_ & -> & _) | (_ & _ & _ & idx & _ & HP)]; [exact Hfirst|]. clear - Hfirst HP. induction HP as [|i x idx pp Hi HP IH]; constructor; [|exact IH]. rewrite Forall_forall in Hfirst. apply Hfirst. eapply nth_error_In; eassumption. }
  destruct Hpp as (Hpp & E1 & E2). constructor; [rewrite E1, E2, Hsplit; exact Hpp|]. apply C26_replaced in HR. clear E1 E2 HF. induction HR as [|pp eps2 r2 eps3 rs es pop2 E1 E2 HF HR IH]; constructor.
  - rewrite E1, E2, Hsplit. apply Forall_forall. intros x Hx. rewrite Forall_forall in HF, Hpp. destruct (HF x Hx) as [Hin | (i & theta & di & r0 & r1 & r3 & r4 & r5 & r6 & u & c & c1 & c2 & _ & _ & _ & _ & _ & HS & _)]; [apply Hpp; exact Hin | exact HS].
  - apply IH. apply Forall_forall. intros x Hx. rewrite Forall_forall in HF, Hpp. destruct (HF x Hx) as [Hin | (i & theta & di & r0 & r1 & r3 & r4 & r5 & r6 & u & c & c1 & c2 & _ & _ & _ & _ & _ & HS & _)]; [apply Hpp; exact Hin | exact HS].
Qed.
(** C26, second claim: the first iteration's acceptance probabilities are in [0,1] when distances are not negative, epsilon is not
    negative and not both are zero. *)
Theorem C26_probability : (forall x, (x <= 0)%Q -> exists p, nexp (Fin x) = Fin p /\ (0 <= p <= 1)%Q) -> nexp NInf = Fin 0 ->
  forall d eps, (0 <= d)%Q -> (0 <= eps)%Q -> (0 < d \/ 0 < eps)%Q -> exists p, nexp (ndiv (nopp (Fin d)) (Fin eps)) = Fin p /\ (0 <= p <= 1)%Q.
Proof.
  intros H1 H2 d eps Hd He Hor. cbn [nopp]. unfold ndiv. destruct (Qeq_bool eps 0) eqn:E.
  - apply Qeq_bool_iff in E. destruct (Qcompare_spec (- d) 0) as [Hc|Hc|Hc]; [exfalso; lra | | exfalso; lra]. rewrite H2. exists 0%Q. split; [reflexivity | lra].
  - apply H1. assert (Hpos : (0 < eps)%Q) by (destruct (Qlt_le_dec 0 eps); [assumption|]; assert (eps == 0)%Q by lra; apply Qeq_bool_iff in H; congruence). apply Qle_shift_div_r; lra.
Qed.
(** Sizes: as long as resampling returns n indices, every record has n parameters, n distances and n weights, all 1. *)
Theorem C26_sizes : forall n n_update resample delta cutoff resamp eps count all pp r eps1 rs es b,
  SFirst n resample delta resamp eps count all pp r eps1 -> SRun n n_update resample delta cutoff resamp all 1 pp eps1 0 0 (r_nsim r) rs es b ->
  (forall t w idx, length w = n -> resamp t w = Ok idx -> length idx = n) ->
  Forall (fun r => length (r_rows r) = n /\ length (r_ds r) = n /\ r_w r = repeat (Fin 1) n) (r :: rs).
Proof.
  intros n n_update resample delta cutoff resamp eps count all pp r eps1 rs es b HF HR Hn.
  assert (Hpp : length pp = n /\ r = mkrec (map fst pp) (map snd pp) (repeat (Fin 1) n) (count + length all)).
  { destruct HF as (tried & first & U & F1 & F2 & F3 & F4 & F5 & F6 & F7 & ->). split; [|reflexivity]. destruct F7 as [(_ & -> & _) | (_ & _ & _ & idx & HI & HP)]; [exact F1|]. apply F2_len in HP. apply Hn in HI; [congruence|]. unfold normalise. rewrite !map_length. exact F1. }
  destruct Hpp as (Hpp & ->). constructor; [cbn; rewrite !map_length; auto|]. clear HF. cbn [r_nsim] in HR. remember (count + length all) as cc. clear Heqcc.
  induction HR as [| | t pp eps2 acc until cnt cands pop1 pop2 acc2 until2 r eps3 rs es b C1 C2 C3 (R0 & R1) C4 C5 -> C6 HR IH]; [constructor | constructor|].
  assert (H2 : length pop2 = n) by (cbv zeta in C5; destruct C5 as [(_ & -> & _) | (_ & _ & _ & _ & idx & HI & HP)]; [congruence | apply F2_len in HP; apply Hn in HI; [congruence | unfold normalise; rewrite !map_length; congruence]]).
  constructor; [cbn; rewrite !map_length; auto | apply IH; exact H2].
Qed.

Lemma accept_later_err n eps p all sm fuel seed cur : all = None \/ all = Some [] ->
  exists e, M_SABC.sa_accept Theta Rng Y setp pdfv kupd prior simc dist mkrng reseed choiceU bern rand nexp n eps (Some p) all sm fuel seed cur = Err e.
Proof.
  intros H. unfold M_SABC.sa_accept. destruct (choiceU n _) as [[r0 i]|]; [|eauto]. destruct (nth_error (p_rows p) i); [|eauto]. destruct (propose _ _ _ _ _ _ _ _ _ _ _) as [[[c1 r1] th]|]; [|eauto].
  destruct (simc c1 r1) as [r2 [y|]]; [|eauto]. destruct H as [-> | ->]; eauto.
Qed.
Lemma step_later_err n up rsm delta cutoff full fuel t seed resamp (s : astate Theta) p : a_mgr Theta s = Some p ->
  match a_all Theta s with Some a => Some a | None => a_bds Theta s end = None \/ match a_all Theta s with Some a => Some a | None => a_bds Theta s end = Some [] ->
  exists e, M_SABC.sa_step Theta Rng Y setp pdfv kupd prior simc dist mkrng reseed choiceU bern rand nexp fsolve n up rsm delta cutoff full fuel t seed resamp s = Err e.
Proof.
  intros Hm Hb. unfold M_SABC.sa_step. rewrite Hm. set (bds := match a_all Theta s with Some a => Some a | None => a_bds Theta s end) in *. clearbody bds.
  destruct (seeds_of seed match t with 0 => n | S _ => up end) as [|sd sds]; cbn [mapT]; [eauto|].
  destruct (accept_later_err n (a_eps Theta s) p bds (a_sm Theta s) fuel sd (a_cur Theta s) Hb) as [e ->]. eauto.
Qed.
(** Starting from a journal file never works on a fresh object: the workers need all_distances, which the journal does not have. *)
Theorem C26_restart : forall steps n eps resample n_update delta cutoff full p fuel seed resamp mgr0 cur0 count0,
  exists e, sa_sample steps n eps resample n_update delta cutoff full (Some p) fuel seed resamp mgr0 None cur0 count0 = Err e.
Proof.
  intros [|steps] n eps resample n_update delta cutoff full p fuel seed resamp mgr0 cur0 count0; [eexists; reflexivity|]. unfold M_SABC.sa_sample. cbn [M_SABC.sa_iterate].
  match goal with |- context [M_SABC.sa_step _ _ _ _ _ _ _ _ _ _ _ _ _ _ _ _ ?n ?up ?rsm ?d ?c ?f ?fu ?t ?sd ?re ?s] => destruct (step_later_err n up rsm d c f fu t sd re s p eq_refl (or_introl eq_refl)) as [e ->] end. eauto.
Qed.
(** A second call on the same object (whose manager then has covariance matrices) never works with a non-zero epsilon, nor with more than
    one step: its first iteration does not draw from the prior, and finds no distances to smooth with. *)
Theorem C26_second_call : forall steps n eps resample n_update delta cutoff full fuel seed resamp p bds0 cur0 count0, neqb eps (Fin 0) = false \/ 1 < steps ->
  exists e, sa_sample steps n eps resample n_update delta cutoff full None fuel seed resamp (Some p) bds0 cur0 count0 = Err e.
Proof.
  intros [|steps] n eps resample n_update delta cutoff full fuel seed resamp p bds0 cur0 count0 Hor; [eexists; reflexivity|]. unfold M_SABC.sa_sample. cbn [M_SABC.sa_iterate].
  set (up := match n_update with Some k => k | None => n end). set (rsm := match resample with Some k => k | None => n end). set (s0 := mkast _ _ _ _ _ _ _ _ _ _ _ _ _ _ _ _ _ _).
  destruct (M_SABC.sa_step _ _ _ _ _ _ _ _ _ _ _ _ _ _ _ _ n up rsm delta cutoff full fuel 0 (seed 0) (resamp 0) s0) as [s1|e] eqn:Es; [|eauto].
  assert (Hs1 : neqb eps (Fin 0) = true /\ a_all Theta s1 = Some [] /\ exists q, a_mgr Theta s1 = Some q).
  { unfold M_SABC.sa_step in Es. cbn [s0 a_all a_bds a_mgr a_eps a_sm a_cur a_count a_rows a_ds a_acc a_until a_w a_hist a_recs a_nsims a_epss option_map] in Es.
    match type of Es with context [mapT ?f ?l ?c] => destruct (mapT f l c) as [[results cur1]|] eqn:Em; [|discriminate] end. apply mapT_ok in Em. destruct results as [|x0 res0] eqn:Eres; [discriminate|]. rewrite <- Eres in *.
    assert (Hall : concat (map (w_all Theta) results) = []).
    { clear - Em. induction Em as [|sd x l results (c1 & c2 & Hx) Em IH]; cbn; [reflexivity|]. rewrite IH, app_nil_r. unfold M_SABC.sa_accept in Hx.
      destruct (choiceU n _) as [[r0 i]|]; [|discriminate]. destruct (nth_error (p_rows p) i); [|discriminate]. destruct (propose _ _ _ _ _ _ _ _ _ _ _) as [[[c3 r1] th]|]; [|discriminate].
      destruct (simc c3 r1) as [r2 [y|]]; [|discriminate]. destruct bds0 as [[|a bds0]|]; [discriminate| |discriminate]. unfold pdf_of_prior in Hx. destruct (nth_error (repeat (Fin 0) n) i); [|discriminate]. destruct (rand r2) as [r3 u]. destruct (nlt u _); injection Hx as <- _; reflexivity. }
    cbv zeta in Es. rewrite Hall in Es.
    destruct (place (repeat (Fin 0) n) _) as [ds|]; [|discriminate]. destruct (picks ds _) as [[|d dts]|]; [|discriminate|discriminate]. cbn [smoother combine] in Es. rewrite combine_nil in Es. cbn [place] in Es.
    unfold average in Es. cbn [map combine nsum fold_left] in Es. destruct (neqb eps (Fin 0)) eqn:E0; [|cbn in Es; discriminate].
    split; [reflexivity|]. destruct ((rsm <=? 0) && nlt tiny (Fin 0)).
    - destruct (resamp 0 _) as [idx|]; [|discriminate]. destruct (picks (map _ results) idx); [|discriminate]. destruct (picks (repeat (Fin 0) n) idx); [|discriminate]. destruct (picks ds idx); [|discriminate]. injection Es as <-. cbn. eauto.
    - injection Es as <-. cbn. eauto. }
  destruct Hs1 as (E0 & E1 & q & E2). destruct (a_stop Theta s1) eqn:Est.
  - exfalso. clear - Es Est. unfold M_SABC.sa_step in Es. destruct (mapT _ _ _) as [[[|x l] c]|]; try discriminate. cbv zeta in Es. repeat match type of Es with match ?x with _ => _ end = _ => destruct x; try discriminate end; injection Es as <-; discriminate.
  - destruct Hor as [Hor|Hor]; [congruence|]. destruct steps as [|steps]; [lia|]. cbn [M_SABC.sa_iterate].
    match goal with |- context [M_SABC.sa_step _ _ _ _ _ _ _ _ _ _ _ _ _ _ _ _ ?n ?up ?rsm ?d ?c ?f ?fu ?t ?sd ?re ?s] => destruct (step_later_err n up rsm d c f fu t sd re s q E2) as [e ->] end; [rewrite E1; auto | eauto].
Qed.
End Statements.
Print Assumptions C26_run.
Print Assumptions C26_replaced.
Print Assumptions C21_sabc.
Print Assumptions C26_probability.
Print Assumptions C26_sizes.
Print Assumptions C26_restart.
Print Assumptions C26_second_call.

(** A toy model on the rationals *)
Definition ychoice (n : nat) (r : Z) : res (Z * nat) := Ok ((r + 1)%Z, Z.to_nat (r mod Z.of_nat n)).
Definition ybern (p : num) (r : Z) : res (Z * bool) := match p with NaN => Err ValueError | _ => Ok ((r + 1)%Z, nlt (Fin (1 # 5)) p) end.
Definition yrand (r : Z) : Z * num := ((r + 1)%Z, Fin (inject_Z (r mod 5) / 4)).
Definition yexp (x : num) : num := match x with Fin q => if Qle_bool q 0 then Fin (1 / (1 - q)) else Fin (1 + q) | NInf => Fin 0 | x => x end.
Definition yred (x : num) : num := match x with Fin q => Fin (Qred q) | x => x end.
Definition ykupd (p : pop Q) (i : nat) (r : Z) : Z * Q := ((r + 1)%Z, (let x := nth i (p_rows p) 0 in Qred (if (r mod 3 =? 0)%Z then x + 2 else Qabs.Qabs (x - 1)))%Q).
Definition ysa := sa_sample Q Z Q xset xpdf ykupd xprior (fun c r => (r, Some c)) Fin (fun s => s) (fun r => r) ychoice ybern yrand yexp yred.
Definition yseed (t j : nat) : Z := Z.of_nat (5 * t + 3 * j + 2).
Definition yresamp (t : nat) (w : list num) : res (list nat) := Ok (map (fun i => (i + t) / 2) (seq 0 (length w))).
Definition yview (s : astate Q) := (map (fun r => (map Qred (r_rows r), map yred (r_ds r), length (r_w r), r_nsim r)) (a_recs Q s), a_nsims Q s, map yred (a_epss Q s), (option_map (map Qred) (a_rows Q s), a_stop Q s)).
Definition yrun x := match x with Ok s => Ok (yview s) | Err e => Err e end.

Example C26_case : yrun (ysa 4 3 (Fin 2) (Some 2) (Some 4) (Fin (1 # 5)) (Fin (1 # 10)) 1 None 20 yseed yresamp None None 0%Q 0)
  = Ok ([([2; 5; 1]%Q, [Fin 2; Fin 5; Fin 1], 3, 3); ([2; 4; 4]%Q, [Fin 2; Fin 4; Fin 4], 3, 7); ([4; 4; 4]%Q, [Fin 4; Fin 4; Fin 4], 3, 11); ([4; 6; 6]%Q, [Fin 4; Fin 6; Fin 6], 3, 15)], [3; 7; 11; 15], [Fin (22 # 73); Fin (5 # 9); Fin (2 # 3); Fin (8 # 9)], (Some [4; 6; 6]%Q, false)).
Proof. vm_compute. reflexivity. Qed.
Example C26_norm_case : yrun (ysa 4 3 (Fin 2) None None (Fin (1 # 5)) (Fin (1 # 10)) 1 None 20 yseed yresamp None None 0%Q 0)
  = Ok ([([2; 5; 1]%Q, [Fin 2; Fin 5; Fin 1], 3, 3); ([2; 4; 1]%Q, [Fin 2; Fin 4; Fin 1], 3, 6); ([4; 4; 1]%Q, [Fin 4; Fin 4; Fin 1], 3, 9); ([4; 4; 3]%Q, [Fin 4; Fin 4; Fin 3], 3, 12)],
        [3; 6; 9; 12], [Fin (22 # 73); Fin (1 # 3); Fin (4 # 9); Fin (2 # 3)], (Some [4; 4; 3]%Q, false)).
Proof. vm_compute. reflexivity. Qed.
(** the toy machine meets the hypotheses of C26_probability and C26_sizes *)
Example C26_exp_case : (forall x, (x <= 0)%Q -> exists p, yexp (Fin x) = Fin p /\ (0 <= p <= 1)%Q) /\ yexp NInf = Fin 0.
Proof.
  split; [|reflexivity]. intros x Hx. cbn. destruct (Qle_bool x 0) eqn:E; [|apply Qle_bool_iff in Hx; congruence]. eexists. split; [reflexivity|].
  split; [apply Qle_shift_div_l; lra | apply Qle_shift_div_r; lra].
Qed.
Example C26_sizes_case : forall t w idx, length w = 3 -> yresamp t w = Ok idx -> length idx = 3.
Proof. intros t w idx Hw H. injection H as <-. rewrite map_length, seq_length. exact Hw. Qed.
(** One record is kept with full_output = 0, but a simulation count for each iteration. *)
Theorem C26_counts_refuted : exists s, ysa 4 3 (Fin 2) (Some 2) (Some 4) (Fin (1 # 5)) (Fin (1 # 10)) 0 None 20 yseed yresamp None None 0%Q 0 = Ok s
  /\ length (a_recs Q s) = 1 /\ a_nsims Q s = [3; 7; 11; 15].
Proof. eexists. split; [vm_compute; reflexivity|]. split; vm_compute; reflexivity. Qed.
(** The candidates accepted in the iteration that is abandoned are lost: the journal has the population before them. *)
Theorem C26_lost_refuted : exists s, ysa 4 3 (Fin 2) None None (Fin (1 # 5)) (Fin (7 # 10)) 1 None 20 yseed yresamp None None 0%Q 0 = Ok s
  /\ a_stop Q s = true /\ map r_rows (a_recs Q s) = [[2; 5; 1]%Q] /\ a_rows Q s = Some [2; 4; 1]%Q.
Proof. eexists. split; [vm_compute; reflexivity|]. split; [|split]; vm_compute; reflexivity. Qed.
(** epsilon = 0 and a distance 0: the probability of the first draw is not a number, which the random generator refuses. *)
Theorem C26_zero_refuted : yexp (ndiv (nopp (Fin 0)) (Fin 0)) = NaN
  /\ ysa 4 3 (Fin 0) None None (Fin (1 # 5)) (Fin (1 # 10)) 1 None 20 (fun _ _ => 7%Z) yresamp None None 0%Q 0 = Err ValueError.
Proof. split; vm_compute; reflexivity. Qed.
(** The ratio compared with a uniform number in later iterations is not a probability: it exceeds 1 when the distance decreases. *)
Theorem C26_ratio_refuted : nlt (Fin 1) (nmul (ndiv (Fin (1 # 7)) (Fin (1 # 7))) (yexp (ndiv (nsub (smooth [Fin 1; Fin 2] (Fin 3)) (smooth [Fin 1; Fin 2] (Fin 1))) (Fin (1 # 2))))) = true.
Proof. vm_compute. reflexivity. Qed.
(** A negative distance gives a negative smoothed one. *)
Theorem C26_smooth_range_refuted : nlt (smooth [Fin 1; Fin 2] (Fin (-1))) (Fin 0) = true.
Proof. vm_compute. reflexivity. Qed.
(** A second call with epsilon = 0 and one step: parameters are replaced, but recorded with the distances 0 the call started from. *)
Theorem C26_second_call_refuted : exists s, ysa 1 3 (Fin 0) (Some 9) None (Fin (1 # 5)) (Fin (9 # 10)) 1 None 20 (fun _ _ => 8%Z) yresamp (Some (mkpop [0; 0; 0]%Q [])) (Some [Fin 1]) 0%Q 0 = Ok s
  /\ map r_rows (a_recs Q s) = [[2; 2; 2]%Q] /\ map r_ds (a_recs Q s) = [[Fin 0; Fin 0; Fin 0]].
Proof. eexists. split; [vm_compute; reflexivity|]. split; vm_compute; reflexivity. Qed.
Print Assumptions C26_counts_refuted.
Print Assumptions C26_lost_refuted.
Print Assumptions C26_zero_refuted.
Print Assumptions C26_ratio_refuted.
Print Assumptions C26_smooth_range_refuted.
Print Assumptions C26_second_call_refuted.
