(** Property C25 (and C21) for ABCsubsim. *)
From Coq Require Import Lqa Qpower Permutation Sorting.Sorted.
From Verif Require Import M_Base M_Num L_Num M_Infer S_Infer L_Infer M_PMCABC S_PMCABC L_PMCABC M_RSMCABC S_RSMCABC L_RSMCABC L_SMCABC P_PMCABC M_Subsim S_Subsim L_Subsim.
Open Scope nat_scope.

Section Statements.
Variables Theta Rng Y Cov : Type.
Notation kst := (kst Theta Cov).
Variable setp : Theta -> Theta -> bool * Theta.
Variable pdfv : Theta -> Theta -> num.
Variable kupd : kst -> nat -> Rng -> Rng * Theta.
Variable kpdf : kst -> Theta -> Theta -> num.
Variable calc_cov : list Theta -> list Cov.
Variable shrink : nat -> Cov -> Cov.
Variable prior : Rng -> Rng * Theta.
Variable simc : Theta -> Rng -> Rng * option Y.
Variable dist : Y -> num.
Variable mkrng : Z -> Rng.
Variable reseed : Rng -> Rng.
Variable bern : num -> Rng -> res (Rng * bool).
Notation sb_sample := (sb_sample Theta Rng Y Cov setp pdfv kupd kpdf calc_cov shrink prior simc dist mkrng reseed bern).
Notation sb_restart := (sb_restart Theta Rng Y Cov setp pdfv kupd kpdf prior simc dist mkrng reseed bern).
Notation Simulated := (Simulated setp simc dist).
Notation Chain := (Chain Theta Rng Y Cov setp pdfv kupd kpdf simc dist bern).
Notation BRun := (BRun setp pdfv kupd kpdf shrink simc dist bern).
Notation BFirst := (BFirst setp pdfv kupd kpdf calc_cov shrink prior simc dist bern).

(** C25.  Whenever sample returns on a fresh object, the first iteration is n draws from the prior, each later one n/cl Markov chains of
    length cl from the n/cl particles of smallest distance, moves being possible only below the annealing parameter; each sorts its
    particles by distance, computes the annealing parameter and updates the covariances; the run stops after [steps] iterations or as soon
    as the annealing parameter changes by less than the cutoff; with full_output = 1 every iteration is recorded, with 0 the last. *)
Theorem C25_run : set_ok setp -> forall steps n cl cutoff full fuel seed seed2 cur0 count0 s, sb_sample steps n cl cutoff full fuel seed seed2 cur0 count0 = Ok s ->
  exists r ann covs anns rs cs, BFirst n cl count0 r ann covs /\ BRun n cl (r_rows r) (mkkst (r_rows r) covs) ann (r_nsim r) anns rs cs
  /\ b_anns Theta Cov s = ann :: anns /\ b_hist Theta Cov s = r :: rs /\ b_covs Theta Cov s = covs :: cs /\ length anns = length rs /\ length (r :: rs) <= steps
  /\ Annealed cutoff (Fin 0) (ann :: anns) (b_stop Theta Cov s) /\ (length (r :: rs) < steps -> b_stop Theta Cov s = true)
  /\ b_recs Theta Cov s = (if full =? 1 then r :: rs else if full =? 0 then [last (r :: rs) r] else []).
Proof. exact (sample_run Theta Rng Y Cov setp pdfv kupd kpdf calc_cov shrink prior simc dist mkrng reseed bern). Qed.

Lemma concat_len {A} (chains : list (list A)) m k : length chains = m -> Forall (fun c => length c = k) chains -> length (concat chains) = m * k.
Proof. intros <-. induction 1 as [|c l Hc HF IH]; cbn; [reflexivity|]. rewrite app_length, Hc, IH. reflexivity. Qed.
Lemma run_sizes n cl rows q ann0 count anns rs cs : BRun n cl rows q ann0 count anns rs cs ->
  Forall (fun r => length (r_rows r) = n / cl * cl /\ length (r_ds r) = n / cl * cl /\ r_w r = repeat (Fin 1) n) rs.
Proof.
  induction 1 as [| rows q ann0 count chains r ann covs anns rs cs H1 H2 H3 H4 (S1 & S2 & S3 & S4) H6 H7 H8 H9 HR IH]; constructor; [|exact IH].
  assert (E : length (concat chains) = n / cl * cl).
  { apply concat_len; [exact H1|]. apply Forall_forall. intros c Hc. apply In_nth_error in Hc. destruct Hc as [i Hi]. destruct (H4 _ _ Hi) as (theta & d & l & _ & _ & _ & L & ->). cbn [length]. rewrite map_length, L. lia. }
  rewrite S1, S2, E. auto.
Qed.
(** When the chain length divides n, every iteration has n particles, distances and weights; the weights are all 1. *)
Theorem C25_sizes : forall n cl count r ann covs anns rs cs, BFirst n cl count r ann covs -> BRun n cl (r_rows r) (mkkst (r_rows r) covs) ann (r_nsim r) anns rs cs -> n mod cl = 0 ->
  Forall (fun r => length (r_rows r) = n /\ length (r_ds r) = n /\ r_w r = repeat (Fin 1) n) (r :: rs).
Proof.
  intros n cl count r ann covs anns rs cs HF HR Hm. constructor.
  - destruct HF as (all & L & _ & _ & _ & (S1 & S2 & _) & HW & _). rewrite S1, S2. auto.
  - apply run_sizes in HR. eapply Forall_impl; [|exact HR]. cbn. intros r1 (A & B & C).
    assert (E : n / cl * cl = n) by (destruct (Nat.eq_dec cl 0) as [->|]; [cbn in *; lia | pose proof (Nat.div_mod n cl); lia]). rewrite A, B, E. auto.
Qed.
(** In general every iteration after the first has only the largest multiple of the chain length not above n, but n weights. *)
Theorem C25_sizes_general : forall n cl rows q ann0 count anns rs cs, BRun n cl rows q ann0 count anns rs cs ->
  Forall (fun r => length (r_rows r) = n / cl * cl /\ length (r_ds r) = n / cl * cl /\ length (r_w r) = n) rs.
Proof. intros n cl rows q ann0 count anns rs cs H. apply run_sizes in H. eapply Forall_impl; [|exact H]. cbn. intros r (A & B & C). rewrite C, repeat_length. auto. Qed.

(** The annealing parameter lies between the distances at positions n/cl and n/cl + 1 (from 0), so at least n/cl + 1 of the recorded
    distances are not above it and, unless the two distances are equal, only they are below. *)
Theorem C25_annealing : forall n cl ds ann, Anneal n cl ds ann -> Forall (fun d => exists q, d = Fin q) ds -> StronglySorted (fun x y => nle x y = true) ds ->
  exists q, ann = Fin q
  /\ n / cl < length (filter (fun d => nle d ann) ds)
  /\ (forall d1 d2, nth_error ds (n / cl) = Some d1 -> nth_error ds (n / cl + 1) = Some d2 -> nle d1 ann = true /\ nle ann d2 = true
       /\ (nlt d1 d2 = true -> length (filter (fun d => nlt d ann) ds) = n / cl + 1)).
Proof.
  intros n cl ds ann (d1 & d2 & H1 & H2 & ->) HF HS.
  assert (Hq : forall i d, nth_error ds i = Some d -> exists q, d = Fin q) by (intros i d Hi; rewrite Forall_forall in HF; apply HF; eapply nth_error_In; eassumption).
  destruct (Hq _ _ H1) as [q1 ->], (Hq _ _ H2) as [q2 ->]. cbn [nadd nmul].
  assert (Hmono : forall i j x y, i < j -> nth_error ds i = Some x -> nth_error ds j = Some y -> nle x y = true).
  { clear - HS. induction HS as [|a l HS IH Ha]; intros i j x y Hij Hi Hj; [destruct i; discriminate|]. destruct i as [|i], j as [|j]; try lia; cbn in Hi, Hj.
    - injection Hi as <-. rewrite Forall_forall in Ha. apply Ha. eapply nth_error_In; eassumption.
    - eapply (IH i j); try eassumption; lia. }
  assert (H12 : (q1 <= q2)%Q) by (assert (Hlt : n / cl < n / cl + 1) by lia; specialize (Hmono _ _ _ _ Hlt H1 H2); cbn in Hmono; apply Qle_bool_iff in Hmono; exact Hmono).
  eexists. split; [reflexivity|]. set (m := ((1 # 2) * (q1 + q2))%Q).
  assert (Hm1 : (q1 <= m)%Q) by (unfold m; lra). assert (Hm2 : (m <= q2)%Q) by (unfold m; lra). assert (Hm3 : (q1 < q2 -> q1 < m /\ m < q2)%Q) by (unfold m; intros; lra). clearbody m.
  assert (Hsplit : forall (f : num -> bool) k, (forall i d, i <= k -> nth_error ds i = Some d -> f d = true) -> k < length ds -> k < length (filter f ds)).
  { clear. intros f. induction ds as [|a l IH]; intros k Hk Hlen; [cbn in Hlen; lia|]. cbn [filter]. rewrite (Hk 0 a) by (auto; lia). cbn [length] in *. destruct k as [|k]; [lia|]. apply -> Nat.succ_lt_mono. apply IH; [|lia].
    intros i d Hi Hn. apply (Hk (S i) d); [lia | exact Hn]. }
  assert (Hlow : forall i d, i <= n / cl -> nth_error ds i = Some d -> exists q, d = Fin q /\ (q <= q1)%Q).
  { intros i d Hi Hn. destruct (Hq _ _ Hn) as [q ->]. exists q. split; [reflexivity|]. destruct (Nat.eq_dec i (n / cl)) as [->|Hne]; [assert (E : Some (Fin q) = Some (Fin q1)) by congruence; injection E as ->; apply Qle_refl|].
    assert (Hlt : i < n / cl) by lia. specialize (Hmono _ _ _ _ Hlt Hn H1). cbn in Hmono. apply Qle_bool_iff in Hmono. exact Hmono. }
  assert (Hlen : n / cl < length ds) by (apply nth_error_Some; congruence).
  split; [apply Hsplit; [|exact Hlen]; intros i d Hi Hn; destruct (Hlow i d Hi Hn) as (q & -> & Hle); cbn; apply Qle_bool_iff; lra|].
  intros d1 d2 E1 E2. assert (d1 = Fin q1) as -> by congruence. assert (d2 = Fin q2) as -> by congruence. split; [apply nle_fin; exact Hm1|]. split; [apply nle_fin; exact Hm2|].
  intros Hlt. apply nlt_fin in Hlt. destruct (Hm3 Hlt) as [Hm4 Hm5].
  assert (HA : n / cl < length (filter (fun d => nlt d (Fin m)) ds)).
  { apply Hsplit; [|exact Hlen]. intros i d Hi Hn. destruct (Hlow i d Hi Hn) as (q & -> & Hle). apply nlt_fin. lra. }
  assert (HB : forall k, (forall i d, k <= i -> nth_error ds i = Some d -> nlt d (Fin m) = false) -> length (filter (fun d => nlt d (Fin m)) ds) <= k).
  { clear. induction ds as [|a l IH]; intros k Hk; [cbn; lia|]. cbn [filter]. destruct k as [|k].
    - rewrite (Hk 0 a) by auto. apply IH. intros i d _ Hn. apply (Hk (S i) d); [lia | exact Hn].
    - destruct (nlt a (Fin m)); cbn [length]; [apply le_n_S|apply Nat.le_le_succ_r]; apply IH; intros i d Hi Hn; apply (Hk (S i) d); try exact Hn; lia. }
  specialize (HB (n / cl + 1)). assert (HC : length (filter (fun d => nlt d (Fin m)) ds) <= n / cl + 1); [|lia]. apply HB. intros i d Hi Hn. destruct (Hq _ _ Hn) as [q ->].
  assert (Hge : (q2 <= q)%Q).
  { destruct (Nat.eq_dec i (n / cl + 1)) as [->|Hne]; [assert (E : Some (Fin q) = Some (Fin q2)) by congruence; injection E as ->; apply Qle_refl|]. assert (Hlt' : n / cl + 1 < i) by lia. specialize (Hmono _ _ _ _ Hlt' H2 Hn). cbn in Hmono. apply Qle_bool_iff in Hmono. exact Hmono. }
  destruct (nlt (Fin q) (Fin m)) eqn:E; [|reflexivity]. apply nlt_fin in E. lra.
Qed.

Lemma chain_states ann q i theta d l : Chain ann q i theta d l -> (forall r r' p, bern p r = Ok (r', true) -> nlt (Fin 0) p = true) ->
  Forall (fun x => (snd (fst x) = theta /\ snd x = d) \/ (nlt (snd x) ann = true /\ Simulated (snd (fst x)) (snd x) /\ exists r r', kupd q i r = (r', snd (fst x)))) l.
Proof.
  intros H HB. induction H as [theta d | theta d th d' pa r r' r1 r2 c b l Hk Hp Hs (c1 & c2 & Hpa) Hb HC IH]; [constructor|].
  destruct b.
  - apply HB in Hb. assert (Hd : nlt d' ann = true).
    { destruct (nlt d' ann); [reflexivity|]. subst pa. exfalso. revert Hb. clear. match goal with |- context [nmul ?x _] => generalize x end. intros [x| | |]; try discriminate. intros E. apply (proj1 (nlt_fin _ _)) in E. lra. }
    constructor; [right; cbn [fst snd]; eauto|]. eapply Forall_impl; [|exact IH]. cbn [fst snd]. intros x [[-> ->] | Hx]; [right; eauto | right; exact Hx].
  - constructor; [left; auto | exact IH].
Qed.
(** Below the previous annealing parameter: every particle of a later iteration either is one of the n/cl best particles of the previous
    one, with a distance simulated anew, or was proposed by perturbing row i of the first population and lies below the previous annealing
    parameter.  (numpy's binomial cannot give 1 unless the probability is positive.) *)
Inductive Below (n cl : nat) (first : list Theta) : list Theta -> num -> list num -> list (rec Theta) -> Prop :=
| be_nil rows a0 : Below n cl first rows a0 [] []
| be_cons rows a0 a r anns rs :
    Forall (fun x => Simulated (fst x) (snd x)
                     /\ ((exists i, i < n / cl /\ nth_error rows i = Some (fst x))
                         \/ (nlt (snd x) a0 = true /\ exists q i r r', k_from q = first /\ i < n / cl /\ kupd q i r = (r', fst x)))) (combine (r_rows r) (r_ds r)) ->
    Below n cl first (r_rows r) a anns rs -> Below n cl first rows a0 (a :: anns) (r :: rs).
Theorem C25_below : forall n cl rows q ann0 count anns rs cs, BRun n cl rows q ann0 count anns rs cs -> (forall r r' p, bern p r = Ok (r', true) -> nlt (Fin 0) p = true) ->
  Below n cl (k_from q) rows ann0 anns rs.
Proof.
  intros n cl rows q ann0 count anns rs cs H HB. induction H as [| rows q ann0 count chains r ann covs anns rs cs H1 H2 H3 H4 (S1 & S2 & S3 & S4) H6 H7 H8 H9 HR IH]; [constructor|].
  constructor; [|exact IH]. apply Forall_forall. intros x Hx. apply (Permutation_in _ S3) in Hx. apply in_concat in Hx. destruct Hx as (c & Hc & Hx).
  apply In_nth_error in Hc. destruct Hc as [i Hi]. assert (Hlt : i < n / cl) by (rewrite <- H1; apply nth_error_Some; congruence).
  destruct (H4 _ _ Hi) as (theta & d & l & T & Hs & HC & L & ->). apply chain_states in HC; [|exact HB]. destruct Hx as [<- | Hx]; [split; [exact Hs | left; eauto]|].
  apply in_map_iff in Hx. destruct Hx as (y & <- & Hy). rewrite Forall_forall in HC. cbn [fst snd]. destruct (HC y Hy) as [[-> ->] | (A & B & r0 & r0' & K)]; [split; [exact Hs | left; eauto]|].
  split; [exact B|]. right. split; [exact A|]. exists q, i, r0, r0'. auto.
Qed.
(** C21 for ABCsubsim: a recorded pair was simulated from that parameter vector (or from what a refused assignment of it left). *)
Theorem C21_subsim : forall n cl count r ann covs anns rs cs, BFirst n cl count r ann covs -> BRun n cl (r_rows r) (mkkst (r_rows r) covs) ann (r_nsim r) anns rs cs ->
  (forall r r' p, bern p r = Ok (r', true) -> nlt (Fin 0) p = true) ->
  Forall (fun r => Forall (fun x => Simulated (fst x) (snd x)) (combine (r_rows r) (r_ds r))) (r :: rs).
Proof.
  intros n cl count r ann covs anns rs cs HF HR HB. constructor.
  - destruct HF as (all & _ & _ & _ & HA & (_ & _ & S3 & _) & _). apply Forall_forall. intros x Hx. apply (Permutation_in _ S3) in Hx. rewrite Forall_forall in HA. apply HA in Hx. tauto.
  - apply C25_below in HR; [|exact HB]. clear HF. induction HR as [rows a0|rows a0 a r1 anns rs HA HR IH]; constructor; [|exact IH]. eapply Forall_impl; [|exact HA]. cbn. tauto.
Qed.

(** The covariance of kernel i (entry i of the list) is only ever scaled down, by 4^-s with s growing; `pow(2, 1) * accepted_cov_mats`
    makes the list longer instead of scaling its entries.  After t iterations the list has K * 2^t entries. *)
Inductive Scaled (c0 : list Cov) : nat -> list (list Cov) -> Prop :=
| sc_nil s : Scaled c0 s []
| sc_cons s s' c cs : s <= s' -> (forall i, i < length c0 -> nth_error c i = option_map (shrink s') (nth_error c0 i)) -> Scaled c0 s' cs -> Scaled c0 s (c :: cs).
Lemma scaled_from K : (forall a b c, shrink a (shrink b c) = shrink (a + b) c) ->
  forall n cl rows q ann0 count anns rs cs, BRun n cl rows q ann0 count anns rs cs -> forall s c0, length c0 = K -> K <= length (k_covs q) ->
  (forall c, shrink 0 c = c) -> (forall i, i < K -> nth_error (k_covs q) i = option_map (shrink s) (nth_error c0 i)) ->
  Scaled c0 s cs /\ (forall t c, nth_error cs t = Some c -> length c = length (k_covs q) * 2 ^ S t).
Proof.
  intros Hadd n cl rows q ann0 count anns rs cs H. induction H as [| rows q ann0 count chains r ann covs anns rs cs H1 H2 H3 H4 H5 H6 H7 H8 (accs & HL & HT & HN) HR IH]; intros s c0 HK Hle H0 Hq; [split; [constructor | intros [|t] c; discriminate]|].
  cbn [k_covs] in *.
  assert (Hcovs : exists t, (forall i, i < K -> nth_error covs i = option_map (shrink t) (nth_error (k_covs q) i)) /\ length covs = length (k_covs q) * 2).
  { destruct HN as [(t & a & _ & _ & _ & ->) | [_ ->]].
    - exists t. split; [intros i Hi; rewrite nth_error_map, nth_error_app1 by lia; reflexivity|]. rewrite map_length, app_length. lia.
    - exists 0. split; [intros i Hi; rewrite nth_error_app1 by lia; destruct (nth_error (k_covs q) i); cbn; [rewrite H0|]; reflexivity|]. rewrite app_length. lia. }
  destruct Hcovs as (t & HC1 & HC2).
  assert (HC3 : forall i, i < K -> nth_error covs i = option_map (shrink (t + s)) (nth_error c0 i)).
  { intros i Hi. rewrite HC1, Hq by exact Hi. destruct (nth_error c0 i); cbn; [rewrite Hadd|]; reflexivity. }
  assert (Hle' : K <= length covs) by (rewrite HC2; lia).
  destruct (IH (t + s) c0 HK Hle' H0 HC3) as [HS HLn].
  split.
  - apply sc_cons with (s' := t + s); [lia | rewrite HK; exact HC3 | exact HS].
  - intros [|u] c Hc; cbn in Hc; [injection Hc as <-; rewrite HC2; cbn; lia|]. rewrite (HLn u c Hc), HC2. cbn [Nat.pow]. lia.
Qed.
Theorem C25_covariances : (forall a b c, shrink a (shrink b c) = shrink (a + b) c) -> (forall c, shrink 0 c = c) ->
  forall n cl count r ann covs anns rs cs, BFirst n cl count r ann covs -> BRun n cl (r_rows r) (mkkst (r_rows r) covs) ann (r_nsim r) anns rs cs ->
  Scaled (calc_cov (r_rows r)) 0 (covs :: cs) /\ forall t c, nth_error (covs :: cs) t = Some c -> length c = length (calc_cov (r_rows r)) * 2 ^ t.
Proof.
  intros Hadd H0 n cl count r ann covs anns rs cs (all & _ & _ & _ & _ & _ & _ & _ & _ & (accs & HL & HT & HN)) HR. cbn [k_covs] in HN. set (c0 := calc_cov (r_rows r)) in *.
  assert (Hcovs : exists t, (forall i, i < length c0 -> nth_error covs i = option_map (shrink t) (nth_error c0 i)) /\ length covs = length c0).
  { destruct HN as [(t & a & _ & _ & _ & ->) | [_ ->]].
    - exists t. split; [intros i Hi; apply nth_error_map | apply map_length].
    - exists 0. split; [|reflexivity]. intros i Hi. destruct (nth_error c0 i); cbn; [rewrite H0|]; reflexivity. }
  destruct Hcovs as (t & HC1 & HC2). assert (Hle : length c0 <= length covs) by lia.
  destruct (scaled_from (length c0) Hadd _ _ _ _ _ _ _ _ _ HR t c0 eq_refl Hle H0 HC1) as [HS HLn]. cbn [k_covs] in HLn.
  split; [apply sc_cons with (s' := t); [lia | exact HC1 | exact HS]|]. intros [|u] c Hc; cbn in Hc; [injection Hc as <-; rewrite HC2; cbn; lia|]. rewrite (HLn u c Hc), HC2. reflexivity.
Qed.
(** A chain length for which n/cl + 1 >= n (chain_length = 1 in particular) always ends in an error; so does a second iteration with n < cl. *)
Theorem C25_chain_length : set_ok setp -> forall steps n cl cutoff full fuel seed seed2 cur0 count0, n <= n / cl + 1 ->
  exists e, sb_sample steps n cl cutoff full fuel seed seed2 cur0 count0 = Err e.
Proof.
  intros Hset steps n cl cutoff full fuel seed seed2 cur0 count0 Hn. destruct (sb_sample steps n cl cutoff full fuel seed seed2 cur0 count0) as [s|e] eqn:E; [|eauto].
  apply (C25_run Hset) in E. destruct E as (r & ann & covs & anns & rs & cs & HF & _). destruct HF as (all & L & _ & _ & _ & (_ & S2 & _) & _ & _ & (d1 & d2 & _ & D2 & _) & _).
  assert (n / cl + 1 < length (r_ds r)) by (apply nth_error_Some; congruence). lia.
Qed.
Theorem C25_too_few : set_ok setp -> forall steps n cl cutoff full fuel seed seed2 cur0 count0 s, n < cl -> sb_sample steps n cl cutoff full fuel seed seed2 cur0 count0 = Ok s ->
  length (b_hist Theta Cov s) = 1.
Proof.
  intros Hset steps n cl cutoff full fuel seed seed2 cur0 count0 s Hn E. apply (C25_run Hset) in E. destruct E as (r & ann & covs & anns & rs & cs & _ & HR & _ & -> & _).
  inversion HR as [|? ? ? ? ? ? ? ? ? ? ? _ Hpos]; subst; [reflexivity|]. rewrite Nat.div_small in Hpos by exact Hn. lia.
Qed.
(** Starting from a journal file never works: the kernels hold no parameters, chains of length 1 leave too few distances. *)
Theorem C25_restart : forall n cl fuel seed rows cur0, exists e, sb_restart n cl fuel seed rows cur0 = Err e.
Proof.
  intros n cl fuel seed rows cur0. unfold M_Subsim.sb_restart.
  match goal with |- context [mapT ?f ?l ?c] => destruct (mapT f l c) as [[results cur1]|e] eqn:Em; [|eauto] end.
  apply mapT_ok in Em. destruct results as [|x res] eqn:Eres; [eauto|]. rewrite <- Eres in *. destruct (Nat.eqb_spec cl 0) as [|Hcl]; [eauto|].
  assert (Hl : length results = n) by (apply F2_len in Em; unfold seeds_of in Em; rewrite combine_length, map_length, seq_length, Nat.min_id in Em; congruence).
  assert (HF : cl = 1 /\ Forall (fun x => length (fst x) = 1) results).
  { assert (Hone : forall si c1 l k c2, M_Subsim.sb_accept Theta Rng Y Cov setp pdfv kupd kpdf prior simc dist mkrng reseed bern cl NaN (Some rows) None fuel si c1 = Ok (l, k, c2) -> cl = 1 /\ length l = 1).
    { intros si c1 l k c2. unfold M_Subsim.sb_accept. destruct (nth_error rows (snd si)); [|discriminate]. destruct (simc _ _) as [r1 [y|]]; [|discriminate].
      destruct cl as [|[|k']]; [lia | |cbn; discriminate]. cbn. intros H. inversion H; subst. auto. }
    split.
    - rewrite Eres in Em. inversion Em as [|si x' l res' (c1 & c2 & Hx) Em']; subst. destruct (M_Subsim.sb_accept _ _ _ _ _ _ _ _ _ _ _ _ _ _ _ _ _ _ _ _ _) as [[[l1 k] c']|] eqn:Ea in Hx; [|discriminate]. apply Hone in Ea. tauto.
    - clear - Em Hone. induction Em as [|si x' l res' (c1 & c2 & Hx) Em' IH]; constructor; [|exact IH]. destruct (M_Subsim.sb_accept _ _ _ _ _ _ _ _ _ _ _ _ _ _ _ _ _ _ _ _ _) as [[[l1 k] c']|] eqn:Ea in Hx; [|discriminate]. inversion Hx; subst. apply Hone in Ea. tauto. }
  destruct HF as [-> HF]. rewrite Nat.div_1_r.
  assert (HLen : length (map snd (concat (map fst results))) = n).
  { rewrite map_length, <- Hl. clear - HF. induction HF as [|x l Hx HF IH]; cbn; [reflexivity|]. rewrite app_length, Hx, IH. reflexivity. }
  assert (E : nth_error (map snd (concat (map fst results))) n = None) by (apply nth_error_None; lia). rewrite E. eauto.
Qed.
End Statements.
Print Assumptions C25_run.
Print Assumptions C25_sizes.
Print Assumptions C25_sizes_general.
Print Assumptions C25_annealing.
Print Assumptions C25_below.
Print Assumptions C21_subsim.
Print Assumptions C25_covariances.
Print Assumptions C25_restart.
Print Assumptions C25_chain_length.
Print Assumptions C25_too_few.

(** * The machine of P_PMCABC with the kernel moving up or down by a quarter and two covariances *)
Definition zkupd (k : kst Q Q) (i : nat) (r : Z) : Z * Q := ((r + 1)%Z, (let x := nth i (k_from k) 0 in if Qle_bool (1 # 4) x then x - (1 # 4) else x)%Q).
Definition zbern (p : num) (r : Z) : res (Z * bool) := Ok ((r + 1)%Z, nlt (Fin 0) p).
Definition zshrink (t : nat) (c : Q) : Q := Qred (c * (1 # 4) ^ Z.of_nat t).
Definition zsim (c : Q) (r : Z) : Z * option Q := ((r + 1)%Z, Some (c + inject_Z (r mod 3))%Q).
Definition zsb := sb_sample Q Z Q Q xset xpdf zkupd (fun _ _ _ => Fin 1) (fun _ => [1; 2]%Q) zshrink xprior zsim Fin (fun s => s) (fun r => r) zbern.
Definition zseed (k t j : nat) : Z := Z.of_nat (k * t + 2 * j + 2).
Definition zview (s : bstate Q Q) := (map (fun r => (map Qred (r_rows r), map red (r_ds r), length (r_w r), r_nsim r)) (b_recs Q Q s), map red (b_anns Q Q s), b_covs Q Q s, b_stop Q Q s).
(** chains of length 4 from the best 2 of 8, covariances shrunk in the second and third iteration *)
Example C25_case : exists s, zsb 3 8 4 (Fin 40) 0 30 (zseed 4) (zseed 2) 0%Q 0 = Ok s
  /\ zview s = ([([0; 0; 0; 3 # 4; 3 # 4; 3 # 4; 3 # 4; 0]%Q, [Fin 0; Fin 0; Fin 0; Fin (3 # 4); Fin (3 # 4); Fin (3 # 4); Fin (3 # 4); Fin 1], 8%nat, 144%nat)],
                [Fin 3; Fin (7 # 4); Fin (3 # 8)],
                [[1; 2]; [1 # 4; 1 # 2; 1 # 4; 1 # 2]; [1 # 16; 1 # 8; 1 # 16; 1 # 8; 1 # 16; 1 # 8; 1 # 16; 1 # 8]]%Q, false).
Proof. eexists. split; vm_compute; reflexivity. Qed.
(** the change from 2 to 7/4 is below 64 percent *)
Example C25_stop_case : exists s, zsb 9 6 3 (Fin 64) 1 30 (zseed 5) (zseed 3) 0%Q 0 = Ok s /\ length (b_recs Q Q s) = 3 /\ map red (b_anns Q Q s) = [Fin (11 # 2); Fin 2; Fin (7 # 4)] /\ b_stop Q Q s = true.
Proof. eexists. split; [vm_compute; reflexivity|]. split; [vm_compute; reflexivity|]. split; vm_compute; reflexivity. Qed.
Example C25_bern_case : forall r r' p, zbern p r = Ok (r', true) -> nlt (Fin 0) p = true.
Proof. unfold zbern. intros r r' p H. congruence. Qed.
Example C25_shrink_case : (forall a b c, Qred (zshrink a (zshrink b c)) = Qred (zshrink (a + b) c)) /\ zshrink 0 (1 # 3) = (1 # 3)%Q.
Proof.
  split; [|reflexivity]. intros a b c. apply Qred_complete. unfold zshrink. rewrite !Qred_correct, Nat2Z.inj_add, Qpower_plus by discriminate. ring.
Qed.
(** The annealing parameter is in general not one of the distances. *)
Theorem C25_annealing_refuted : exists s r ann, zsb 1 6 3 (Fin 10) 1 30 (zseed 5) (zseed 3) 0%Q 0 = Ok s /\ b_recs Q Q s = [r] /\ b_anns Q Q s = [ann]
  /\ length (r_ds r) = 6 /\ Forall (fun d => neqb d ann = false) (r_ds r).
Proof.
  eexists. eexists. eexists. split; [vm_compute; reflexivity|]. split; [vm_compute; reflexivity|]. split; [vm_compute; reflexivity|]. split; [vm_compute; reflexivity|].
  apply Forall_forall. vm_compute. intros d Hd. repeat (destruct Hd as [<-|Hd]; [reflexivity|]). destruct Hd.
Qed.
Print Assumptions C25_annealing_refuted.
(** It need not decrease (the seeds of the chains are simulated anew): 3/4 is followed by 11/4, and every distance then recorded is above
    the annealing parameter the chains were run with. *)
Theorem C25_decreasing_refuted : exists s a r, zsb 4 6 5 (Fin 10) 1 30 (zseed 4) (zseed 3) 0%Q 0 = Ok s /\ map red (b_anns Q Q s) = [Fin (7 # 2); Fin (11 # 4); a; Fin (11 # 4)]
  /\ nlt a (Fin (11 # 4)) = true /\ nth_error (b_recs Q Q s) 3 = Some r /\ length (r_ds r) = 5 /\ Forall (fun d => nlt a d = true) (r_ds r).
Proof.
  eexists. exists (Fin (3 # 4)). eexists. split; [vm_compute; reflexivity|]. split; [vm_compute; reflexivity|]. split; [vm_compute; reflexivity|]. split; [vm_compute; reflexivity|]. split; [vm_compute; reflexivity|].
  apply Forall_forall. vm_compute. intros d Hd. repeat (destruct Hd as [<-|Hd]; [reflexivity|]). destruct Hd.
Qed.
Print Assumptions C25_decreasing_refuted.
(** A chain length that does not divide n: 5 parameters and distances with 6 weights. *)
Theorem C25_sizes_refuted : exists s r, zsb 2 6 5 (Fin 10) 0 30 (zseed 4) (zseed 3) 0%Q 0 = Ok s /\ b_recs Q Q s = [r] /\ length (r_rows r) = 5 /\ length (r_ds r) = 5 /\ length (r_w r) = 6.
Proof. eexists. eexists. split; [vm_compute; reflexivity|]. split; [vm_compute; reflexivity|]. split; [vm_compute; reflexivity|]. split; vm_compute; reflexivity. Qed.
Print Assumptions C25_sizes_refuted.
(** Annealing parameter 0 (a perfect score): the percentage is not below any cutoff, however large, and the run goes on. *)
Theorem C25_zero_refuted : exists s, zsb 4 8 4 (Fin 1000000) 1 30 (fun t j => if t =? 0 then Z.of_nat (14 + 21 * j) else 0%Z) (zseed 3) 0%Q 0 = Ok s
  /\ map red (b_anns Q Q s) = [Fin 0; Fin 0; Fin 0; Fin 0] /\ b_stop Q Q s = false.
Proof. eexists. split; [vm_compute; reflexivity|]. split; vm_compute; reflexivity. Qed.
Print Assumptions C25_zero_refuted.
