(** Proofs about ABCsubsim. *)
From Coq Require Import Lqa Permutation Sorting.Sorted.
From Verif Require Import M_Base M_Num L_Num M_Infer S_Infer L_Infer M_PMCABC S_PMCABC L_PMCABC M_RSMCABC S_RSMCABC L_RSMCABC L_SMCABC M_Subsim S_Subsim.
Open Scope nat_scope.

Section P.
Variables Theta Rng Y Cov : Type.
Notation kst := (kst Theta Cov).
Variable setp : Theta -> Theta -> bool * Theta.
Variable pdfv : Theta -> Theta -> num.
Variable kupd : kst -> nat -> Rng -> Rng * Theta.
Variable kpdf : kst -> Theta -> Theta -> num.
Variable calc_cov : list Theta -> list Cov.
Variable shrink : nat -> Cov -> Cov.
Variable prior : Rng -> Rng * Theta.
Variable simc : Theta -> Rng -> Rng * option Y.
Variable dist : Y -> num.
Variable mkrng : Z -> Rng.
Variable reseed : Rng -> Rng.
Variable bern : num -> Rng -> res (Rng * bool).
Hypothesis Hset : set_ok setp.
Notation chain := (chain Theta Rng Y Cov setp pdfv kupd kpdf simc dist bern).
Notation sb_accept := (sb_accept Theta Rng Y Cov setp pdfv kupd kpdf prior simc dist mkrng reseed bern).
Notation cov_try := (cov_try Theta Rng Y Cov setp pdfv kupd kpdf simc dist mkrng reseed bern).
Notation sb_step := (sb_step Theta Rng Y Cov setp pdfv kupd kpdf calc_cov shrink prior simc dist mkrng reseed bern).
Notation sb_iterate := (sb_iterate Theta Rng Y Cov setp pdfv kupd kpdf calc_cov shrink prior simc dist mkrng reseed bern).
Notation sb_sample := (sb_sample Theta Rng Y Cov setp pdfv kupd kpdf calc_cov shrink prior simc dist mkrng reseed bern).
Notation Simulated := (Simulated setp simc dist).
Notation Chain := (Chain Theta Rng Y Cov setp pdfv kupd kpdf simc dist bern).
Notation BRun := (BRun setp pdfv kupd kpdf shrink simc dist bern).
Notation BFirst := (BFirst setp pdfv kupd kpdf calc_cov shrink prior simc dist bern).
Notation Trial := (Trial Theta Rng Y Cov setp pdfv kupd kpdf simc dist bern).
Notation NewCovs := (NewCovs Theta Rng Y Cov setp pdfv kupd kpdf shrink simc dist bern).
Notation bstate := (bstate Theta Cov).

Lemma chain_spec ann q i fuel k : forall theta d cur r acc l cur', chain ann (Some q) i fuel k theta d cur r acc = Ok (l, cur') ->
  exists l', l = acc ++ l' /\ length l' = k /\ Chain ann q i theta d l'.
Proof.
  induction k as [|k IH]; intros theta d cur r acc l cur' H; cbn [M_Subsim.chain] in H; [inversion H; subst; exists []; rewrite app_nil_r; split; [reflexivity|]; split; [reflexivity | constructor]|].
  destruct (propose Theta Rng kst setp kupd pdfv fuel q i cur r) as [[[c1 r1] th]|] eqn:Ep; [|discriminate].
  destruct (simc c1 r1) as [r2 [y|]] eqn:Es; [|discriminate]. unfold pdf_of_prior in H. cbv zeta in H.
  destruct (propose_spec _ _ _ _ _ _ _ Hset _ _ _ _ _ _ _ Ep) as (Hpdf & Hc & r4 & r5 & Hk).
  assert (Hsim : Simulated th (dist y)) by (exists c1, r1, r2, y; auto).
  match type of H with context [bern ?x ?y] => destruct (bern x y) as [[r3 b]|] eqn:Eb; [|discriminate] end.
  assert (Hgo : forall l' theta' d', l = (acc ++ [(b, theta', d')]) ++ l' -> theta' = (if b then th else theta) -> d' = (if b then dist y else d) -> length l' = k -> Chain ann q i theta' d' l' ->
     exists l', l = acc ++ l' /\ length l' = S k /\ Chain ann q i theta d l').
  { intros l' theta' d' -> Ht Hd L HC. exists ((b, theta', d') :: l'). rewrite <- app_assoc. split; [reflexivity|]. split; [cbn; lia|]. subst theta' d'.
    eapply ch_step; [exact Hk | exact Hpdf | exact Hsim | | exact Eb | exact HC]. exists c1, (snd (setp th c1)). reflexivity. }
  destruct b; apply IH in H; destruct H as (l' & E & L & HC); eapply Hgo; eauto.
Qed.
Lemma accept_none cl ann p fuel si cur l k c : sb_accept cl ann None p fuel si cur = Ok (l, k, c) ->
  exists th d, l = [(th, d)] /\ k = 1 /\ (exists r r', prior r = (r', th)) /\ Simulated th d.
Proof.
  unfold M_Subsim.sb_accept. destruct (prior (reseed (mkrng (fst si)))) as [r1 th] eqn:Ep. destruct (simc th r1) as [r2 [y|]] eqn:Es; [|discriminate]. intros H. inversion H; subst.
  exists c, (dist y). split; [reflexivity|]. split; [reflexivity|]. split; [eauto|]. exists c, r1, r2, y. auto.
Qed.
Lemma accept_some cl ann rows q fuel si cur l k c : 0 < cl -> sb_accept cl ann (Some rows) (Some q) fuel si cur = Ok (l, k, c) ->
  k = cl /\ exists theta d l', nth_error rows (snd si) = Some theta /\ Simulated theta d /\ Chain ann q (snd si) theta d l' /\ length l' = cl - 1
    /\ l = (theta, d) :: map (fun x => (snd (fst x), snd x)) l'.
Proof.
  intros Hcl. unfold M_Subsim.sb_accept. destruct (nth_error rows (snd si)) as [theta|] eqn:Et; [|discriminate].
  destruct (simc (snd (setp theta cur)) (reseed (mkrng (fst si)))) as [r1 [y|]] eqn:Es; [|discriminate].
  destruct (chain ann (Some q) (snd si) fuel (cl - 1) theta (dist y) (snd (setp theta cur)) r1 []) as [[l1 c2]|] eqn:Ec; [|discriminate]. intros H. inversion H; subst.
  apply chain_spec in Ec. destruct Ec as (l' & -> & L & HC). cbn [app] in *. split; [lia|]. exists theta, (dist y), l'. split; [reflexivity|]. split; [|auto].
  exists (snd (setp theta cur)), (reseed (mkrng (fst si))), r1, y. split; [exact Es|]. split; [reflexivity|]. destruct Hset as [Hs1 _]. destruct (setp theta cur) as [[|] c0] eqn:E0; [left; apply Hs1 in E0; exact E0 | right; eauto].
Qed.
Lemma cov_try_spec cl ann bds q fuel sd cur a c : cov_try cl ann bds q fuel sd cur = Ok (a, c) -> Trial cl q bds ann a.
Proof.
  unfold M_Subsim.cov_try. destruct bds as [|theta bds]; [discriminate|]. destruct (chain ann (Some q) 0 fuel cl theta NaN cur (reseed (mkrng sd)) []) as [[l c2]|] eqn:Ec; [|discriminate]. intros H. inversion H; subst.
  apply chain_spec in Ec. destruct Ec as (l' & -> & L & HC). exists theta, l'. auto.
Qed.
Lemma good_iff a : good a = true <-> 3 <= a <= 5.
Proof. unfold good. rewrite andb_true_iff, !Nat.leb_le. reflexivity. Qed.
Lemma pick_spec accs : length accs = 10 ->
  match pick_t accs with
  | Some t => exists a, nth_error accs t = Some a /\ 3 <= a <= 5 /\ (forall t' a', t' < t -> nth_error accs t' = Some a' -> ~ 3 <= a' <= 5)
  | None => Forall (fun a => ~ 3 <= a <= 5) accs
  end.
Proof.
  unfold pick_t. intros L.
  assert (Hg : forall o, match filter (fun ta => good (snd ta)) (combine (seq o (length accs)) accs) with
     | [] => Forall (fun a => ~ 3 <= a <= 5) accs
     | (t, _) :: _ => exists u a, t = o + u /\ nth_error accs u = Some a /\ 3 <= a <= 5 /\ (forall t' a', t' < u -> nth_error accs t' = Some a' -> ~ 3 <= a' <= 5) end).
  { clear L. induction accs as [|a accs IH]; intros o; cbn; [constructor|]. destruct (good a) eqn:Eg.
    - exists 0, a. split; [lia|]. split; [reflexivity|]. split; [apply good_iff; exact Eg|]. intros t' a' Hlt. lia.
    - assert (Hn : ~ 3 <= a <= 5) by (rewrite <- good_iff; congruence). specialize (IH (S o)).
      destruct (filter (fun ta => good (snd ta)) (combine (seq (S o) (length accs)) accs)) as [|[t b] rest]; [constructor; assumption|].
      destruct IH as (u & a0 & -> & Hu & Ha & Hlt). exists (S u), a0. split; [lia|]. split; [exact Hu|]. split; [exact Ha|]. intros [|t'] a' Ht Hn'; [cbn in Hn'; injection Hn' as <-; exact Hn|]. eapply Hlt; [|exact Hn']. lia. }
  specialize (Hg 0). rewrite L in Hg. destruct (filter _ _) as [|[t b] rest]; [exact Hg|]. destruct Hg as (u & a & -> & H). exists a. exact H.
Qed.
Lemma combine_swap {A B} (l : list (A * B)) : combine (map snd l) (map fst l) = map (fun x => (snd x, fst x)) l.
Proof. induction l as [|[a b] l IH]; cbn; congruence. Qed.
Lemma combine_split_map {A B} (l : list (A * B)) : combine (map snd l) (map fst l) = map (fun x => (snd x, fst x)) l.
Proof. apply combine_swap. Qed.
Lemma sort_sorts (all : list (Theta * num)) w c : let sorted := ksort (combine (map snd all) (map fst all)) in Sorts Theta all (mkrec (map snd sorted) (map fst sorted) w c).
Proof.
  intros sorted. pose proof (ksort_perm (combine (map snd all) (map fst all))) as HP. fold sorted in HP. rewrite combine_swap in HP.
  unfold Sorts. cbn [r_rows r_ds]. rewrite !map_length. assert (HL : length sorted = length all) by (rewrite (Permutation_length HP), map_length; reflexivity).
  split; [exact HL|]. split; [exact HL|]. split.
  - rewrite combine_swap. apply (Permutation_map (fun x => (snd x, fst x))) in HP. rewrite map_map in HP. rewrite HP. clear. induction all as [|[a b] l IH]; cbn; [constructor|]. constructor. exact IH.
  - intros Hn. assert (Hs : StronglySorted kle sorted).
    { apply ksort_sorted. rewrite combine_swap. apply Forall_forall. intros y Hy. rewrite Forall_forall in Hn. apply Hn. apply in_map. eapply Permutation_in; [apply Permutation_sym; exact HP | exact Hy]. }
    clear - Hs. induction Hs as [|x l Hs IH Hx]; cbn; [constructor|]. constructor; [exact IH|]. rewrite Forall_forall in *. intros d Hd. apply in_map_iff in Hd. destruct Hd as (y & <- & Hy). apply Hx. exact Hy.
Qed.
Lemma fold_const {A} (f : A -> nat) k l : Forall (fun x => f x = k) l -> forall a, fold_left (fun a x => a + f x) l a = a + length l * k.
Proof. induction 1 as [|x l Hx Hl IH]; intros a; cbn [fold_left length]; [lia|]. rewrite IH, Hx. lia. Qed.

(** the second half of an iteration *)
Lemma finish (n cl : nat) cutoff full fuel seed2 (s s' : bstate) results cur1 q bds d1 d2 :
  let all := concat (map fst results) in
  let sorted := ksort (combine (map snd all) (map fst all)) in
  let ann := nmul (Fin (1 # 2)) (nadd d1 d2) in
  nth_error (map fst sorted) (n / cl) = Some d1 -> nth_error (map fst sorted) (n / cl + 1) = Some d2 ->
  match mapT (fun sd c => cov_try cl ann bds q fuel sd c) (seeds_of seed2 10) cur1 with
  | Err e => Err e
  | Ok (accs, cur2) =>
      let covs := match pick_t accs with None => k_covs q | Some t => map (shrink t) (k_covs q) end in
      let count := fold_left (fun a x => a + snd x) results (b_count Theta Cov s) + 10 * cl in
      let r := mkrec (map snd sorted) (map fst sorted) (repeat (Fin 1) n) count in
      let chg := ndiv (nmul (Fin 100) (nabs (nsub (last (b_anns Theta Cov s) (Fin 0)) ann))) (nabs ann) in
      Ok (mkbst Theta Cov (Some (map snd sorted)) (Some (mkkst (k_from q) covs)) (b_anns Theta Cov s ++ [ann]) count cur2 (b_hist Theta Cov s ++ [r])
            (if full =? 1 then b_recs Theta Cov s ++ [r] else b_recs Theta Cov s) (b_covs Theta Cov s ++ [covs]) (nlt chg cutoff))
  end = Ok s' ->
  exists r covs, Sorts Theta (concat (map fst results)) r /\ r_w r = repeat (Fin 1) n /\ r_nsim r = fold_left (fun a x => a + snd x) results (b_count Theta Cov s) + 10 * cl
  /\ Anneal n cl (r_ds r) ann /\ NewCovs cl q bds ann covs
  /\ b_rows Theta Cov s' = Some (r_rows r) /\ b_kst Theta Cov s' = Some (mkkst (k_from q) covs) /\ b_anns Theta Cov s' = b_anns Theta Cov s ++ [ann]
  /\ b_count Theta Cov s' = r_nsim r /\ b_hist Theta Cov s' = b_hist Theta Cov s ++ [r] /\ b_recs Theta Cov s' = (if full =? 1 then b_recs Theta Cov s ++ [r] else b_recs Theta Cov s)
  /\ b_covs Theta Cov s' = b_covs Theta Cov s ++ [covs] /\ b_stop Theta Cov s' = nlt (change (last (b_anns Theta Cov s) (Fin 0)) ann) cutoff /\ map snd sorted = r_rows r.
Proof.
  intros all sorted ann H1 H2 H. destruct (mapT _ _ cur1) as [[accs cur2]|] eqn:Em; [|discriminate]. apply mapT_ok in Em.
  assert (HF : length accs = 10 /\ Forall (Trial cl q bds ann) accs).
  { split; [apply F2_len in Em; unfold seeds_of in Em; rewrite map_length, seq_length in Em; congruence|]. clear - Em Hset. induction Em as [|sd a l accs (c1 & c2 & Hx) Em IH]; constructor; [|exact IH]. eapply cov_try_spec. exact Hx. }
  destruct HF as [HL HF]. pose proof (pick_spec accs HL) as Hp. injection H as <-.
  exists (mkrec (map snd sorted) (map fst sorted) (repeat (Fin 1) n) (fold_left (fun a x => a + snd x) results (b_count Theta Cov s) + 10 * cl)), (match pick_t accs with None => k_covs q | Some t => map (shrink t) (k_covs q) end).
  split; [apply sort_sorts|]. cbn [r_w r_nsim r_ds r_rows b_rows b_kst b_anns b_count b_hist b_recs b_covs b_stop]. do 2 (split; [reflexivity|]). split; [exists d1, d2; auto|].
  split; [|do 8 (split; [reflexivity|]); reflexivity].
  exists accs. split; [exact HL|]. split; [exact HF|]. destruct (pick_t accs) as [t|]; [left | right; auto]. destruct Hp as (a & A & B & C). exists t, a. auto.
Qed.
Lemma step_first n cl cutoff full fuel seed seed2 (s s' : bstate) : b_rows Theta Cov s = None -> sb_step n cl cutoff full fuel 0 seed seed2 s = Ok s' ->
  exists r ann covs, BFirst n cl (b_count Theta Cov s) r ann covs
  /\ b_rows Theta Cov s' = Some (r_rows r) /\ b_kst Theta Cov s' = Some (mkkst (r_rows r) covs) /\ b_anns Theta Cov s' = b_anns Theta Cov s ++ [ann]
  /\ b_count Theta Cov s' = r_nsim r /\ b_hist Theta Cov s' = b_hist Theta Cov s ++ [r] /\ b_recs Theta Cov s' = (if full =? 1 then b_recs Theta Cov s ++ [r] else b_recs Theta Cov s)
  /\ b_covs Theta Cov s' = b_covs Theta Cov s ++ [covs] /\ b_stop Theta Cov s' = nlt (change (last (b_anns Theta Cov s) (Fin 0)) ann) cutoff.
Proof.
  intros Hr H. unfold M_Subsim.sb_step in H. rewrite Hr in H.
  match type of H with context [mapT ?f ?l ?c] => destruct (mapT f l c) as [[results cur1]|] eqn:Em; [|discriminate] end.
  apply mapT_ok in Em. destruct results as [|x0 res0] eqn:Eres; [discriminate|]. rewrite <- Eres in *.
  assert (Hlen : length results = n). { apply F2_len in Em. unfold seeds_of in Em. rewrite combine_length, map_length, seq_length, Nat.min_id in Em. congruence. }
  assert (Hn : 0 < n) by (rewrite <- Hlen, Eres; cbn; lia). clear Eres x0 res0.
  assert (HF : Forall (fun x => exists th d, fst x = [(th, d)] /\ snd x = 1 /\ (exists r r', prior r = (r', th)) /\ Simulated th d) results).
  { clear - Em Hset. induction Em as [|si x l results (c1 & c2 & Hx) Em IH]; constructor; [|exact IH].
    destruct (sb_accept cl (last (b_anns Theta Cov s) (Fin 0)) None (b_kst Theta Cov s) fuel si c1) as [[[l1 k] c']|] eqn:Ea; [|discriminate]. inversion Hx; subst. apply accept_none in Ea. exact Ea. }
  cbv zeta in H. destruct (Nat.eqb_spec cl 0) as [|Hcl]; [discriminate|].
  match type of H with match ?a with _ => _ end = _ => destruct a as [d1|] eqn:E1; [|discriminate] end.
  match type of H with match ?a with _ => _ end = _ => destruct a as [d2|] eqn:E2; [|discriminate] end.
  pose proof (finish n cl cutoff full fuel seed2 s s' results cur1 _ _ d1 d2 E1 E2 H) as (r & covs & A1 & A2 & A3 & A4 & A5 & A6 & A7 & A8 & A9 & A10 & A11 & A12 & A13 & A14).
  rewrite A14 in A5, A7. cbn [k_from] in A7. exists r, (nmul (Fin (1 # 2)) (nadd d1 d2)), covs. split; [|auto 10].
  exists (concat (map fst results)). split; [|split; [exact Hn|]; split; [lia|]; split; [|split; [exact A1|]; split; [exact A2|]; split; [|split; [exact A4|exact A5]]]].
  - rewrite <- Hlen. clear - HF. induction HF as [|x l (th & d & E & _) HF IH]; cbn; [reflexivity|]. rewrite app_length, IH, E. reflexivity.
  - clear - HF. induction HF as [|x l (th & d & E & _ & P1 & P2) HF IH]; cbn; [constructor|]. rewrite E. cbn. constructor; [auto | exact IH].
  - rewrite A3. rewrite (fold_const (fun x => snd x) 1); [lia|]. eapply Forall_impl; [|exact HF]. cbn. intros x (th & d & _ & E & _). exact E.
Qed.
Lemma combine_nth {A B} (l : list A) (l' : list B) i x : nth_error (combine l l') i = Some x -> nth_error l' i = Some (snd x).
Proof. revert l' i. induction l as [|a l IH]; intros [|b l'] [|i] H; try discriminate; cbn in *; [injection H as <-; reflexivity | exact (IH l' i H)]. Qed.
Lemma seq_nth_error m i x : nth_error (seq 0 m) i = Some x -> x = i.
Proof. intros H. assert (i < length (seq 0 m)) by (apply nth_error_Some; congruence). rewrite seq_length in H0. apply nth_error_nth with (d := 0) in H. rewrite seq_nth in H by exact H0. lia. Qed.
Lemma step_later n cl cutoff full fuel t seed seed2 (s s' : bstate) rows q : b_rows Theta Cov s = Some rows -> b_kst Theta Cov s = Some q -> 0 < cl ->
  sb_step n cl cutoff full fuel (S t) seed seed2 s = Ok s' ->
  exists chains r ann covs, length chains = n / cl /\ 0 < n / cl
  /\ (forall i c, nth_error chains i = Some c ->
       exists theta d l, nth_error rows i = Some theta /\ Simulated theta d /\ Chain (last (b_anns Theta Cov s) (Fin 0)) q i theta d l /\ length l = cl - 1
                         /\ c = (theta, d) :: map (fun x => (snd (fst x), snd x)) l)
  /\ Sorts Theta (concat chains) r /\ r_w r = repeat (Fin 1) n /\ r_nsim r = b_count Theta Cov s + n / cl * cl + 10 * cl /\ Anneal n cl (r_ds r) ann
  /\ NewCovs cl (mkkst (k_from q) (k_covs q ++ k_covs q)) rows ann covs
  /\ b_rows Theta Cov s' = Some (r_rows r) /\ b_kst Theta Cov s' = Some (mkkst (k_from q) covs) /\ b_anns Theta Cov s' = b_anns Theta Cov s ++ [ann]
  /\ b_count Theta Cov s' = r_nsim r /\ b_hist Theta Cov s' = b_hist Theta Cov s ++ [r] /\ b_recs Theta Cov s' = (if full =? 1 then b_recs Theta Cov s ++ [r] else b_recs Theta Cov s)
  /\ b_covs Theta Cov s' = b_covs Theta Cov s ++ [covs] /\ b_stop Theta Cov s' = nlt (change (last (b_anns Theta Cov s) (Fin 0)) ann) cutoff.
Proof.
  intros Hr Hq Hcl0 H. unfold M_Subsim.sb_step in H. rewrite Hr, Hq in H.
  match type of H with context [mapT ?f ?l ?c] => destruct (mapT f l c) as [[results cur1]|] eqn:Em; [|discriminate] end.
  apply mapT_ok in Em. destruct results as [|x0 res0] eqn:Eres; [discriminate|]. rewrite <- Eres in *.
  assert (Hlen : length results = n / cl). { apply F2_len in Em. unfold seeds_of in Em. rewrite combine_length, map_length, seq_length, Nat.min_id in Em. congruence. }
  assert (Hn : 0 < n / cl) by (rewrite <- Hlen, Eres; cbn; lia). clear Eres x0 res0.
  assert (HF : forall i x, nth_error results i = Some x -> snd x = cl /\ exists theta d l', nth_error rows i = Some theta /\ Simulated theta d /\ Chain (last (b_anns Theta Cov s) (Fin 0)) q i theta d l' /\ length l' = cl - 1
    /\ fst x = (theta, d) :: map (fun x => (snd (fst x), snd x)) l').
  { intros i x Hx. destruct (F2_nth _ _ _ Em i x Hx) as (si & Hsi & c1 & c2 & Ha).
    destruct (sb_accept cl (last (b_anns Theta Cov s) (Fin 0)) (Some rows) (Some q) fuel si c1) as [[[l1 k] c']|] eqn:Ea; [|discriminate]. inversion Ha; subst.
    apply accept_some in Ea; [|exact Hcl0]. apply combine_nth in Hsi. apply seq_nth_error in Hsi. rewrite Hsi in Ea. exact Ea. }
  cbv zeta in H. destruct (Nat.eqb_spec cl 0) as [|Hcl]; [discriminate|].
  match type of H with match ?a with _ => _ end = _ => destruct a as [d1|] eqn:E1; [|discriminate] end.
  match type of H with match ?a with _ => _ end = _ => destruct a as [d2|] eqn:E2; [|discriminate] end.
  pose proof (finish n cl cutoff full fuel seed2 s s' results cur1 _ _ d1 d2 E1 E2 H) as (r & covs & A1 & A2 & A3 & A4 & A5 & A6 & A7 & A8 & A9 & A10 & A11 & A12 & A13 & _).
  cbn [k_from] in A7. exists (map fst results), r, (nmul (Fin (1 # 2)) (nadd d1 d2)), covs. rewrite map_length. split; [exact Hlen|]. split; [exact Hn|]. split; [|split; [exact A1|]; split; [exact A2|]; split; [|auto 10]].
  - intros i c Hc. rewrite nth_error_map in Hc. destruct (nth_error results i) as [x|] eqn:Ex; [|discriminate]. cbn in Hc. injection Hc as <-. apply HF in Ex. destruct Ex as [_ E]. exact E.
  - rewrite A3. rewrite (fold_const (fun x => snd x) cl); [lia|]. apply Forall_forall. intros x Hx. apply In_nth_error in Hx. destruct Hx as [i Hi]. apply HF in Hi. tauto.
Qed.
Lemma iterate_later n cl cutoff full fuel seed seed2 : 0 < cl -> forall todo t (s s' : bstate) rows q, b_rows Theta Cov s = Some rows -> b_kst Theta Cov s = Some q ->
  sb_iterate n cl cutoff full fuel (S t) todo seed seed2 s = Ok s' ->
  exists anns rs cs, BRun n cl rows q (last (b_anns Theta Cov s) (Fin 0)) (b_count Theta Cov s) anns rs cs
  /\ length anns = length rs /\ length rs <= todo /\ (length rs < todo -> b_stop Theta Cov s' = true)
  /\ (0 < todo -> Annealed cutoff (last (b_anns Theta Cov s) (Fin 0)) anns (b_stop Theta Cov s')) /\ (todo = 0 -> s' = s)
  /\ b_anns Theta Cov s' = b_anns Theta Cov s ++ anns /\ b_hist Theta Cov s' = b_hist Theta Cov s ++ rs /\ b_covs Theta Cov s' = b_covs Theta Cov s ++ cs
  /\ b_recs Theta Cov s' = b_recs Theta Cov s ++ (if full =? 1 then rs else []).
Proof.
  intros Hcl. induction todo as [|todo IH]; intros t s s' rows q Hr Hq H; cbn [M_Subsim.sb_iterate] in H.
  - injection H as <-. exists [], [], []. split; [constructor|]. cbn [length]. do 3 (split; [lia|]). split; [lia|]. split; [reflexivity|]. rewrite !app_nil_r. destruct (full =? 1); rewrite app_nil_r; auto.
  - destruct (sb_step n cl cutoff full fuel (S t) (seed (S t)) (seed2 (S t)) s) as [s1|] eqn:Es; [|discriminate].
    destruct (step_later _ _ _ _ _ _ _ _ _ _ _ _ Hr Hq Hcl Es) as (chains & r & ann & covs & A1 & A2 & A3 & A4 & A5 & A6 & A7 & A8 & A9 & A10 & A11 & A12 & A13 & A14 & A15 & A16).
    destruct (b_stop Theta Cov s1) eqn:Est.
    + injection H as <-. exists [ann], [r], [covs]. split; [eapply br_step; try eassumption; constructor|]. cbn [length]. do 2 (split; [lia|]). split; [intros _; exact Est|].
      split; [intros _; rewrite Est, A16; apply an_last|]. split; [discriminate|]. split; [exact A11|]. split; [exact A13|]. split; [exact A15|]. rewrite A14. destruct (full =? 1); [reflexivity | rewrite app_nil_r; reflexivity].
    + destruct (IH (S t) s1 s' _ _ A9 A10 H) as (anns & rs & cs & B1 & B2 & B3 & B4 & B5 & B6 & B7 & B8 & B9 & B10).
      assert (Hlast : last (b_anns Theta Cov s1) (Fin 0) = ann) by (rewrite A11, last_last; reflexivity). rewrite Hlast, A12 in *.
      exists (ann :: anns), (r :: rs), (covs :: cs). split; [eapply br_step; eassumption|]. cbn [length]. do 2 (split; [lia|]). split; [intros Hx; apply B4; lia|].
      split.
      { intros _. destruct todo as [|todo].
        - rewrite (B6 eq_refl) in *. destruct anns; [|cbn in B2; lia]. rewrite Est, A16. apply an_last.
        - apply an_more; [symmetry; exact A16 | apply B5; lia]. }
      split; [discriminate|]. rewrite B7, A11, B8, A13, B9, A15, B10, A14, <- !app_assoc. do 3 (split; [reflexivity|]). destruct (full =? 1); [rewrite <- app_assoc|]; reflexivity.
Qed.
Lemma sample_run steps n cl cutoff full fuel seed seed2 cur0 count0 s : sb_sample steps n cl cutoff full fuel seed seed2 cur0 count0 = Ok s ->
  exists r ann covs anns rs cs, BFirst n cl count0 r ann covs /\ BRun n cl (r_rows r) (mkkst (r_rows r) covs) ann (r_nsim r) anns rs cs
  /\ b_anns Theta Cov s = ann :: anns /\ b_hist Theta Cov s = r :: rs /\ b_covs Theta Cov s = covs :: cs /\ length anns = length rs /\ length (r :: rs) <= steps
  /\ Annealed cutoff (Fin 0) (ann :: anns) (b_stop Theta Cov s) /\ (length (r :: rs) < steps -> b_stop Theta Cov s = true)
  /\ b_recs Theta Cov s = (if full =? 1 then r :: rs else if full =? 0 then [last (r :: rs) r] else []).
Proof.
  unfold M_Subsim.sb_sample. set (s0 := mkbst _ _ _ _ _ _ _ _ _ _ _). intros H.
  destruct (sb_iterate n cl cutoff full fuel 0 steps seed seed2 s0) as [s1|] eqn:Ei; [|discriminate].
  assert (Hmain : exists r ann covs anns rs cs, BFirst n cl count0 r ann covs /\ BRun n cl (r_rows r) (mkkst (r_rows r) covs) ann (r_nsim r) anns rs cs
    /\ b_anns Theta Cov s1 = ann :: anns /\ b_hist Theta Cov s1 = r :: rs /\ b_covs Theta Cov s1 = covs :: cs /\ length anns = length rs /\ length (r :: rs) <= steps
    /\ Annealed cutoff (Fin 0) (ann :: anns) (b_stop Theta Cov s1) /\ (length (r :: rs) < steps -> b_stop Theta Cov s1 = true)
    /\ b_recs Theta Cov s1 = (if full =? 1 then r :: rs else [])).
  { destruct steps as [|steps]; [cbn in Ei; injection Ei as <-; cbn in H; discriminate|]. cbn [M_Subsim.sb_iterate] in Ei.
    destruct (sb_step n cl cutoff full fuel 0 (seed 0) (seed2 0) s0) as [s2|] eqn:Es; [|discriminate].
    apply step_first in Es; [|reflexivity]. destruct Es as (r & ann & covs & A1 & A2 & A3 & A4 & A5 & A6 & A7 & A8 & A9). cbn [s0 b_anns b_hist b_recs b_covs b_count app last] in *.
    assert (Hcl : 0 < cl) by (destruct A1 as (? & _ & _ & Hc & _); exact Hc).
    destruct (b_stop Theta Cov s2) eqn:Est.
    - injection Ei as <-. exists r, ann, covs, [], [], []. split; [exact A1|]. split; [constructor|]. split; [exact A4|]. split; [exact A6|]. split; [exact A8|]. split; [reflexivity|]. cbn [length]. split; [lia|].
      split; [rewrite Est, A9; apply an_last|]. split; [intros _; exact Est|]. exact A7.
    - destruct (iterate_later n cl cutoff full fuel seed seed2 Hcl steps 0 s2 s1 _ _ A2 A3 Ei) as (anns & rs & cs & B1 & B2 & B3 & B4 & B5 & B6 & B7 & B8 & B9 & B10).
      rewrite A4, A5 in *. cbn [last] in *. exists r, ann, covs, anns, rs, cs. split; [exact A1|]. split; [exact B1|]. split; [exact B7|]. split; [rewrite B8, A6; reflexivity|]. split; [rewrite B9, A8; reflexivity|].
      split; [exact B2|]. cbn [length]. split; [lia|]. split; [|split; [intros Hx; apply B4; lia|]; rewrite B10, A7; destruct (full =? 1); reflexivity].
      destruct steps as [|steps].
      + rewrite (B6 eq_refl) in *. destruct rs; [|cbn in B3; lia]. destruct anns; [|discriminate]. rewrite Est, A9. apply an_last.
      + apply an_more; [symmetry; exact A9 | apply B5; lia]. }
  destruct Hmain as (r & ann & covs & anns & rs & cs & A1 & A2 & A3 & A4 & A5 & A6 & A7 & A8 & A9 & A10).
  rewrite A4 in H. destruct (rev (r :: rs)) as [|x l] eqn:Erev; [discriminate|]. injection H as <-.
  exists r, ann, covs, anns, rs, cs. split; [exact A1|]. split; [exact A2|].
  destruct (last_rev _ _ _ r Erev) as [Hx _].
  destruct (full =? 0) eqn:E0; cbn [b_anns b_hist b_covs b_recs b_stop]; (split; [exact A3|]; split; [first [exact A4 | reflexivity]|]; split; [exact A5|]; split; [exact A6|]; split; [exact A7|]; split; [exact A8|]; split; [exact A9|]).
  - apply Nat.eqb_eq in E0. subst full. cbn [Nat.eqb] in *. rewrite A10. cbn [app]. rewrite Hx. reflexivity.
  - rewrite A10. reflexivity.
Qed.
End P.
