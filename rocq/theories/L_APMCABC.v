(** Proofs about APMCABC. *)
From Verif Require Import M_Base M_Num L_Num M_Infer S_Infer L_Infer M_PMCABC S_PMCABC L_PMCABC M_RSMCABC L_RSMCABC M_APMCABC S_APMCABC.
From Coq Require Import Lqa Permutation Qround Sorting.Sorted.
Open Scope nat_scope.

(** * Triples *)
Definition zip3 {A B C} (l : list A) (m : list B) (n : list C) : list (A * (B * C)) := combine l (combine m n).
Lemma zip3_map {X A B C} (f : X -> A) (g : X -> B) (h : X -> C) (l : list X) : zip3 (map f l) (map g l) (map h l) = map (fun x => (f x, (g x, h x))) l.
Proof. unfold zip3. induction l as [|x l IH]; cbn; [reflexivity|]. rewrite IH. reflexivity. Qed.
Lemma zip3_proj {A B C} (l : list A) (m : list B) (n : list C) : length m = length l -> length n = length l ->
  map fst (zip3 l m n) = l /\ map (fun x => fst (snd x)) (zip3 l m n) = m /\ map (fun x => snd (snd x)) (zip3 l m n) = n.
Proof.
  unfold zip3. revert m n. induction l as [|a l IH]; intros [|b m] [|c n] H1 H2; try discriminate; cbn; [auto|].
  destruct (IH m n) as (A1 & B1 & C1); [cbn in *; lia | cbn in *; lia|]. rewrite A1, B1, C1. auto.
Qed.
Lemma zip3_eta {A B C} (l : list (A * (B * C))) : zip3 (map fst l) (map (fun x => fst (snd x)) l) (map (fun x => snd (snd x)) l) = l.
Proof. rewrite zip3_map. rewrite <- map_id. apply map_ext. intros [a [b c]]. reflexivity. Qed.
Lemma bfilter_map {X A B} (p : X -> bool) (g : X -> A) (f : X -> B) (l : list X) : bfilter (map p l) (map f l) = map f (filter p l).
Proof. unfold bfilter. induction l as [|x l IH]; cbn; [reflexivity|]. destruct (p x); cbn; rewrite IH; reflexivity. Qed.
Lemma zip3_length {A B C} (l : list A) (m : list B) (n : list C) : length m = length l -> length n = length l -> length (zip3 l m n) = length l.
Proof. intros H1 H2. unfold zip3. rewrite !combine_length. lia. Qed.

Section P.
Variables Theta Rng Y : Type.
Variable setp : Theta -> Theta -> bool * Theta.
Variable pdfv : Theta -> Theta -> num.
Variable kupd : pop Theta -> nat -> Rng -> Rng * Theta.
Variable kpdf : pop Theta -> Theta -> Theta -> num.
Variable prior : Rng -> Rng * Theta.
Variable simc : Theta -> Rng -> Rng * option Y.
Variable dist : Y -> num.
Variable mkrng : Z -> Rng.
Variable reseed : Rng -> Rng.
Variable choice : nat -> list num -> Rng -> res (Rng * nat).
Hypothesis Hset : set_ok setp.
Notation ap_accept := (ap_accept Theta Rng Y setp pdfv kupd kpdf prior simc dist mkrng reseed choice).
Notation ap_step := (ap_step Theta Rng Y setp pdfv kupd kpdf prior simc dist mkrng reseed choice).
Notation ap_iterate := (ap_iterate Theta Rng Y setp pdfv kupd kpdf prior simc dist mkrng reseed choice).
Notation New := (New setp pdfv kupd kpdf prior simc dist choice).
Notation ARun := (ARun setp pdfv kupd kpdf prior simc dist choice).
Notation astate := (astate Theta).

Lemma ap_accept_spec mgr fuel sd cur th d w cnt c : ap_accept mgr fuel sd cur = Ok (th, d, w, cnt, c) -> New mgr (th, (d, w)) /\ cnt = 1.
Proof.
  unfold M_APMCABC.ap_accept. destruct mgr as [p|].
  - destruct (choice (length (p_w p)) (p_w p) (reseed (mkrng sd))) as [[r1 i]|] eqn:Ec; [|discriminate].
    destruct (propose Theta Rng (pop Theta) setp kupd pdfv fuel p i cur r1) as [[[c1 r2] th1]|] eqn:Ep; [|discriminate].
    destruct (simc c1 r2) as [r3 [y|]] eqn:Es; [|discriminate]. unfold pdf_of_prior. intros H. inversion H; subst. split; [|reflexivity].
    destruct (propose_spec _ _ _ _ _ _ _ Hset _ _ _ _ _ _ _ Ep) as (Hp & Hc & r4 & r5 & Hk). exists th1.
    split; [exists i, (reseed (mkrng sd)), r1, r4, r5, c1; auto|]. split; [exists c1, r2, r3, y; auto|]. split; [|exists c1; reflexivity].
    destruct (setp th1 c1) as [[|] c2] eqn:Es2; cbn; [left; apply (proj1 Hset _ _ _ Es2) | right; eauto].
  - destruct (prior (reseed (mkrng sd))) as [r1 th1] eqn:Ep. destruct (simc th1 r1) as [r2 [y|]] eqn:Es; [|discriminate]. intros H. inversion H; subst. split; [|reflexivity].
    exists c. split; [exists (reseed (mkrng sd)), r1; exact Ep|]. split; [exists c, r1, r2, y; auto|]. auto.
Qed.

(** the retained particles of a state *)
Definition retained (s : astate) : list (Theta * (num * num)) := match z_alpha Theta s with Some (rows, ws, ds) => zip3 rows ds ws | None => [] end.
Definition inforce (s : astate) : option (pop Theta) := match z_alpha Theta s with Some (rows, ws, _) => Some (mkpop rows ws) | None => z_mgr Theta s end.
Definition recorded (full steps t : nat) := ((full =? 1) && (t <=? steps - 1)) || ((full =? 0) && (t =? steps - 1)).

(* what the masked arrays hold *)
Lemma masked e (x : list (Theta * (num * num))) :
  zip3 (bfilter (map (fun d => nlt d e) (map (fun x => fst (snd x)) x)) (map fst x))
       (bfilter (map (fun d => nlt d e) (map (fun x => fst (snd x)) x)) (map (fun x => fst (snd x)) x))
       (normalise (bfilter (map (fun d => nlt d e) (map (fun x => fst (snd x)) x)) (map (fun x => snd (snd x)) x))) = below e x.
Proof.
  rewrite map_map. rewrite !(bfilter_map (fun x => nlt (fst (snd x)) e) (@fst Theta (num * num)) _ x). unfold below, normalise. rewrite !map_map.
  rewrite (zip3_map (@fst Theta (num * num)) (fun x => fst (snd x))). apply map_ext. intros [a [b c]]. reflexivity.
Qed.
Lemma masked_pop e (x : list (Theta * (num * num))) :
  mkpop (bfilter (map (fun d => nlt d e) (map (fun x => fst (snd x)) x)) (map fst x))
        (normalise (bfilter (map (fun d => nlt d e) (map (fun x => fst (snd x)) x)) (map (fun x => snd (snd x)) x))) = as_pop (below e x).
Proof.
  rewrite map_map. rewrite !(bfilter_map (fun x => nlt (fst (snd x)) e) (@fst Theta (num * num)) _ x). unfold as_pop, below, normalise. rewrite !map_map. reflexivity.
Qed.

(* the previous threshold and the number of retained particles *)
Definition prevof (s : astate) : option (num * nat) := match rev (z_eps Theta s) with [] => None | e :: _ => Some (e, length (retained s)) end.
Definition lens (s : astate) : Prop := match z_alpha Theta s with Some (rows, ws, ds) => length ds = length rows /\ length ws = length rows | None => True end.
Lemma ap_step_spec n k steps alpha cutoff full fuel t seed (s s' : astate) : 0 < k -> lens s -> (t = 0 -> z_alpha Theta s = None /\ z_eps Theta s = []) ->
  (0 < t -> z_alpha Theta s <> None) -> k <= n ->
  ap_step n k steps alpha cutoff full fuel t seed s = Ok s' ->
  exists new r e, length new = (if t =? 0 then n else n - k) /\ 0 < length new /\ Forall (New (inforce s)) new
  /\ particles r = retained s ++ new /\ length (r_ds r) = length (r_rows r) /\ length (r_w r) = length (r_rows r) /\ r_nsim r = z_count Theta s + length new
  /\ percentile (r_ds r) (alpha * 100) = Ok e
  /\ retained s' = below e (particles r) /\ inforce s' = Some (as_pop (below e (particles r))) /\ lens s' /\ z_alpha Theta s' <> None
  /\ z_count Theta s' = r_nsim r /\ z_eps Theta s' = z_eps Theta s ++ [e] /\ z_hist Theta s' = z_hist Theta s ++ [r]
  /\ z_recs Theta s' = (if recorded full steps t then z_recs Theta s ++ [r] else z_recs Theta s)
  /\ z_stop Theta s' = negb (Qle_bool cutoff (rate (prevof s) r)).
Proof.
  intros Hk Hlens Ht0 HtS Hkn. unfold M_APMCABC.ap_step. fold (inforce s).
  match goal with |- context [mapT ?f ?l ?c] => destruct (mapT f l c) as [[results cur1]|] eqn:Em; [|discriminate] end.
  apply mapT_ok in Em. destruct results as [|x0 res0] eqn:Eres; [discriminate|]. rewrite <- Eres in *.
  assert (Hpos : 0 < length results) by (rewrite Eres; cbn; lia). clear x0 res0 Eres.
  set (m := match t with 0 => n | S _ => n - k end) in *.
  assert (Hm : m = if t =? 0 then n else n - k) by (unfold m; destruct t; reflexivity).
  assert (Hlen : length results = m).
  { transitivity (length (seeds_of seed m)); [clear - Em; induction Em; cbn; congruence | unfold seeds_of; rewrite map_length, seq_length; reflexivity]. }
  set (new := map (fun x : Theta * num * num * nat => (fst (fst (fst x)), (snd (fst (fst x)), snd (fst x)))) results).
  assert (HF : Forall (New (inforce s)) new /\ map snd results = repeat 1 (length results)).
  { clear - Em Hset. unfold new. induction Em as [|sd x l results (c1 & c2 & Hx) Em [IH1 IH2]]; cbn; [split; constructor|].
    destruct (ap_accept (inforce s) fuel sd c1) as [[[[[th d] w] cnt] c']|] eqn:Ea; [|discriminate]. inversion Hx; subst. cbn.
    apply ap_accept_spec in Ea. destruct Ea as [A ->]. split; [constructor; assumption | rewrite IH2; reflexivity]. }
  destruct HF as [HF Hcnt].
  assert (Hcount : fold_left (fun a x => a + snd x) results (z_count Theta s) = z_count Theta s + m).
  { rewrite (fold_count (@snd (Theta * num * num) nat) results). rewrite Hcnt. f_equal. rewrite <- Hlen. clear. induction (length results) as [|q IH]; [reflexivity|].
    unfold list_sum in *. cbn [repeat fold_right]. rewrite IH. reflexivity. }
  assert (Hgo : forall rows ds ws pa epsilon e, zip3 rows ds ws = retained s ++ new -> length ds = length rows -> length ws = length rows ->
     percentile ds (alpha * 100) = Ok e -> epsilon = z_eps Theta s ++ [e] -> (forall w c, pa = rate (prevof s) (mkrec rows ds w c)) ->
     let index_alpha := map (fun d => nlt d e) ds in
     let rc := ((full =? 1) && (t <=? steps - 1)) || ((full =? 0) && (t =? steps - 1)) in
     Ok (mkast Theta epsilon (Some (bfilter index_alpha rows, normalise (bfilter index_alpha ws), bfilter index_alpha ds))
           (Some (if rc then mkpop rows ws else mkpop (bfilter index_alpha rows) (normalise (bfilter index_alpha ws)))) (z_count Theta s + m) cur1
           (z_hist Theta s ++ [mkrec rows ds ws (z_count Theta s + m)]) (if rc then z_recs Theta s ++ [mkrec rows ds ws (z_count Theta s + m)] else z_recs Theta s)
           (if negb (Qle_bool cutoff pa) then z_conf Theta s else Some epsilon) (negb (Qle_bool cutoff pa))) = Ok s' ->
     exists r e, particles r = retained s ++ new /\ length (r_ds r) = length (r_rows r) /\ length (r_w r) = length (r_rows r) /\ r_nsim r = z_count Theta s + length new
      /\ percentile (r_ds r) (alpha * 100) = Ok e
      /\ retained s' = below e (particles r) /\ inforce s' = Some (as_pop (below e (particles r))) /\ lens s' /\ z_alpha Theta s' <> None
      /\ z_count Theta s' = r_nsim r /\ z_eps Theta s' = z_eps Theta s ++ [e] /\ z_hist Theta s' = z_hist Theta s ++ [r]
      /\ z_recs Theta s' = (if recorded full steps t then z_recs Theta s ++ [r] else z_recs Theta s)
      /\ z_stop Theta s' = negb (Qle_bool cutoff (rate (prevof s) r))).
  { intros rows ds ws pa epsilon e Hz L1 L2 Hpc -> Hpa ia rc H. injection H as <-.
    exists (mkrec rows ds ws (z_count Theta s + m)), e. unfold particles. cbn [r_rows r_ds r_w r_nsim]. change (combine rows (combine ds ws)) with (zip3 rows ds ws).
    split; [exact Hz|]. split; [exact L1|]. split; [exact L2|]. split; [unfold new; rewrite map_length, Hlen; reflexivity|]. split; [exact Hpc|].
    destruct (zip3_proj rows ds ws L1 L2) as (P1 & P2 & P3).
    assert (Hz3 : zip3 (bfilter ia rows) (bfilter ia ds) (normalise (bfilter ia ws)) = below e (zip3 rows ds ws)).
    { pose proof (masked e (zip3 rows ds ws)) as Hmk. rewrite P1, P2, P3 in Hmk. exact Hmk. }
    assert (Hpop : mkpop (bfilter ia rows) (normalise (bfilter ia ws)) = as_pop (below e (zip3 rows ds ws))).
    { pose proof (masked_pop e (zip3 rows ds ws)) as Hmk. rewrite P1, P2, P3 in Hmk. exact Hmk. }
    split; [exact Hz3|]. split; [unfold inforce; cbn; rewrite Hpop; reflexivity|].
    split. { unfold lens. cbn. assert (Hb : forall (X Z0 : Type) (bs : list bool) (l : list X) (l' : list Z0), length l = length l' -> length (bfilter bs l) = length (bfilter bs l')).
             { unfold bfilter. intros X Z0 bs. induction bs as [|b bs IH]; intros l l' Hl; [reflexivity|]. destruct l as [|x l], l' as [|x' l']; try discriminate; [reflexivity|]. cbn in Hl. specialize (IH l l' ltac:(lia)). rewrite !map_length in *. cbn. destruct b; cbn; rewrite IH; reflexivity. }
             unfold normalise. rewrite map_length. split; apply Hb; assumption. }
    cbn [z_alpha z_count z_eps z_hist z_recs z_stop r_nsim]. split; [discriminate|]. do 4 (split; [reflexivity|]). rewrite <- Hpa. reflexivity. }
  cbv zeta in *. change (map (fun x => fst (fst (fst x))) results) with (map (fun x : Theta * num * num * nat => fst (fst (fst x))) results).
  rewrite map_length, Hlen, Hcount.
  destruct t as [|t].
  - destruct (Ht0 eq_refl) as [Ha He]. unfold m. rewrite Nat.eqb_refl.
    match goal with |- match (match ?X with _ => _ end) with _ => _ end = _ -> _ => destruct X as [e|] eqn:Epc; [|discriminate] end.
    intros H. exists new. edestruct Hgo as (r & e' & G); [| | | exact Epc | | | exact H |].
    + unfold retained. rewrite Ha. cbn [app]. apply zip3_map.
    + rewrite !map_length. reflexivity.
    + rewrite !map_length. reflexivity.
    + rewrite He. reflexivity.
    + intros w c. unfold prevof. rewrite He. reflexivity.
    + exists r, e'. unfold new at 1 2. rewrite map_length. split; [rewrite Hlen; exact Hm|]. split; [exact Hpos|]. split; [exact HF | exact G].
  - unfold m. destruct (Nat.eqb_spec (n - k) n) as [Hb|_]; [exfalso; destruct n; [unfold m in Hlen; rewrite Hlen in Hpos; lia | lia]|].
    destruct (z_alpha Theta s) as [[[rows ws] ds]|] eqn:Ea; [|discriminate]. destruct (rev (z_eps Theta s)) as [|e0 es0] eqn:Erev; [discriminate|].
    match goal with |- match (match ?X with _ => _ end) with _ => _ end = _ -> _ => destruct X as [e|] eqn:Epc; [|discriminate] end.
    unfold lens in Hlens. rewrite Ea in Hlens. destruct Hlens as [L1 L2].
    intros H. exists new. edestruct Hgo as (r & e' & G); [| | | exact Epc | | | exact H |].
    + unfold retained. rewrite Ea. unfold new. rewrite <- (zip3_map (fun x : Theta * num * num * nat => fst (fst (fst x))) (fun x => snd (fst (fst x))) (fun x => snd (fst x)) results).
      clear - L1 L2. unfold zip3. revert ds ws L1 L2. induction rows as [|a rows IH]; intros [|b ds] [|c ws] L1 L2; try discriminate; cbn; [reflexivity|]. rewrite IH; [reflexivity | cbn in *; lia | cbn in *; lia].
    + rewrite !app_length, !map_length. lia.
    + rewrite !app_length, !map_length. lia.
    + reflexivity.
    + intros w c. unfold prevof, rate, retained. rewrite Erev, Ea. cbn [r_ds]. replace (length (zip3 rows ds ws)) with (length ds) by (unfold zip3; rewrite !combine_length; lia). rewrite skipn_app, skipn_all, Nat.sub_diag. reflexivity.
    + exists r, e'. unfold new at 1 2. rewrite map_length. split; [rewrite Hlen; exact Hm|]. split; [exact Hpos|]. split; [exact HF | exact G].
Qed.
Lemma stop_iff cutoff p : negb (Qle_bool cutoff p) = true <-> (p < cutoff)%Q.
Proof. rewrite negb_true_iff. split; intros H; [apply Qnot_le_lt; intros Hx; apply Qle_bool_iff in Hx; congruence|]. destruct (Qle_bool cutoff p) eqn:E; [apply Qle_bool_iff in E; exfalso; lra | reflexivity]. Qed.
Lemma ap_iterate_run n k steps alpha cutoff full fuel seed : 0 < k -> k <= n -> forall todo t (s s' : astate), lens s -> t + todo = steps -> (t = 0 -> z_alpha Theta s = None /\ z_eps Theta s = []) ->
  (0 < t -> z_alpha Theta s <> None) -> ap_iterate n k steps alpha cutoff full fuel t todo seed s = Ok s' ->
  exists es rs, ARun n k alpha (inforce s) (retained s) (if t =? 0 then n else n - k) (z_count Theta s) es rs
  /\ length es = length rs /\ length rs <= todo /\ (0 < todo -> 0 < length rs) /\ (length rs < todo -> z_stop Theta s' = true)
  /\ (0 < todo -> Stopping cutoff (prevof s) es rs (z_stop Theta s'))
  /\ z_eps Theta s' = z_eps Theta s ++ es /\ z_hist Theta s' = z_hist Theta s ++ rs
  /\ z_recs Theta s' = z_recs Theta s ++ (if full =? 1 then rs else if full =? 0 then (if length rs =? todo then match rs with [] => [] | _ => [last rs (mkrec [] [] [] 0)] end else []) else []).
Proof.
  intros Hk Hkn. induction todo as [|todo IH]; intros t s s' Hl Ht H0 HS H; cbn [M_APMCABC.ap_iterate] in H.
  - injection H as <-. exists [], []. split; [constructor|]. cbn [length]. do 4 (split; [lia|]). split; [intros Hx; lia|]. rewrite !app_nil_r. split; [reflexivity|]. split; [reflexivity|].
    destruct (full =? 1); [|destruct (full =? 0)]; rewrite app_nil_r; reflexivity.
  - destruct (ap_step n k steps alpha cutoff full fuel t (seed t) s) as [s1|] eqn:Es; [|discriminate].
    destruct (ap_step_spec _ _ _ _ _ _ _ _ _ _ _ Hk Hl H0 HS Hkn Es) as (new & r & e & A1 & A2 & A3 & A4 & A5 & A6 & A7 & A8 & A9 & A10 & A11 & A12 & A13 & A14 & A15 & A16 & A17).
    destruct (z_stop Theta s1) eqn:Est.
    + injection H as <-. exists [e], [r]. cbn [length]. split; [eapply ar_step; try eassumption; [rewrite <- A1; exact A2 | rewrite <- A1; exact A7 | constructor]|].
      do 3 (split; [lia|]). split; [intros _; exact Est|]. split; [intros _; constructor; split; [intros _; apply stop_iff; congruence | intros _; exact Est]|]. split; [exact A14|]. split; [exact A15|]. rewrite A16. unfold recorded.
      replace (t <=? steps - 1) with true by (symmetry; apply Nat.leb_le; lia). destruct (full =? 1); [reflexivity|]. destruct (full =? 0); cbn [andb orb]; [|rewrite app_nil_r; reflexivity].
      destruct todo as [|todo].
      * replace (t =? steps - 1) with true by (symmetry; apply Nat.eqb_eq; lia). reflexivity.
      * replace (t =? steps - 1) with false by (symmetry; apply Nat.eqb_neq; lia). cbn. rewrite app_nil_r. reflexivity.
    + destruct (IH (S t) s1 s' A11 ltac:(lia) ltac:(discriminate) (fun _ => A12) H) as (es & rs & B1 & B2 & B3 & B3' & B4 & B8 & B5 & B6 & B7).
      exists (e :: es), (r :: rs). cbn [length]. split.
      { eapply ar_step; [exact A1 | rewrite <- A1; exact A2 | exact A3 | exact A4 | exact A5 | exact A6 | rewrite <- A1; exact A7 | exact A8 |]. rewrite A9, A10, A13 in B1. exact B1. }
      split; [lia|]. split; [lia|]. split; [lia|]. split; [intros Hlt; apply B4; lia|]. split.
      { intros _. assert (Hle : (cutoff <= rate (prevof s) r)%Q) by (apply Qle_bool_iff; destruct (Qle_bool cutoff (rate (prevof s) r)); [reflexivity | cbn in A17; congruence]).
        destruct todo as [|todo].
        - destruct rs; [|cbn in B3; lia]. destruct es; [|cbn in B2; lia]. constructor. cbn in H. injection H as <-. rewrite Est. split; [discriminate | intros Hx; exfalso; lra].
        - constructor; [exact Hle|]. assert (Hprev : prevof s1 = Some (e, length (below e (particles r)))) by (unfold prevof; rewrite A14, rev_unit, A9; reflexivity). rewrite <- Hprev. apply B8. lia. }
      split; [rewrite B5, A14, <- app_assoc; reflexivity|]. split; [rewrite B6, A15, <- app_assoc; reflexivity|].
      rewrite B7, A16. unfold recorded. replace (t <=? steps - 1) with true by (symmetry; apply Nat.leb_le; lia).
      destruct (full =? 1); cbn [andb orb]; [rewrite <- app_assoc; reflexivity|]. destruct (full =? 0); cbn [andb]; [|reflexivity].
      change (S (length rs) =? S todo) with (length rs =? todo).
      destruct todo as [|todo].
      * replace (t =? steps - 1) with true by (symmetry; apply Nat.eqb_eq; lia). destruct rs; [|cbn in B3; lia]. cbn. rewrite app_nil_r. reflexivity.
      * replace (t =? steps - 1) with false by (symmetry; apply Nat.eqb_neq; lia). destruct (length rs =? S todo); [|reflexivity]. destruct rs; [cbn in B3'; lia|]. reflexivity.
Qed.
Notation ap_sample := (ap_sample Theta Rng Y setp pdfv kupd kpdf prior simc dist mkrng reseed choice).
Lemma ap_sample_run steps n alpha cutoff full journal fuel seed mgr0 cur0 count0 s :
  let k := Z.to_nat (pyround (inject_Z (Z.of_nat n) * alpha)) in
  0 < steps -> 0 < k -> k <= n -> ap_sample steps n alpha cutoff full journal fuel seed mgr0 cur0 count0 = Ok s ->
  ARun n k alpha (match journal with Some p => Some p | None => mgr0 end) [] n count0 (z_eps Theta s) (z_hist Theta s)
  /\ 0 < length (z_hist Theta s) <= steps /\ (length (z_hist Theta s) < steps -> z_stop Theta s = true)
  /\ Stopping cutoff None (z_eps Theta s) (z_hist Theta s) (z_stop Theta s)
  /\ z_recs Theta s = (if full =? 1 then z_hist Theta s else if (full =? 0) && (length (z_hist Theta s) =? steps) then [last (z_hist Theta s) (mkrec [] [] [] 0)] else []).
Proof.
  intros k Hs Hk Hkn H. unfold M_APMCABC.ap_sample in H. fold k in H. cbv zeta in H. clearbody k.
  apply ap_iterate_run in H; [|exact Hk | exact Hkn | exact I | lia | auto | lia].
  destruct H as (es & rs & A1 & A2 & A3 & A4 & A5 & A9 & A6 & A7 & A8). cbn [z_eps z_hist z_recs app] in *. rewrite A6, A7. split; [exact A1|]. split; [split; [apply A4; exact Hs | exact A3]|]. split; [exact A5|]. split; [exact (A9 Hs)|].
  rewrite A8. destruct (full =? 1); [reflexivity|]. destruct (full =? 0); [|reflexivity]. cbn [andb]. destruct (length rs =? steps); [|reflexivity]. destruct rs; [cbn in A4; lia | reflexivity].
Qed.
End P.

(** * Quantiles: when enough values are at most e, so is the quantile *)
Open Scope Q_scope.
Lemma count_nth s e : qsorted s -> forall j, (j < length (filter (fun x => nle (Fin x) e) s))%nat -> nle (Fin (nth j s 0)) e = true.
Proof.
  induction 1 as [|x s Hs IH Hx]; intros j Hj; [cbn in Hj; lia|]. cbn [filter] in Hj. destruct (nle (Fin x) e) eqn:E.
  - destruct j as [|j]; [exact E|]. cbn [nth]. apply IH. cbn [length] in Hj. lia.
  - exfalso. assert (Hnone : filter (fun x => nle (Fin x) e) s = []).
    { clear - Hx E. induction Hx as [|y s Hy Hx IH]; cbn [filter]; [reflexivity|]. destruct (nle (Fin y) e) eqn:Ey; [|exact IH].
      assert (nle (Fin x) e = true) by (eapply nle_trans; [apply nle_fin; exact Hy | exact Ey]). congruence. }
    rewrite Hnone in Hj. cbn in Hj. lia.
Qed.
Lemma filter_perm_length {A} (p : A -> bool) l l' : Permutation l l' -> length (filter p l) = length (filter p l').
Proof. induction 1 as [|x l l' H IH|x y l|l l' l'' H1 IH1 H2 IH2]; cbn [filter]; [reflexivity | destruct (p x); cbn [length]; congruence | destruct (p x), (p y); reflexivity | congruence]. Qed.
Lemma quantile_below ql q c e : ql <> [] -> 0 <= q -> q <= 1 -> quantile (map Fin ql) q = Ok c ->
  (Qceiling (inject_Z (Z.of_nat (length ql) - 1) * q) < Z.of_nat (count_le e (map Fin ql)))%Z -> exists v, c = Fin v /\ nle c e = true.
Proof.
  intros Hne H0 H1 Hq Hc. destruct (quantile_fin ql q Hne H0 H1) as (s & c' & Hp & Hs & Hq' & Hcq). rewrite Hq in Hq'. injection Hq' as ->. exists c'. split; [reflexivity|].
  assert (Hn : (length ql <> 0)%nat) by (destruct ql; [congruence | cbn; lia]). assert (Hlen : length s = length ql) by (apply Permutation_length; exact Hp).
  fold (rank (length ql) q) in Hc. destruct (floor_range (length ql) q Hn H0 H1) as [Hf1 Hf0].
  assert (Hcnt : count_le e (map Fin ql) = length (filter (fun x => nle (Fin x) e) s)).
  { unfold count_le. rewrite (filter_perm_length _ _ _ Hp). clear. induction ql as [|x l IH]; [reflexivity|]. cbn [map filter]. destruct (nle (Fin x) e); cbn [length]; congruence. }
  rewrite Hcnt in Hc.
  set (p := Z.to_nat (Qfloor (rank (length ql) q))) in *.
  destruct (Qeq_dec (rank (length ql) q) (inject_Z (Qfloor (rank (length ql) q)))) as [He|He].
  - assert (Hcq' : c' == nth p s 0). { rewrite Hcq. unfold qstat. fold p. assert (Hz : rank (length ql) q - inject_Z (Qfloor (rank (length ql) q)) == 0) by (rewrite <- He; ring). rewrite Hz. ring. }
    apply nle_trans with (Fin (nth p s 0)); [apply nle_fin; rewrite Hcq'; apply Qle_refl|]. apply count_nth; [exact Hs|].
    assert (Qceiling (rank (length ql) q) = Qfloor (rank (length ql) q)). { rewrite He at 1. apply Qceiling_Z. } unfold p. lia.
  - assert (Hce : (Qfloor (rank (length ql) q) + 1 <= Qceiling (rank (length ql) q))%Z).
    { pose proof (Qle_ceiling (rank (length ql) q)) as A. pose proof (Qfloor_le (rank (length ql) q)) as B.
      assert (C : inject_Z (Qfloor (rank (length ql) q)) < inject_Z (Qceiling (rank (length ql) q))). { assert (D : inject_Z (Qfloor (rank (length ql) q)) < rank (length ql) q) by (apply Qle_lteq in B; destruct B as [B|B]; [exact B | symmetry in B; contradiction]). lra. }
      rewrite <- Zlt_Qlt in C. lia. }
    destruct (qstat_between s (length ql) q Hs Hlen Hn H0 H1) as [_ Hb]. fold p in Hb.
    apply nle_trans with (Fin (nth (Nat.min (S p) (length ql - 1)) s 0)); [apply nle_fin; rewrite Hcq; exact Hb|]. apply count_nth; [exact Hs|].
    unfold p in *. lia.
Qed.
