(** Proofs about PMCABC. *)
From Verif Require Import M_Base M_Num L_Num M_Infer S_Infer L_Infer M_PMCABC S_PMCABC.
From Coq Require Import Lqa Permutation Qround.
Open Scope nat_scope.

Lemma mapT_ok {A B C} (f : A -> C -> res (B * C)) l : forall c ys c', mapT f l c = Ok (ys, c') ->
  Forall2 (fun x y => exists c1 c2, f x c1 = Ok (y, c2)) l ys.
Proof.
  induction l as [|x l IH]; intros c ys c' H; cbn in H; [inversion H; constructor|].
  destruct (f x c) as [[y c1]|] eqn:E1; [|discriminate]. destruct (mapT f l c1) as [[ys1 c2]|] eqn:E2; [|discriminate].
  inversion H; subst. constructor; eauto.
Qed.
Lemma lset_app {A} (pre post : list A) x y : lset (pre ++ x :: post) (length pre) y = pre ++ y :: post.
Proof.
  unfold lset. rewrite firstn_app, Nat.sub_diag, firstn_all, skipn_app, skipn_all, Nat.sub_diag. cbn. rewrite app_nil_r. reflexivity.
Qed.
Lemma Forall2_flip {A B} (P : A -> B -> Prop) l l' : Forall2 P l l' -> Forall2 (fun b a => P a b) l' l.
Proof. induction 1; constructor; auto. Qed.

Lemma fold_count {A} (f : A -> nat) l : forall a, fold_left (fun a x => a + f x) l a = a + list_sum (map f l).
Proof. unfold list_sum. induction l as [|x l IH]; intros a; cbn [fold_left map fold_right]; [lia|]. rewrite IH. lia. Qed.

Section P.
Variables Theta Rng Y : Type.
Variable setp : Theta -> Theta -> bool * Theta.
Variable pdfv : Theta -> Theta -> num.
Variable kupd : pop Theta -> nat -> Rng -> Rng * Theta.
Variable kpdf : pop Theta -> Theta -> Theta -> num.
Variable prior : Rng -> Rng * Theta.
Variable simc : Theta -> Rng -> Rng * option Y.
Variable dist : Y -> num.
Variable dist_max : num.
Variable mkrng : Z -> Rng.
Variable reseed : Rng -> Rng.
Variable choice : nat -> list num -> Rng -> res (Rng * nat).
Hypothesis Hset : set_ok setp.
Notation resample_loop := (resample_loop Theta Rng Y setp pdfv kupd prior simc dist choice).
Notation resample_parameter := (resample_parameter Theta Rng Y setp pdfv kupd prior simc dist dist_max mkrng reseed choice).
Notation calculate_weight := (calculate_weight Theta setp pdfv kpdf).
Notation Simulated := (Simulated setp simc dist).
Notation Particle := (Particle setp pdfv kupd prior simc dist dist_max choice).
Notation Drawn := (Drawn pdfv kupd prior choice).

Lemma resample_loop_spec eps n mgr fuel : forall cur r th d k th' d' k' cur',
  (d = dist_max \/ (Drawn n mgr th /\ Simulated th d)) -> resample_loop eps n mgr fuel cur r th d k = Ok (th', d', k', cur') ->
  Particle n mgr eps th' d' /\ k <= k' /\ (nlt eps d = true -> k < k').
Proof.
  induction fuel as [|f IH]; intros cur r th d k th' d' k' cur' Hg; cbn [M_PMCABC.resample_loop];
    (destruct (nlt eps d) eqn:En; [|intros H; inversion H; subst; split; [split; assumption | split; [lia | discriminate]]]); [discriminate|].
  destruct mgr as [p|].
  - destruct (choice n (p_w p) r) as [[r1 i]|] eqn:Ech; [|discriminate].
    destruct (propose Theta Rng (pop Theta) setp kupd pdfv (S f) p i cur r1) as [[[c1 r2] th1]|] eqn:Ep; [|discriminate].
    destruct (simc c1 r2) as [r3 [y|]] eqn:Es; [|discriminate]. intros H. apply IH in H; [split; [tauto | lia]|]. right.
    destruct (propose_spec _ _ _ _ _ _ _ Hset _ _ _ _ _ _ _ Ep) as (Hp & Hc & r4 & r5 & Hk). split; [exists i, r, r1, r4, r5, c1; auto | exists c1, r2, r3, y; auto].
  - destruct (prior r) as [r1 th1] eqn:Epr. destruct (simc th1 r1) as [r2 [y|]] eqn:Es; [|discriminate]. intros H. apply IH in H; [split; [tauto | lia]|]. right.
    split; [exists r, r1; exact Epr | exists th1, r1, r2, y; auto].
Qed.
Lemma weight_spec n mgr th c w c' : calculate_weight n mgr th c = Ok (w, c') -> RawWeight setp pdfv kpdf n mgr th w.
Proof.
  unfold M_PMCABC.calculate_weight, RawWeight. destruct mgr as [p|]; [|intros H; inversion H; reflexivity].
  unfold pdf_of_prior. destruct (Nat.ltb_spec (length (p_rows p)) n) as [|Hl]; [discriminate|]. destruct (Nat.eqb_spec (length (p_w p)) n) as [Hw|]; [|discriminate].
  cbn [negb]. intros H. inversion H; subst. split; [reflexivity|]. split; [exact Hl|]. exists c. reflexivity.
Qed.

Notation step := (step Theta Rng Y setp pdfv kupd kpdf prior simc dist dist_max mkrng reseed choice).
Notation iterate := (iterate Theta Rng Y setp pdfv kupd kpdf prior simc dist dist_max mkrng reseed choice).
Notation Iter := (Iter setp pdfv kupd kpdf prior simc dist dist_max choice).
Notation Run := (Run setp pdfv kupd kpdf prior simc dist dist_max choice).
Notation state := (state Theta).
Definition inforce (s : state) : option (pop Theta) := match s_acc Theta s with Some p => Some p | None => s_mgr Theta s end.

Lemma step_spec n steps a full restarted fuel t seeds (s s' : state) : step n steps a full restarted fuel t seeds s = Ok s' ->
  exists eps r eps',
  nth_error (s_eps Theta s) t = Some (Some eps) /\ Iter n (inforce s) (s_count Theta s) eps seeds r /\ s_count Theta s' = r_nsim r
  /\ s_used Theta s' = s_used Theta s ++ [eps] /\ s_hist Theta s' = s_hist Theta s ++ [r]
  /\ s_acc Theta s' = Some (mkpop (r_rows r) (r_w r)) /\ s_mgr Theta s' = Some (mkpop (r_rows r) (r_w r))
  /\ (exists extra, s_eps Theta s' = eps' ++ extra)
  /\ (if t <? steps - 1 then exists pc o, percentile (r_ds r) a = Ok pc /\ nth_error (s_eps Theta s) (t + 1) = Some o
                             /\ eps' = lset (s_eps Theta s) (t + 1) (Some (match o with None => pc | Some u => nmax pc u end))
      else eps' = s_eps Theta s)
  /\ s_recs Theta s' = (if ((full =? 1) && (t <=? steps - 1)) || ((full =? 0) && (t =? steps - 1)) then s_recs Theta s ++ [r] else s_recs Theta s).
Proof.
  unfold M_PMCABC.step. destruct (nth_error (s_eps Theta s) t) as [[eps|]|] eqn:Ee; try discriminate. fold (inforce s).
  match goal with |- context [mapT ?f seeds ?c] => destruct (mapT f seeds c) as [[results cur1]|] eqn:Em; [|discriminate] end.
  apply mapT_ok in Em. destruct results as [|x0 results0]; [discriminate|]. set (results := x0 :: results0) in *.
  set (rows := map (fun x => fst (fst x)) results). set (ds := map (fun x => snd (fst x)) results).
  match goal with |- context [if t <? steps - 1 then ?A else ?B] => destruct (if t <? steps - 1 then A else B) as [eps'|] eqn:Eeps; [|discriminate] end.
  destruct (mapT (calculate_weight n (inforce s)) rows cur1) as [[ws cur2]|] eqn:Ew; [|discriminate]. apply mapT_ok in Ew.
  match goal with |- context [let '(_, _) := ?p in _] => destruct p as [eps'' conf'] eqn:Ec end.
  intros H. injection H as <-. cbn [s_used s_hist s_acc s_mgr s_eps s_recs s_count].
  match goal with |- context [s_hist Theta s ++ [?r0]] => exists eps, r0, eps' end. cbn [r_rows r_ds r_w r_nsim].
  split; [reflexivity|]. split; [|do 5 (split; [reflexivity|])].
  - assert (Hlen : length results = length seeds) by (clear - Em; induction Em; cbn; congruence).
    split; [intros ->; discriminate|]. split; [exact (eq_trans (map_length _ results) Hlen)|]. split.
    + unfold rows, ds. clear - Em Hset kpdf. induction Em as [|sd x seeds results (c1 & c2 & Hx) Em IH]; cbn [map]; [constructor|]. constructor; [|exact IH].
      unfold M_PMCABC.resample_parameter in Hx.
      destruct (resample_loop eps n (inforce s) fuel c1 (reseed (mkrng sd)) c1 dist_max 0) as [[[[th d] k] c']|] eqn:El; [|discriminate]. inversion Hx; subst. cbn.
      eapply resample_loop_spec; [left; reflexivity | exact El].
    + split; [exists (map snd results); split; [rewrite map_length; exact Hlen|]; split; [|exact (fold_count snd results _)]|].
      { intros Hd. clear - Em Hset Hd kpdf. induction Em as [|sd x seeds results (c1 & c2 & Hx) Em IH]; cbn [map]; [constructor|]. constructor; [|exact IH].
      unfold M_PMCABC.resample_parameter in Hx.
      destruct (resample_loop eps n (inforce s) fuel c1 (reseed (mkrng sd)) c1 dist_max 0) as [[[[th d] k] c']|] eqn:El; [|discriminate]. inversion Hx; subst. cbn.
      apply resample_loop_spec in El; [apply El; exact Hd | left; reflexivity]. }
      exists ws. split; [|reflexivity]. clear - Ew. induction Ew as [|th w rows ws (c1 & c2 & Hw) Ew IH]; constructor; [eapply weight_spec; exact Hw | exact IH].
  - split.
    + destruct restarted; [destruct (s_conf Theta s)|]; inversion Ec; subst; [exists [] | exists eps' | exists [] | exists []]; rewrite ?app_nil_r; reflexivity.
    + split; [|reflexivity]. destruct (t <? steps - 1); [|congruence].
      destruct (percentile ds a) as [pc|]; [|discriminate]. destruct (nth_error (s_eps Theta s) (t + 1)) as [o|]; [|discriminate].
      exists pc, o. split; [reflexivity|]. split; [reflexivity|]. destruct o; congruence.
Qed.

Lemma iterate_run n steps a full restarted fuel : forall seeds t (s s' : state) pre eps us extra,
  seeds <> [] -> t + length seeds = steps -> length pre = t -> length (us) + 1 = length seeds ->
  s_eps Theta s = pre ++ Some eps :: us ++ extra ->
  iterate n steps a full restarted fuel t seeds s = Ok s' ->
  exists es rs, s_used Theta s' = s_used Theta s ++ es /\ s_hist Theta s' = s_hist Theta s ++ rs
  /\ Run n a (inforce s) (s_count Theta s) eps us seeds es rs
  /\ s_recs Theta s' = s_recs Theta s ++ (if full =? 1 then rs else if full =? 0 then [last rs (mkrec [] [] [] 0)] else [])
  /\ (exists extra', s_eps Theta s' = pre ++ map Some es ++ extra').
Proof.
  induction seeds as [|sd seeds IH]; intros t s s' pre eps us extra Hne Ht Hpre Hus Heps H; [congruence|].
  cbn [M_PMCABC.iterate] in H. destruct (step n steps a full restarted fuel t sd s) as [s1|] eqn:Es; [|discriminate].
  apply step_spec in Es. destruct Es as (eps1 & r & eps' & E1 & Hit & Hcnt & Hu & Hh & Ha & Hm & (ex1 & Hex) & Hn & Hr).
  rewrite Heps, nth_error_app2 in E1 by lia. rewrite Hpre, Nat.sub_diag in E1. cbn in E1. injection E1 as <-.
  cbn [length] in *. destruct seeds as [|sd2 seeds].
  - cbn in H. injection H as <-. destruct us; [|cbn in Hus; lia]. exists [eps], [r]. split; [exact Hu|]. split; [exact Hh|]. split; [constructor; exact Hit|].
    assert (Hlast : (t <? steps - 1) = false) by (apply Nat.ltb_ge; cbn in Ht; lia). rewrite Hlast in Hn. subst eps'.
    split; [|rewrite Hex, Heps; cbn; exists (extra ++ ex1); rewrite <- app_assoc; reflexivity].
    rewrite Hr. replace (t <=? steps - 1) with true by (symmetry; apply Nat.leb_le; lia). replace (t =? steps - 1) with true by (symmetry; apply Nat.eqb_eq; cbn in Ht; lia).
    rewrite !andb_true_r. destruct (full =? 1); [reflexivity|]. destruct (full =? 0); cbn; [reflexivity | rewrite app_nil_r; reflexivity].
  - cbn [length] in *. destruct us as [|u us]; [cbn in Hus; lia|].
    assert (Hnl : (t <? steps - 1) = true) by (apply Nat.ltb_lt; lia). rewrite Hnl in Hn. destruct Hn as (pc & o & Hpc & Ho & He').
    assert (Hsplit : s_eps Theta s = (pre ++ [Some eps]) ++ u :: us ++ extra) by (rewrite Heps, <- app_assoc; reflexivity).
    assert (Hlp : length (pre ++ [Some eps]) = t + 1) by (rewrite app_length; cbn; lia).
    rewrite Hsplit, nth_error_app2 in Ho by lia. rewrite Hlp, Nat.sub_diag in Ho. cbn in Ho. injection Ho as <-.
    rewrite Hsplit, <- Hlp, lset_app in He'. 
    destruct (IH (S t) s1 s' (pre ++ [Some eps]) (match u with None => pc | Some u => nmax pc u end) us (extra ++ ex1)) as (es & rs & A & B & C & D & (ex2 & F)).
    + discriminate.
    + lia.
    + lia.
    + cbn in Hus |- *. lia.
    + rewrite Hex, He'. rewrite <- !app_assoc. cbn. rewrite <- app_assoc. reflexivity.
    + exact H.
    + exists (eps :: es), (r :: rs). split; [rewrite A, Hu, <- app_assoc; reflexivity|]. split; [rewrite B, Hh, <- app_assoc; reflexivity|].
      split. { unfold inforce in C. rewrite Ha, Hcnt in C. eapply run_more; eassumption. }
      split; [|exists ex2; rewrite F, <- app_assoc; reflexivity].
      rewrite D, Hr. replace (t <=? steps - 1) with true by (symmetry; apply Nat.leb_le; lia). replace (t =? steps - 1) with false by (symmetry; apply Nat.eqb_neq; lia).
      rewrite andb_false_r, andb_true_r, orb_false_r. destruct (full =? 1); [rewrite <- app_assoc; reflexivity|]. destruct (full =? 0); [|reflexivity].
      f_equal. f_equal. inversion C; subst; reflexivity.
Qed.

Notation sample := (sample Theta Rng Y setp pdfv kupd kpdf prior simc dist dist_max mkrng reseed choice).
(** the user's thresholds of the later iterations *)
Lemma epsilon_arr_spec init steps arr : epsilon_arr init steps = Ok arr -> 0 < steps ->
  exists e0 us, arr = Some e0 :: us /\ length us + 1 = steps /\ hd_error init = Some e0
  /\ us = (if length init =? steps then map Some (tl init) else repeat None (steps - 1)).
Proof.
  unfold epsilon_arr. intros H Hs. destruct (Nat.eqb_spec (length init) steps) as [El|El].
  - injection H as <-. destruct init as [|e init]; cbn in El; [lia|]. exists e, (map Some init). split; [reflexivity|]. rewrite map_length. split; [lia|]. split; reflexivity.
  - destruct init as [|e [|e' init]]; try discriminate. destruct steps as [|m]; [discriminate|]. injection H as <-. exists e, (repeat None m).
    split; [reflexivity|]. rewrite repeat_length. split; [lia|]. split; [reflexivity|]. f_equal. lia.
Qed.
Lemma sample_run steps init n a full jf fuel seeds mgr0 cur0 count0 s :
  0 < steps -> length seeds = steps -> sample steps init n a full jf fuel seeds mgr0 cur0 count0 = Ok s ->
  exists e0, hd_error init = Some e0
  /\ (let us := if length init =? steps then map Some (tl init) else repeat None (steps - 1) in
      match jf with
      | None => Run n a mgr0 count0 e0 us seeds (s_used Theta s) (s_hist Theta s)
      | Some rs => exists pc, percentile (rs_ds Theta rs) a = Ok pc /\ Run n a (Some (rs_pop Theta rs)) count0 (nmax pc e0) us seeds (s_used Theta s) (s_hist Theta s)
      end)
  /\ s_recs Theta s = (if full =? 1 then s_hist Theta s else if full =? 0 then [last (s_hist Theta s) (mkrec [] [] [] 0)] else [])
  /\ (exists extra, s_eps Theta s = map Some (s_used Theta s) ++ extra).
Proof.
  intros Hs Hl H. unfold M_PMCABC.sample in H. destruct (epsilon_arr init steps) as [arr|] eqn:Ea; [|discriminate].
  destruct (epsilon_arr_spec init steps arr Ea Hs) as (e0 & us & -> & Hus & Hhd & Heq). exists e0. split; [exact Hhd|]. cbv zeta. rewrite <- Heq.
  assert (Hne : seeds <> []) by (intros ->; cbn in Hl; lia).
  destruct jf as [rs|].
  - destruct (percentile (rs_ds Theta rs) a) as [pc|]; [|discriminate].
    eapply (iterate_run n steps a full true fuel seeds 0 _ s [] (nmax pc e0) us []) in H; [|exact Hne | exact Hl | reflexivity | lia | cbn; rewrite app_nil_r; reflexivity].
    destruct H as (es & rs' & A & B & C & D & F). cbn in A, B, C, D, F. rewrite A, B. split; [exists pc; split; [reflexivity | exact C]|]. split; [exact D | exact F].
  - eapply (iterate_run n steps a full false fuel seeds 0 _ s [] e0 us []) in H; [|exact Hne | exact Hl | reflexivity | lia | cbn; rewrite app_nil_r; reflexivity].
    destruct H as (es & rs' & A & B & C & D & F). cbn in A, B, C, D, F. rewrite A, B. split; [exact C|]. split; [exact D | exact F].
Qed.
End P.

(** * Consequences of a run *)
Section C.
Variables Theta Rng Y : Type.
Variable setp : Theta -> Theta -> bool * Theta.
Variable pdfv : Theta -> Theta -> num.
Variable kupd : pop Theta -> nat -> Rng -> Rng * Theta.
Variable kpdf : pop Theta -> Theta -> Theta -> num.
Variable prior : Rng -> Rng * Theta.
Variable simc : Theta -> Rng -> Rng * option Y.
Variable dist : Y -> num.
Variable dist_max : num.
Variable choice : nat -> list num -> Rng -> res (Rng * nat).
Notation Run := (Run setp pdfv kupd kpdf prior simc dist dist_max choice).
Notation Iter := (Iter setp pdfv kupd kpdf prior simc dist dist_max choice).

Lemma run_length n a mgr count e us seeds es rs : Run n a mgr count e us seeds es rs -> length es = length seeds /\ length rs = length seeds.
Proof. induction 1; cbn; lia. Qed.
Lemma run_below n a mgr count e us seeds es rs : Run n a mgr count e us seeds es rs -> forall t et r d, nth_error es t = Some et -> nth_error rs t = Some r -> In d (r_ds r) -> nlt et d = false.
Proof.
  assert (Hi : forall m c e sd r d, Iter n m c e sd r -> In d (r_ds r) -> nlt e d = false).
  { intros m c0 e0 sd r d (_ & _ & HF & _) Hd. clear - HF Hd. induction HF as [|th d' rows ds [Hp _] HF IH]; [destruct Hd|]. destruct Hd as [->|Hd]; auto. }
  induction 1 as [mgr count e sd r HI | mgr count e u us sd sds r pc es rs HI Hpc HR IH]; intros t et r0 d Ht Hr Hd.
  - destruct t as [|t]; [|destruct t; discriminate]. inversion Ht; inversion Hr; subst. eapply Hi; eassumption.
  - destruct t as [|t]; [inversion Ht; inversion Hr; subst; eapply Hi; eassumption|]. cbn in Ht, Hr. eapply IH; eassumption.
Qed.
End C.

Open Scope Q_scope.
Lemma quantile_upper ql q c e : ql <> [] -> 0 <= q -> q <= 1 -> quantile (map Fin ql) q = Ok c -> (forall x, In x ql -> nle (Fin x) e = true) -> exists v, c = Fin v /\ nle (Fin v) e = true.
Proof.
  intros Hne H0 H1 Hq Hle. destruct (quantile_fin ql q Hne H0 H1) as (s & c' & Hp & Hs & Hq' & Hc). rewrite Hq in Hq'. injection Hq' as ->. exists c'. split; [reflexivity|].
  assert (Hn : (length ql <> 0)%nat) by (destruct ql; [congruence | cbn; lia]). assert (Hlen : length s = length ql) by (apply Permutation_length; exact Hp).
  destruct (qstat_between s (length ql) q Hs Hlen Hn H0 H1) as [_ Hb].
  set (k := Nat.min (S (Z.to_nat (Qfloor (rank (length ql) q)))) (length ql - 1)) in *.
  assert (Hk : (k < length s)%nat) by (unfold k; lia). assert (Hin : In (nth k s 0) ql) by (apply (Permutation_in _ Hp), nth_In; exact Hk).
  apply nle_trans with (Fin (nth k s 0)); [apply nle_fin; rewrite Hc; exact Hb | apply Hle; exact Hin].
Qed.
Lemma nmax_ge a b : is_nan a = false -> is_nan b = false -> nle a (nmax a b) = true /\ nle b (nmax a b) = true /\ is_nan (nmax a b) = false /\ (nmax a b = a \/ nmax a b = b).
Proof.
  intros Ha Hb. assert (Hr : forall x, is_nan x = false -> nle x x = true) by (intros [x| | |] H; try reflexivity; try discriminate; apply nle_fin; lra).
  assert (E : nmax a b = if nle a b then b else a) by (destruct a, b; cbn in *; (discriminate || reflexivity)). rewrite E.
  destruct (nle a b) eqn:El; [split; [exact El|]; split; [apply Hr; exact Hb|]; auto|]. split; [apply Hr; exact Ha|]. split; [|auto].
  destruct a as [x| | |], b as [y| | |]; cbn in *; try congruence. apply Qle_bool_iff. destruct (Qlt_le_dec x y) as [H|H]; [|exact H]. exfalso. apply Qlt_le_weak, Qle_bool_iff in H. congruence.
Qed.
Lemma fin_list l : (forall d, In d l -> exists q, d = Fin q) -> exists ql, l = map Fin ql.
Proof.
  induction l as [|x l IH]; intros H; [exists []; reflexivity|]. destruct (H x (or_introl eq_refl)) as [q ->]. destruct IH as [ql ->]; [intros d Hd; apply H; right; exact Hd|]. exists (q :: ql). reflexivity.
Qed.
Section D.
Variables Theta Rng Y : Type.
Variable setp : Theta -> Theta -> bool * Theta.
Variable pdfv : Theta -> Theta -> num.
Variable kupd : pop Theta -> nat -> Rng -> Rng * Theta.
Variable kpdf : pop Theta -> Theta -> Theta -> num.
Variable prior : Rng -> Rng * Theta.
Variable simc : Theta -> Rng -> Rng * option Y.
Variable dist : Y -> num.
Variable dist_max : num.
Variable choice : nat -> list num -> Rng -> res (Rng * nat).
Notation Run := (Run setp pdfv kupd kpdf prior simc dist dist_max choice).
Lemma nonincreasing_none us : Forall (fun u => u = None) us -> forall e, nonincreasing e us.
Proof. intros H e. destruct H as [|u us Hu H]; [exact I|]. subst u. exact H. Qed.
Lemma nonincreasing_mono us : forall e e', nle e e' = true -> nonincreasing e us -> nonincreasing e' us.
Proof. destruct us as [|[u|] us]; intros e e' H; cbn; auto. intros (A & B & C). split; [exact A|]. split; [eapply nle_trans; eassumption | exact C]. Qed.
Lemma run_monotone n a mgr count e us seeds es rs : 0 <= a -> a <= 100 -> Run n a mgr count e us seeds es rs ->
  is_nan e = false -> nonincreasing e us ->
  (forall r d, In r rs -> In d (r_ds r) -> exists q, d = Fin q) ->
  forall t e1 e2, nth_error es t = Some e1 -> nth_error es (S t) = Some e2 -> nle e2 e1 = true.
Proof.
  intros Ha0 Ha1 HR. assert (Hq0 : 0 <= a / 100) by (apply Qle_shift_div_l; lra). assert (Hq1 : a / 100 <= 1) by (apply Qle_shift_div_r; lra).
  induction HR as [mgr count e sd r HI | mgr count e u us sd sds r pc es rs HI Hpc HR IH]; intros Hnan Hni Hfin t e1 e2 H1 H2; [destruct t as [|[|t]]; discriminate|].
  destruct (fin_list (r_ds r)) as [ql Hql]; [intros d Hd; apply (Hfin r d); [left; reflexivity | exact Hd]|].
  assert (Hle : forall x, In x ql -> nle (Fin x) e = true).
  { intros x Hx. assert (Hlt : nlt e (Fin x) = false).
    { eapply (run_below _ _ _ _ _ _ _ _ _ _ _ _ n a mgr count e [] [sd] [e] [r]); [constructor; exact HI | exact (eq_refl : nth_error [e] 0 = _) | exact (eq_refl : nth_error [r] 0 = _) | rewrite Hql; apply in_map; exact Hx]. }
    apply nlt_false in Hlt. destruct Hlt as [H|[H|H]]; [exact H | discriminate | congruence]. }
  assert (Hne : ql <> []). { destruct HI as (Hs & Hl & HF & _). intros ->. cbn in Hql. rewrite Hql in HF. inversion HF as [E|]. rewrite <- E in Hl. destruct sd; [congruence | discriminate]. }
  unfold percentile in Hpc. rewrite Hql in Hpc. destruct (quantile_upper ql (a / 100) pc e Hne Hq0 Hq1 Hpc Hle) as (v & -> & Hv).
  set (e' := match u with None => Fin v | Some u0 => nmax (Fin v) u0 end) in *.
  assert (He' : nle e' e = true /\ is_nan e' = false /\ nonincreasing e' us).
  { unfold e'. destruct u as [u|]; cbn in Hni.
    - destruct Hni as (Hun & Hue & Hni). destruct (nmax_ge (Fin v) u eq_refl Hun) as (A & B & C & D). split; [destruct D as [-> | ->]; assumption|]. split; [exact C|]. eapply nonincreasing_mono; eassumption.
    - split; [exact Hv|]. split; [reflexivity|]. apply nonincreasing_none. exact Hni. }
  destruct He' as (A & B & C). destruct t as [|t].
  - change (nth_error es 0 = Some e2) in H2. injection H1 as <-. assert (Hh : nth_error es 0 = Some e') by (inversion HR; subst; reflexivity). rewrite Hh in H2. injection H2 as <-. exact A.
  - cbn in H1, H2. eapply (IH B C); [|exact H1 | exact H2]. intros r0 d Hr Hd. eapply Hfin; [right; exact Hr | exact Hd].
Qed.

(** weights *)
Lemma nsum_pos (l : list (Q * Q)) : (forall w k, In (w, k) l -> 0 < w /\ 0 < k) -> l <> [] ->
  exists s, nsum (map (fun wk => nmul (Fin (fst wk)) (Fin (snd wk))) l) = Fin s /\ 0 < s.
Proof.
  intros H Hne. destruct (nsum_fin (map (fun wk => fst wk * snd wk) l)) as (s & Hs & Heq). exists s. split; [rewrite <- Hs, map_map; reflexivity|].
  rewrite Heq. apply sum_pos.
  - rewrite Forall_forall. intros x Hx. apply in_map_iff in Hx. destruct Hx as ([w k] & <- & Hin). destruct (H w k Hin). cbn. nra.
  - destruct l as [|[w k] l]; [congruence|]. exists (w * k). split; [left; reflexivity|]. destruct (H w k (or_introl eq_refl)). nra.
Qed.
Lemma normalise_pos raw : raw <> [] -> Forall (fun w => exists q, w = Fin q /\ 0 < q) raw ->
  exists ws, map (fun w => ndiv w (nsum raw)) raw = map Fin ws /\ length ws = length raw /\ Forall (fun x => 0 < x) ws /\ qsum ws == 1.
Proof.
  intros Hne H. assert (Hq : exists ql, raw = map Fin ql /\ Forall (fun x => 0 < x) ql).
  { clear Hne. induction H as [|w raw (q & -> & Hq) H (ql & -> & Hql)]; [exists []; split; [reflexivity | constructor]|]. exists (q :: ql). split; [reflexivity | constructor; assumption]. }
  destruct Hq as (ql & -> & Hql). assert (Hnn : Forall (fun x => 0 <= x) ql) by (rewrite Forall_forall in *; intros x Hx; specialize (Hql x Hx); lra).
  assert (Hex : exists x, In x ql /\ 0 < x). { destruct Hql as [|x l Hx]; [exfalso; apply Hne; reflexivity|]. exists x. split; [left; reflexivity | exact Hx]. }
  destruct (nsum_fin ql) as (s & Hs & Heq). pose proof (sum_pos ql Hnn Hex) as Hpos. rewrite Hs.
  exists (map (fun x => x / s) ql). split; [rewrite !map_map; apply map_ext; intros x; apply ndiv_fin; rewrite Heq; lra|]. rewrite !map_length. split; [reflexivity|]. split.
  - rewrite Forall_forall in *. intros y Hy. apply in_map_iff in Hy. destruct Hy as (x & <- & Hx). specialize (Hql x Hx). apply Qlt_shift_div_l; lra.
  - unfold qsum. rewrite sum_div by lra. rewrite <- Heq. field. lra.
Qed.
Lemma run_weights n a mgr count e us seeds es rs : Run n a mgr count e us seeds es rs -> (0 < n)%nat -> Forall (fun sd => length sd = n) seeds ->
  (forall th c, exists q, pdfv th c = Fin q /\ 0 < q) -> (forall p x y, exists q, kpdf p x y = Fin q /\ 0 < q) ->
  (forall p, mgr = Some p -> exists ws, p_w p = map Fin ws /\ Forall (fun x => 0 < x) ws) ->
  forall r, In r rs -> good_weights r.
Proof.
  intros HR Hn Hsd Hprior Hk. assert (Hiter : forall m c0 e sd r, Iter setp pdfv kupd kpdf prior simc dist dist_max choice n m c0 e sd r ->
    (forall p, m = Some p -> exists ws, p_w p = map Fin ws /\ Forall (fun x => 0 < x) ws) -> good_weights r).
  { intros m c0 e0 sd r (Hs & Hl & HF & _ & raw & Hraw & Hw) Hm. unfold good_weights. rewrite Hw.
    assert (Hlr : length raw = length (r_rows r)) by (clear - Hraw; induction Hraw; cbn; congruence). rewrite <- Hlr. apply normalise_pos.
    - destruct raw; [|discriminate]. destruct sd; [congruence|]. cbn in *. lia.
    - clear Hw Hlr Hl HF. induction Hraw as [|th w rows raw Hr Hraw IH]; constructor; [|apply IH].
      unfold RawWeight in Hr. destruct m as [p|].
      + destruct Hr as (Hlw & Hln & c & ->). destruct (Hprior th (snd (setp th c))) as (q & -> & Hq). destruct (Hm p eq_refl) as (ws & Hws & Hwp).
        cbn [nmul]. assert (Hsum : exists sq, nsum (map (fun wr => nmul (fst wr) (kpdf p (snd wr) th)) (combine (p_w p) (firstn n (p_rows p)))) = Fin sq /\ 0 < sq).
        { rewrite Hws in *. rewrite map_length in Hlw. set (rows0 := firstn n (p_rows p)).
          assert (Hr0 : length rows0 = length ws) by (unfold rows0; rewrite firstn_length; lia).
          assert (Hl2 : exists l, map (fun wr => nmul (fst wr) (kpdf p (snd wr) th)) (combine (map Fin ws) rows0) = map (fun wk => nmul (Fin (fst wk)) (Fin (snd wk))) l
                         /\ (forall w k, In (w, k) l -> 0 < w /\ 0 < k) /\ length l = length ws).
          { clearbody rows0. clear - Hr0 Hwp Hk. revert rows0 Hr0. induction Hwp as [|w ws Hw Hwp IH]; intros [|row rows0] Hr0; try discriminate; [exists []; split; [reflexivity|]; split; [intros ? ? []|reflexivity]|].
            destruct (IH rows0) as (l & A & B & C); [cbn in Hr0; lia|]. destruct (Hk p row th) as (k & Ek & Hkp). exists ((w, k) :: l). cbn [map combine fst snd]. rewrite Ek, A.
            split; [reflexivity|]. split; [intros w0 k0 [E|Hin]; [inversion E; subst; auto | apply B; exact Hin] | cbn; congruence]. }
          destruct Hl2 as (l & -> & B & C). apply nsum_pos; [exact B|]. intros ->. cbn in C. lia. }
        destruct Hsum as (sq & -> & Hsq). rewrite ndiv_fin by lra. eexists. split; [reflexivity|]. apply Qlt_shift_div_l; lra.
      + assert (Hnq : 0 < inject_Z (Z.of_nat n)) by (change 0 with (inject_Z 0); rewrite <- Zlt_Qlt; lia).
        rewrite Hr, ndiv_fin by lra. eexists. split; [reflexivity|]. apply Qlt_shift_div_l; lra. }
  intros Hm0. revert Hm0. induction HR as [mgr count e sd r HI | mgr count e u us sd sds r pc es rs HI Hpc HR IH]; intros Hm0 r0 Hin.
  - destruct Hin as [<-|[]]. eapply Hiter; eassumption.
  - inversion Hsd; subst. pose proof (Hiter _ _ _ _ _ HI Hm0) as Hg. destruct Hin as [<-|Hin]; [exact Hg|]. apply IH; [assumption| |exact Hin].
    intros p Hp. injection Hp as <-. cbn. destruct Hg as (ws & A & _ & B & _). eauto.
Qed.
End D.
