(** Proofs about PMC. *)
From Coq Require Import Reals Qreals Lra.
From Verif Require Import M_Base M_Num L_Num M_Infer S_Infer L_Infer M_PMCABC S_PMCABC L_PMCABC M_RSMCABC L_RSMCABC M_XReal M_PMC S_PMC.
Open Scope nat_scope.

Definition rsum (l : list R) : R := fold_right Rplus 0%R l.
Lemma rsign_pos x : (0 < x)%R -> rsign x = Some true.
Proof. intros H. unfold rsign. destruct (total_order_T x 0) as [[Hl | He] | Hg]; [lra | lra | reflexivity]. Qed.
Lemma rsign_neg x : (x < 0)%R -> rsign x = Some false.
Proof. intros H. unfold rsign. destruct (total_order_T x 0) as [[Hl | He] | Hg]; [reflexivity | lra | lra]. Qed.
Lemma rsign_zero : rsign 0 = None.
Proof. unfold rsign. destruct (total_order_T 0 0) as [[Hl | He] | Hg]; [lra | reflexivity | lra]. Qed.
Lemma xdiv_fin x y : y <> 0%R -> xdiv (XR x) (XR y) = XR (x / y).
Proof. intros H. cbn. destruct (Rdichotomy _ _ H) as [Hn|Hp]; [rewrite rsign_neg by exact Hn | rewrite rsign_pos by (exact Hp)]; reflexivity. Qed.
Lemma xsum_fin l : xsum (map XR l) = XR (rsum l).
Proof.
  unfold xsum. assert (H : forall a, fold_left xadd (map XR l) (XR a) = XR (a + rsum l)).
  { induction l as [|x l IH]; intros a; cbn; [f_equal; lra|]. rewrite IH. f_equal. unfold rsum. cbn. lra. }
  rewrite H. f_equal. lra.
Qed.
Lemma xmax_fin l : forall x, exists m, xmax (XR x) (map XR l) = XR m.
Proof. unfold xmax. induction l as [|y l IH]; intros x; cbn; [eauto | apply IH]. Qed.
Lemma rsum_scale l k : rsum (map (fun x => x * k) l)%R = (rsum l * k)%R.
Proof. unfold rsum. induction l as [|x l IH]; cbn; [lra | rewrite IH; lra]. Qed.
Lemma rsum_pos l : l <> [] -> Forall (fun x => 0 < x)%R l -> (0 < rsum l)%R.
Proof.
  intros Hne H. unfold rsum. induction H as [|x l Hx Hl IH]; [congruence|]. cbn. destruct l as [|y l]; [cbn; lra|]. assert (0 < fold_right Rplus 0 (y :: l))%R by (apply IH; discriminate). lra.
Qed.
(** subtracting the maximum does not matter *)
Lemma from_logs_fin ls : ls <> [] -> from_logs (map XR ls) = Ok (map (fun a => XR (exp a / rsum (map exp ls))) ls).
Proof.
  intros Hne. destruct ls as [|x l]; [congruence|]. change (map XR (x :: l)) with (XR x :: map XR l). unfold from_logs. destruct (xmax_fin l x) as [m ->]. f_equal.
  change (XR x :: map XR l) with (map XR (x :: l)). remember (x :: l) as ls. rewrite !map_map.
  assert (E : map (fun a => xexp (xsub (XR a) (XR m))) ls = map XR (map (fun a => exp a * exp (- m))%R ls)).
  { rewrite map_map. apply map_ext. intros a. cbn. rewrite exp_plus. reflexivity. }
  rewrite E, xsum_fin. replace (map (fun a => exp a * exp (- m))%R ls) with (map (fun y => y * exp (- m))%R (map exp ls)) by (rewrite map_map; reflexivity). rewrite rsum_scale.
  assert (Hs : (0 < rsum (map exp ls))%R).
  { apply rsum_pos; [subst ls; discriminate|]. apply Forall_forall. intros y Hy. apply in_map_iff in Hy. destruct Hy as (z & <- & _). apply exp_pos. }
  pose proof (exp_pos (- m)) as Hm. apply map_ext. intros a. cbn [xsub xopp xadd xexp]. rewrite exp_plus. rewrite xdiv_fin; [f_equal; field; split; apply Rgt_not_eq; assumption|]. apply Rgt_not_eq. apply Rmult_lt_0_compat; assumption.
Qed.
Lemma norm_sum l : (0 < rsum l)%R -> rsum (map (fun a => a / rsum l)%R l) = 1%R.
Proof. intros H. unfold Rdiv at 1. rewrite rsum_scale. field. apply Rgt_not_eq. exact H. Qed.

Lemma Q2R_pos q : (0 < q)%Q -> (0 < Q2R q)%R.
Proof. intros H. replace 0%R with (Q2R 0) by (unfold Q2R; cbn; lra). apply Qlt_Rlt. exact H. Qed.

Lemma mapT_F2 {A B C} (f : A -> C -> res (B * C)) (Pr : A -> B -> Prop) l c ys c' :
  (forall x c1 y c2, f x c1 = Ok (y, c2) -> Pr x y) -> mapT f l c = Ok (ys, c') -> Forall2 Pr l ys.
Proof. intros H Hm. apply mapT_ok in Hm. induction Hm as [|x y l ys (c1 & c2 & Hx) Hm IH]; constructor; eauto. Qed.

Section P.
Variables Theta Rng Y : Type.
Variable setp : Theta -> Theta -> bool * Theta.
Variable pdfv : Theta -> Theta -> num.
Variable kupd : wpop Theta -> nat -> Rng -> Rng * Theta.
Variable kpdf : wpop Theta -> Theta -> Theta -> xr.
Variable prior : Rng -> Rng * Theta.
Variable simc : Theta -> Rng -> Rng * option Y.
Variable loglik : Y -> xr.
Variable mkrng : Z -> Rng.
Variable choiceN : nat -> nat -> list xr -> Rng -> res (Rng * list nat).
Notation PIter := (PIter setp pdfv kupd kpdf simc loglik choiceN).
Notation PmRun := (PmRun setp pdfv kupd kpdf simc loglik choiceN).
Notation pm_step := (pm_step Theta Rng Y setp pdfv kupd kpdf simc loglik mkrng choiceN).
Notation pm_iterate := (pm_iterate Theta Rng Y setp pdfv kupd kpdf simc loglik mkrng choiceN).
Hypothesis Hset : set_ok setp.

Lemma log_lik_spec th seed c l c' : log_lik Theta Rng Y setp pdfv simc loglik mkrng th seed c = Ok (l, c') -> LogPost setp pdfv simc loglik th l.
Proof.
  unfold log_lik. destruct (setp th c) as [ok c1] eqn:Es. cbn [snd]. destruct (simc c1 (mkrng seed)) as [r [y|]] eqn:Ey; [|discriminate]. unfold pdf_of_prior. intros H. injection H as <- <-.
  exists c1, (mkrng seed), r, y, (snd (setp th c1)). split; [exact Ey|]. split; [|reflexivity]. destruct ok; [left; apply (proj1 Hset _ _ _ Es) | right; eauto].
Qed.
Lemma weight_spec n p th c v c' : pm_weight Theta setp pdfv kpdf n p th c = Ok (v, c') -> Ratio pdfv kpdf n p th v /\ length (wp_w p) = n /\ n <= length (wp_rows p).
Proof.
  unfold pm_weight. destruct (pdf_of_prior Theta setp pdfv th c) as [pp c1] eqn:Ep. unfold pdf_of_prior in Ep. injection Ep as <- <-.
  destruct (Nat.ltb_spec (length (wp_rows p)) n); [discriminate|]. destruct (Nat.eqb_spec (length (wp_w p)) n); [|discriminate]. cbn [negb]. intros Hx. injection Hx as <- _. split; [|auto]. exists (snd (setp th c)). reflexivity.
Qed.
Lemma step_spec n per steps full fuel t gen seed s s' : pm_step n per steps full fuel t gen seed s = Ok s' ->
  PIter n (m_pop Theta s) (m_pop Theta s') /\ m_count Theta s' = m_count Theta s + n * per /\ length (wp_rows (m_pop Theta s')) = n
  /\ m_hist Theta s' = m_hist Theta s ++ [mkwr (wp_rows (m_pop Theta s')) (wp_w (m_pop Theta s')) (m_count Theta s')]
  /\ m_recs Theta s' = m_recs Theta s ++ (if ((full =? 1) && (t <=? steps - 1)) || ((full =? 0) && (t =? steps - 1)) then [mkwr (wp_rows (m_pop Theta s')) (wp_w (m_pop Theta s')) (m_count Theta s')] else []).
Proof.
  unfold M_PMC.pm_step. set (p := m_pop Theta s). destruct (choiceN (length (wp_rows p)) n (wp_w p) gen) as [[r1 idx]|] eqn:Ec; [|discriminate]. destruct (Nat.ltb_spec (length idx) n) as [|Hidx]; [discriminate|].
  match goal with |- context [mapT ?f (firstn n idx) ?c] => destruct (mapT f (firstn n idx) c) as [[rows [c1 r2]]|] eqn:Em; [|discriminate] end.
  match goal with |- context [mapT ?f (combine rows ?l) ?c] => destruct (mapT f (combine rows l) c) as [[[|l0 ls] c2]|] eqn:Em2; [discriminate| |discriminate] end.
  destruct (mapT (M_PMC.pm_weight Theta setp pdfv kpdf n p) rows c2) as [[vs c3]|] eqn:Em3; [|discriminate].
  destruct (from_logs _) as [ws|] eqn:Ef; [|discriminate]. intros H. injection H as <-. cbn [m_pop m_count m_hist m_recs wp_rows wp_w].
  assert (H1 : Forall2 (Perturbed pdfv kupd p) (firstn n idx) rows).
  { eapply mapT_F2; [|exact Em]. intros i cr th cr' Hx. cbv beta in Hx. destruct (propose _ _ _ _ _ _ _ _ _ _ _) as [[[c r] th']|] eqn:Ep; [|discriminate]. injection Hx as <- _. apply propose_spec in Ep; [|exact Hset]. destruct Ep as (Hnz & _ & r0 & r3 & Hk). exists r0, r3, c. auto. }
  assert (Hlr : length rows = n) by (apply F2_len in H1; rewrite <- H1; apply firstn_length_le; exact Hidx).
  assert (H2 : Forall2 (fun ts l => LogPost setp pdfv simc loglik (fst ts) l) (combine rows (seeds_of seed n)) (l0 :: ls)).
  { eapply mapT_F2; [|exact Em2]. intros ts c l c' Hx. eapply log_lik_spec; exact Hx. }
  assert (H2' : Forall2 (LogPost setp pdfv simc loglik) rows (l0 :: ls)).
  { clear - H2 Hlr. assert (Hls : length (seeds_of seed n) = length rows) by (unfold seeds_of; rewrite map_length, seq_length; congruence). revert H2 Hls. generalize (seeds_of seed n). clear. generalize (l0 :: ls). clear. induction rows as [|x rows IH]; intros ls0 [|s0 sds] H2 Hls; try discriminate; inversion H2; subst; constructor; [assumption | eapply IH; [eassumption | injection Hls as Hls; exact Hls]]. }
  assert (H3 : Forall2 (fun th v => Ratio pdfv kpdf n p th v /\ length (wp_w p) = n /\ n <= length (wp_rows p)) rows vs).
  { eapply mapT_F2; [|exact Em3]. intros x c y c' Hx. eapply weight_spec; exact Hx. }
  assert (H23 : Forall2 (fun th vl => Ratio pdfv kpdf n p th (fst vl) /\ LogPost setp pdfv simc loglik th (snd vl)) rows (combine vs (l0 :: ls))).
  { clear - H2' H3. revert H2'. generalize (l0 :: ls). induction H3 as [|th v rows vs (Hv & _) H3 IH]; intros l HL; inversion HL; subst; constructor; [cbn; auto | apply IH; assumption]. }
  assert (Hw : length (wp_w p) = n /\ n <= length (wp_rows p)).
  { inversion H2'; subst. inversion H3 as [|? ? ? ? (_ & Hw)]; subst. exact Hw. }
  split.
  { unfold from_logs in Ef. destruct (map _ (combine vs (l0 :: ls))) as [|x0 xl] eqn:Elogs; [discriminate|]. injection Ef as <-.
    exists gen, r1, idx, (combine vs (l0 :: ls)), (xmax x0 xl). split; [exact Ec|]. split; [exact Hidx|]. split; [apply Hw|]. split; [apply Hw|]. split; [exact H1|]. split; [exact H23|]. cbv zeta. rewrite Elogs. split; reflexivity. }
  split; [reflexivity|]. split; [exact Hlr|]. split; [reflexivity|]. match goal with |- context [if ?b then _ else _] => destruct b end; [reflexivity | rewrite app_nil_r; reflexivity].
Qed.
Lemma iterate_spec n per steps full fuel todo gen seed : forall t s s', t + todo = steps -> pm_iterate n per steps full fuel t todo gen seed s = Ok s' ->
  exists rs, PmRun n per (m_pop Theta s) (m_count Theta s) rs /\ length rs = todo /\ m_hist Theta s' = m_hist Theta s ++ rs
  /\ m_recs Theta s' = m_recs Theta s ++ (if full =? 1 then rs else if full =? 0 then firstn 1 (rev rs) else [])
  /\ Forall (fun r => length (wr_rows r) = n) rs.
Proof.
  induction todo as [|k IH]; intros t s s' Ht H; cbn [M_PMC.pm_iterate] in H.
  - injection H as <-. exists []. split; [constructor|]. split; [reflexivity|]. split; [rewrite app_nil_r; reflexivity|]. split; [destruct (full =? 1), (full =? 0); cbn; rewrite app_nil_r; reflexivity | constructor].
  - destruct (pm_step n per steps full fuel t (gen t) (seed t) s) as [s1|] eqn:Es; [|discriminate]. apply step_spec in Es. destruct Es as (H1 & H2 & H3 & H4 & H5).
    destruct (IH (S t) s1 s' ltac:(lia) H) as (rs & R1 & R2 & R3 & R4 & R5). exists (mkwr (wp_rows (m_pop Theta s1)) (wp_w (m_pop Theta s1)) (m_count Theta s1) :: rs).
    split; [rewrite H2 in *; constructor; assumption|]. split; [cbn; congruence|]. split; [rewrite R3, H4, <- app_assoc; reflexivity|]. split; [|constructor; [exact H3 | exact R5]].
    rewrite R4, H5, <- app_assoc. f_equal. destruct (Nat.leb_spec t (steps - 1)); [|lia]. rewrite andb_true_r. destruct (full =? 1) eqn:E1; [reflexivity|]. cbn [orb]. destruct (full =? 0) eqn:E0; [|reflexivity]. cbn [andb].
    destruct (Nat.eqb_spec t (steps - 1)).
    + destruct rs; [reflexivity | cbn in R2; lia].
    + destruct rs as [|r rs]; [cbn in R2; lia|]. cbn [rev]. destruct (rev rs); reflexivity.
Qed.
End P.
