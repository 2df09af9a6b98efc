(** C94 for the r-hit kernels, second iteration. *)
From Coq Require Import Reals Lra Lia Qreals.
From Verif Require Import M_Base M_Num L_Num M_Infer L_Infer M_PMCABC M_RSMCABC M_SMCABC L_SMCABC M_XReal M_Stats L_PMC S_Stats L_Stats L_Distance L_PosDef L_Histogram S_Law P_Law L_Law P_Law3 P_Law4 S_Gen L_Gen L_Hits L_Coin L_Series P_Law5 S_Anneal L_Anneal S_Consist L_LLN L_Workers P_Consist2 S_Reweight L_Reweight P_Reweight L_Streams P_Reweight2 P_Reweight3.
Open Scope R_scope.

(** * Any kernel whose moves have known means *)
Section General.
Variables A Theta Y : Type.
Variable outs : list A.
Variable p : A -> R.
Hypothesis law : Law outs p.
Variable setp : Theta -> Theta -> bool * Theta.
Variable pdfv : Theta -> Theta -> num.
Variable kupd : pop Theta -> nat -> list A -> list A * Theta.
Variable kupdL : pop Theta -> Theta -> list A -> list A * Theta.
Variable kpdf : pop Theta -> Theta -> Theta -> num.
Variable prior : list A -> list A * Theta.
Variable simc : Theta -> list A -> list A * option Y.
Variable dist : Y -> num.
Variable dist1 : Y -> list num.
Variable bern : num -> list A -> res (list A * bool).
Variable choiceL : list nat -> list A -> res (list A * nat).
Variable uniq : list num -> nat.
Variable draw : nat -> nat -> list num -> res (list nat).
Variable dat : Theta -> A -> Y.
Variable Ts : list Theta.
Variable ef : Q.
Hypothesis set_all : forall th cur, setp th cur = (true, th).
Hypothesis sim_draw : forall th a l, simc th (a :: l) = (l, Some (dat th a)).
Variable pth : A -> Theta.
Hypothesis prior_draw : forall a l, prior (a :: l) = (l, pth a).
Hypothesis prior_in : forall a, In a outs -> In (pth a) Ts.
Variable e0 : Q.
Notation closeness := (closeness Y dist dist1 false).
Notation abc e f := (abc_mean outs p pth dat (closeness e0 e) f).
Notation supported := (supported A Theta Y outs dat Ts).
Notation first_step := (first_step A Theta Y setp pdfv kupd kupdL kpdf prior simc dist dist1 bern choiceL uniq draw).
Notation next_step := (next_step A Theta Y setp pdfv kupd kupdL kpdf prior simc dist dist1 bern choiceL uniq draw).
Notation moved_to := (moved_to A Theta Y setp pdfv kupd kupdL kpdf prior simc dist dist1 bern choiceL).
Variable kernel : nat.
Variable hits : nat.
Variable f : Theta -> Y -> R.
Variable B : R.
Hypothesis f_bound : forall th y, Rabs (f th y) <= B.
Variable mv : Q -> Theta -> Y -> R.
Hypothesis mv_level : forall e e2, (forall a b dd, In a outs -> In b outs -> In dd (dist (dat (pth a) b) :: dist1 (dat (pth a) b)) -> nlt dd (Fin e) = nlt dd (Fin e2)) ->
  forall a b, In a outs -> In b outs -> mv e (pth a) (dat (pth a) b) = mv e2 (pth a) (dat (pth a) b).
Hypothesis mv_kept : forall e, (ef <= e)%Q -> abc e (mv e) = abc e f.
Hypothesis mv_law : forall e q ys cur i th y v, (ef <= e)%Q -> supported (th, y) -> nth_error (p_rows q) i = Some th -> nth_error ys i = Some y -> nth_error (p_w q) i = Some (Fin v) -> (0 < v)%Q ->
  Un_cv (fun k => mean outs p k (fun l => value (Theta * Y) (fun z => f (fst z) (snd z)) (moved_to kernel hits (Fin e) q ys cur i k l))) (mv e th y) /\
  Un_cv (fun k => mean outs p k (fun l => if there (Theta * Y) (moved_to kernel hits (Fin e) q ys cur i k l) then 1 else 0)) 1.

Lemma second_law : forall d, 0 < d -> 0 < expect outs p (fun a => expect outs p (fun b => closeness e0 ef (dat (pth a) b))) ->
  exists C, forall bernton kernel0 hits0 n steps alpha ef0 resample0 full s alpha' resample aStep, (0 < n)%nat -> fresh Theta Y s e0 -> (0 < resample)%Q ->
  forall eta, 0 < eta -> exists K1, forall k1, (K1 <= k1)%nat -> exists K2, forall k2, (K2 <= k2)%nat ->
    mean outs p (n * k1) (fun l => match first_step bernton kernel0 hits0 n steps alpha ef0 resample0 full s k1 l with
      | Ok s1 => gens outs p n k2 (fun ls =>
          if match next_weights Theta Y dist1 uniq false n alpha' ef s1 with
             | Some (e', _, nw) => negb (nlt (ess nw) (Fin resample)) && match next_step kernel hits n steps alpha' ef resample full aStep s1 k2 ls with
                 | Ok s2 => off d (weighted_num (fun z => f (fst z) (snd z)) (particles Theta Y s2) (m_w _ _ s2)) (abc e' f)
                 | Err _ => true
                 end
             | None => true
             end then 1 else 0)
      | Err _ => 1
      end) <= C / INR n + 16 * B ^ 2 / (Q2R resample * d ^ 2) + eta.
Proof.
  intros d Hd Hpos.
  destruct (reweighted_law A Theta Y outs p law setp pdfv kupd kupdL kpdf prior simc dist dist1 bern choiceL uniq draw pth dat prior_draw sim_draw false mv e0 ef (d / 2) mv_level ltac:(lra) Hpos) as (C & HC).
  exists C. intros bernton kernel0 hits0 n steps alpha ef0 resample0 full s alpha' resample aStep Hn Hs Hr eta Heta.
  destruct (HC bernton kernel0 hits0 n steps alpha ef0 resample0 full s alpha' Hn Hs) as (v & Hv & Hle). clear HC.
  set (bad1 := fun k1 l => match first_step bernton kernel0 hits0 n steps alpha ef0 resample0 full s k1 l with
    | Ok s' => match next_weights Theta Y dist1 uniq false n alpha' ef s' with Some (e', zs, nw) => off (d / 2) (weighted_num (fun z => mv e' (fst z) (snd z)) zs nw) (abc e' (mv e')) | None => true end | Err _ => true end).
  destruct (Hv (eta / 2) ltac:(lra)) as (K0 & HK0). exists (K0 + 2)%nat. intros k1 Hk1. specialize (HK0 k1 ltac:(lia)). change (R_dist (prob outs p (n * k1) (bad1 k1)) v < eta / 2) in HK0.
  unfold R_dist in HK0. apply Rabs_def2 in HK0. set (bound := 16 * B ^ 2 / (Q2R resample * d ^ 2)).
  assert (R0 : 0 < Q2R resample) by (apply Q2R_pos, Hr). assert (D2 : 0 < d ^ 2) by (apply pow_lt, Hd).
  assert (Bn : 0 <= bound) by (unfold bound, Rdiv; apply Rmult_le_pos; [pose proof (pow2_ge_0 B); lra|left; apply Rinv_0_lt_compat, Rmult_lt_0_compat; assumption]).
  match goal with |- exists K2, forall k2, _ -> mean _ _ _ (@?F k2) <= _ => destruct (eventually_mean A outs p law (n * k1) F (fun l => (if bad1 k1 l then 1 else 0) + (bound + eta / 2))) as (K2 & HK2) end.
  - intros l Hl Hin. destruct (first_facts A Theta Y outs setp pdfv kupd kupdL kpdf prior simc dist dist1 bern choiceL uniq draw dat Ts sim_draw pth prior_draw prior_in bernton kernel0 hits0 n steps alpha ef0 resample0 full s k1 l e0 Hn ltac:(lia) Hs Hl Hin) as (s1 & zs & Es & Lz & Sz & Er & Ey & Ed & Ew & Ee). rewrite Es.
    destruct (reweighted Theta Y dist dist1 uniq false n alpha' ef e0 zs Lz Hn) as (e' & nw & Erw & Hef & c & q & Hc & Enw & Hq).
    assert (Enext : next_weights Theta Y dist1 uniq false n alpha' ef s1 = Some (e', zs, nw)).
    { unfold next_weights. rewrite Er, Ey, Ed, Ew, Ee. destruct Hs as (_ & _ & _ & E4 & _). rewrite E4, Erw, combine_map. rewrite (map_ext _ (fun z => z)), map_id by (intros []; reflexivity). reflexivity. }
    rewrite Enext. assert (One : forall k2 (b : list (list A) -> bool), gens outs p n k2 (fun ls => if b ls then 1 else 0) <= 1) by (intros k2 b; eapply Rle_trans; [apply (gens_le A outs p law k2 n _ (fun _ => 1)); intros ls _; destruct (b ls); lra|]; rewrite (gens_const A outs p law); lra).
    destruct (bad1 k1 l) eqn:Eb; [exists 0%nat; intros k2 _; eapply Rle_trans; [apply One|lra]|]. unfold bad1 in Eb. rewrite Es, Enext in Eb.
    destruct (nlt (ess nw) (Fin resample)) eqn:En; [exists 0%nat; intros k2 _; cbn [negb andb]; rewrite (gens_const A outs p law); lra|]. cbn [negb andb].
    assert (Fw : exists qs, nw = map Fin qs /\ Forall (fun x => (0 <= x)%Q) qs).
    { pose proof Eb as Eb'. rewrite Enw, (off_wrong _ zs q (fun z => closeness e0 e' (snd z)) c) in Eb'; [|destruct zs; [cbn in Lz; lia|discriminate]|exact Hc|intros z _; split; [apply close_range|apply Hq]]. unfold wrong in Eb'. destruct (Rlt_dec 0 (total (map (fun z => closeness e0 e' (snd z)) zs))) as [P|]; [|discriminate].
      assert (Nn : Forall (fun x => (0 <= x)%Q) (map q zs)) by (apply Forall_map, Forall_forall; intros z _; apply Rle_Qle; rewrite Hq; replace (Q2R 0) with 0 by (unfold Q2R; cbn; lra); apply Rmult_le_pos; [lra|apply close_range]).
      destruct (normalise_fin (map q zs) Nn) as (ws & H1 & _ & H2 & _).
      - destruct (Exists_dec (fun z => (0 < q z)%Q) zs) as [X|X]; [intros z; destruct (Qlt_le_dec 0 (q z)) as [Y0|Y0]; [left; exact Y0|right; apply Qle_not_lt, Y0]| |].
        + apply Exists_exists in X. destruct X as (z & Hz & X). exists (q z). split; [apply in_map, Hz|exact X].
        + exfalso. assert (T0 : total (map (fun z => closeness e0 e' (snd z)) zs) <= 0); [|lra]. rewrite (total_ext _ (fun z => 0 * c)); [rewrite total_scale; lra|]. intros z Hz. destruct (Qlt_le_dec 0 (q z)) as [Y0|Y0]; [exfalso; apply X, Exists_exists; exists z; split; assumption|]. apply Qle_Rle in Y0. rewrite Hq in Y0. replace (Q2R 0) with 0 in Y0 by (unfold Q2R; cbn; lra). pose proof (close_range Y dist dist1 false e0 e' (snd z)). nra.
      - exists ws. split; [rewrite Enw; unfold normalise; rewrite <- (map_map q Fin); exact H1|exact H2]. }
    destruct Fw as (qs & -> & Hqs).
    assert (Wm : exists m, weighted_num (fun z => mv e' (fst z) (snd z)) zs (map Fin qs) = Some m).
    { unfold weighted_num. replace (forallb _ (map Fin qs)) with true by (clear; induction qs as [|x qs IH]; [reflexivity|exact IH]). eexists. reflexivity. }
    destruct Wm as (m & Hm).
    assert (HB : 0 <= B) by (destruct zs as [|z ?]; [cbn in Lz; lia|apply Rle_trans with (Rabs (f (fst z) (snd z))); [apply Rabs_pos|apply f_bound]]).
    destruct (population A Theta Y outs p law setp pdfv kupd kupdL kpdf prior simc dist dist1 bern choiceL uniq draw set_all kernel hits n steps alpha' ef resample full aStep s1 e' zs qs (fun z => f (fst z) (snd z)) B (fun z => mv e' (fst z) (snd z)) m (d / 2) (eta / 2) Hn) as (K & HK);
      [split; [exists (map fst zs), (map snd zs), (map dist (map snd zs)); rewrite !map_length; split; [exact Er|]; split; [exact Ey|]; split; [exact Ed|]; split; exact Lz|rewrite Ee; apply Hs]|exact Enext|exact Hqs|exact Hr|exact En|exact HB|intros z; apply f_bound| |exact Hm|lra|lra|].
    { intros i [th y] x Ez Eq Hp. pose proof (map_nth_error fst _ _ Ez) as E1. pose proof (map_nth_error snd _ _ Ez) as E2. rewrite Forall_forall in Sz.
      exact (mv_law e' (mkpop (map fst zs) (map Fin qs)) (map snd zs) (m_cur _ _ s1) i th y x Hef (Sz _ (nth_error_In _ _ Ez)) E1 E2 (map_nth_error Fin _ _ Eq) Hp). }
    exists K. intros k2 Hk2. specialize (HK k2 Hk2). replace (4 * B ^ 2 / (Q2R resample * (d / 2) ^ 2)) with bound in HK by (unfold bound; field; lra).
    rewrite Rplus_0_l. eapply Rle_trans; [|exact HK]. apply (gens_le A outs p law). intros ls _. rewrite Hm in Eb. cbn [off] in Eb. rewrite (mv_kept e' Hef) in Eb. unfold far in Eb. destruct (Rlt_dec (d / 2) (Rabs (m - abc e' f))) as [|Near]; [discriminate|].
    destruct (next_step kernel hits n steps alpha' ef resample full aStep s1 k2 ls) as [s2|]; [|lra]. destruct (weighted_num _ (particles Theta Y s2) _) as [x|]; [|cbn; lra]. cbn [off]. unfold far. destruct (Rlt_dec d (Rabs (x - abc e' f))) as [Far|]; [|destruct (Rlt_dec (d / 2) (Rabs (x - m))); lra].
    destruct (Rlt_dec (d / 2) (Rabs (x - m))) as [|Close]; [lra|]. exfalso. pose proof (Rabs_triang (x - m) (m - abc e' f)) as T. replace (x - m + (m - abc e' f)) with (x - abc e' f) in T by ring. lra.
  - exists K2. intros k2 Hk2. eapply Rle_trans; [apply (HK2 k2 Hk2)|]. rewrite (mean_plus _ outs p), (mean_const _ outs p law), <- (prob_mean A outs p). lra.
Qed.
End General.

(** * The r-hit kernels *)
Section Hits.
Variables A Theta Y : Type.
Variable teq : forall x y : Theta, {x = y} + {x <> y}.
Variable outs : list A.
Variable p : A -> R.
Hypothesis law : Law outs p.
Variable setp : Theta -> Theta -> bool * Theta.
Variable pdfv : Theta -> Theta -> num.
Variable kupd : pop Theta -> nat -> list A -> list A * Theta.
Variable kupdL : pop Theta -> Theta -> list A -> list A * Theta.
Variable kpdf : pop Theta -> Theta -> Theta -> num.
Variable prior : list A -> list A * Theta.
Variable simc : Theta -> list A -> list A * option Y.
Variable dist : Y -> num.
Variable bern : num -> list A -> res (list A * bool).
Variable choiceL : list nat -> list A -> res (list A * nat).
Variable uniq : list num -> nat.
Variable draw : nat -> nat -> list num -> res (list nat).
(** first and final threshold; r - 2 *)
Variables e0 ef : Q.
Variable w0 : nat.
Notation r := (S (S w0)).
Variable pi : Theta -> Q.
Variable kern : Theta -> Theta -> Q.
Variable pts : list Theta.
Variable datas : list Y.
Variable lik : Theta -> Y -> R.
Variable dat : Theta -> A -> Y.
Variable pth : A -> Theta.
Hypothesis set_all : forall th cur, setp th cur = (true, th).
Hypothesis density : forall th cur, pdfv th cur = Fin (pi th).
Hypothesis density_nonneg : forall th, (0 <= pi th)%Q.
Notation Ts := (filter (inside Theta pi) pts).
Hypothesis Ts_distinct : NoDup Ts.
Hypothesis kern_law : forall th, Law pts (fun x => Q2R (kern th x)).
Hypothesis data_law : forall th, Law datas (lik th).
Hypothesis sim_law : forall th, In th Ts -> Produces outs p (simulate A Theta Y simc th) datas (lik th).
Hypothesis coin : forall v, (0 <= v <= 1)%Q -> Produces outs p (fun _ l => bern (Fin v) l) [true; false] (fun b => if b then Q2R v else 1 - Q2R v).
Hypothesis pick : forall L, length L = S w0 -> Produces outs p (fun _ l => choiceL L l) L (fun _ => / INR (S w0)).
(** one draw gives the parameters, one the data; [lik] is the law of the data, and all [datas] can occur *)
Hypothesis sim_draw : forall th a l, simc th (a :: l) = (l, Some (dat th a)).
Hypothesis data_draw : forall th G, In th Ts -> expect datas (lik th) G = expect outs p (fun b => G (dat th b)).
Hypothesis data_all : forall y, In y datas -> exists th b, In th Ts /\ In b outs /\ y = dat th b.
Hypothesis prior_draw : forall a l, prior (a :: l) = (l, pth a).
Hypothesis prior_in : forall a, In a outs -> In (pth a) Ts.
Hypothesis prior_law : forall th, In th Ts -> chance outs p (fun a => if teq (pth a) th then true else false) = Q2R (pi th).
Notation h e := (h Theta Y dist (Fin e) datas lik).
Notation inner := (P_Law5.inner Theta pi kern pts).
Hypothesis h_final : forall th, In th Ts -> 0 < h ef th.
Hypothesis inner_pos : forall th, In th Ts -> 0 < inner th.
(** at the first threshold every data set is close *)
Hypothesis all_below : forall th b, In th Ts -> In b outs -> nlt (dist (dat th b)) (Fin e0) = true.
(** one distance per data set *)
Notation dist1 := (fun y : Y => [dist y]).
Notation drawn := (drawn A Theta outs p kupd kupdL kpdf pi kern pts).
Notation posterior e := (posterior Theta Y dist (Fin e) pi pts datas lik).
Notation close_mean e := (close_mean Theta Y dist (Fin e) datas lik).
Notation closeness := (closeness Y dist dist1 false).
Notation abc e f := (abc_mean outs p pth dat (closeness e0 e) f).
Notation first_step := (first_step A Theta Y setp pdfv kupd kupdL kpdf prior simc dist dist1 bern choiceL uniq draw).
Notation next_step := (next_step A Theta Y setp pdfv kupd kupdL kpdf prior simc dist dist1 bern choiceL uniq draw).
Notation reach e := (reach Theta Y dist (Fin e) pi kern pts datas lik).
Notation a1 e := (acc1 Theta Y dist (Fin e) w0 pi kern datas lik data_law).
Notation a1m e := (acc1m Theta Y dist (Fin e) w0 pi kern datas lik data_law).
Notation a2 e := (acc2 Theta Y dist (Fin e) w0 pi kern pts datas lik kern_law data_law).
Notation a2n e := (acc2n Theta Y dist (Fin e) w0 pi kern pts datas lik kern_law data_law).

Lemma nlt_mono d e e2 : (e <= e2)%Q -> nlt d (Fin e) = true -> nlt d (Fin e2) = true.
Proof.
  intros H. destruct d as [q| | |]; cbn [nlt]; try (intros; assumption || discriminate). rewrite !negb_true_iff. intros X. destruct (Qle_bool e2 q) eqn:E; [|reflexivity]. apply Qle_bool_iff in E. assert (Z : Qle_bool e q = true) by (apply Qle_bool_iff; apply Qle_trans with e2; assumption). congruence.
Qed.
Lemma h_pos e : (ef <= e)%Q -> forall th, In th Ts -> 0 < h e th.
Proof.
  intros He th Hth. apply Rlt_le_trans with (h ef th); [apply h_final, Hth|]. unfold P_Law5.h, chance. apply (expect_le _ _ _ (data_law th)). intros y _. unfold near. destruct (nlt (dist y) (Fin ef)) eqn:E; [rewrite (nlt_mono _ _ _ He E); lra|destruct (nlt (dist y) (Fin e)); lra].
Qed.
(** thresholds with the same close data *)
Definition same (e e2 : Q) : Prop := forall y, In y datas -> nlt (dist y) (Fin e) = nlt (dist y) (Fin e2).
Lemma prior_reaches th : In th Ts -> exists a, In a outs /\ pth a = th.
Proof.
  intros Hth. assert (P : 0 < chance outs p (fun a => if teq (pth a) th then true else false)) by (rewrite (prior_law th Hth); apply (prior_pos Theta pi pts density_nonneg), Hth).
  destruct (in_dec teq th (map pth outs)) as [I|I]; [apply in_map_iff in I; destruct I as (a0 & E & I); exists a0; split; assumption|]. exfalso. unfold chance in P. rewrite (expect_ext _ _ _ _ (fun _ => 0)) in P; [rewrite (expect_const _ _ _ _ law) in P; lra|].
  intros a0 Ha0. destruct (teq (pth a0) th) as [E|]; [|reflexivity]. exfalso. apply I, in_map_iff. exists a0. split; assumption.
Qed.
Lemma same_of e e2 : (forall a b dd, In a outs -> In b outs -> In dd (dist (dat (pth a) b) :: dist1 (dat (pth a) b)) -> nlt dd (Fin e) = nlt dd (Fin e2)) -> same e e2.
Proof.
  intros H y Hy. destruct (data_all y Hy) as (th & b & Hth & Hb & ->). destruct (prior_reaches th Hth) as (a & Ha & <-). apply (H a b); [exact Ha|exact Hb|left; reflexivity].
Qed.
Lemma same_h e e2 th : same e e2 -> h e th = h e2 th.
Proof. intros H. unfold P_Law5.h, chance. apply expect_ext. intros y Hy. unfold near. rewrite (H y Hy). reflexivity. Qed.
Lemma same_mean e e2 f th : same e e2 -> close_mean e f th = close_mean e2 f th.
Proof. intros H. unfold P_Law5.close_mean. rewrite (same_h e e2 th H). f_equal. apply expect_ext. intros y Hy. unfold near. rewrite (H y Hy). reflexivity. Qed.
Lemma same_reach e e2 th : same e e2 -> reach e th = reach e2 th.
Proof. intros H. unfold P_Law5.reach. apply total_ext. intros x _. rewrite (same_h e e2 x H). reflexivity. Qed.
Lemma waits_rate {X} (items : list X) wt (L : Law items wt) (c1 c2 : X -> bool) : rate X items wt c1 = rate X items wt c2 -> forall n v, waits X items wt c1 v n = waits X items wt c2 v n.
Proof.
  intros E. induction n as [|n IH]; intros [|v]; try reflexivity.
  rewrite !(waits_S X items wt L), E, !IH. reflexivity.
Qed.
Lemma same_a1m e e2 th th' m : same e e2 -> a1m e th th' m = a1m e2 th th' m.
Proof.
  intros H. unfold acc1m. refine (UL_sequence _ _ _ (proj1 (proj2_sig (inner1 Theta Y dist (Fin e) w0 pi kern datas lik data_law th th' m))) _).
  refine (cv_ext _ _ _ _ (proj1 (proj2_sig (inner1 Theta Y dist (Fin e2) w0 pi kern datas lik data_law th th' m)))). intros N. apply sum_eq. intros n _. f_equal.
  apply (waits_rate _ _ (law1 Theta Y datas lik data_law th')). rewrite !rate1. symmetry. apply same_h, H.
Qed.
Lemma same_a1 e e2 th th' : same e e2 -> a1 e th th' = a1 e2 th th'.
Proof.
  intros H. unfold acc1. refine (UL_sequence _ _ _ (proj1 (proj2_sig (outer1 Theta Y dist (Fin e) w0 pi kern datas lik data_law th th'))) _).
  refine (cv_ext _ _ _ _ (proj1 (proj2_sig (outer1 Theta Y dist (Fin e2) w0 pi kern datas lik data_law th th')))). intros N. apply sum_eq. intros n _. rewrite (same_a1m e e2 th th' n H). f_equal.
  apply (waits_rate _ _ (law1 Theta Y datas lik data_law th)). rewrite !rate1. symmetry. apply same_h, H.
Qed.
Lemma same_a2n e e2 th th' n : In th' Ts -> same e e2 -> a2n e th th' n = a2n e2 th th' n.
Proof.
  intros Hth' H. refine (UL_sequence _ _ _ (acc2n_cv Theta Y dist (Fin e) w0 pi kern pts datas lik kern_law data_law inner_pos th th' n Hth') _).
  refine (cv_ext _ _ _ _ (acc2n_cv Theta Y dist (Fin e2) w0 pi kern pts datas lik kern_law data_law inner_pos th th' n Hth')). intros N. apply sum_eq. intros m _. f_equal.
  apply (waits_rate _ _ (law2 Theta Y pi kern pts datas lik kern_law data_law inner_pos th' Hth')). rewrite !rate2. symmetry. apply same_reach, H.
Qed.
Lemma same_a2 e e2 th th' : In th Ts -> In th' Ts -> same e e2 -> a2 e th th' = a2 e2 th th'.
Proof.
  intros Hth Hth' H. refine (UL_sequence _ _ _ (acc2_cv Theta Y dist (Fin e) w0 pi kern pts datas lik kern_law data_law inner_pos th th' Hth) _).
  refine (cv_ext _ _ _ _ (acc2_cv Theta Y dist (Fin e2) w0 pi kern pts datas lik kern_law data_law inner_pos th th' Hth)). intros N. apply sum_eq. intros n _. rewrite (same_a2n e e2 th th' n Hth' H). f_equal.
  apply (waits_rate _ _ (law2 Theta Y pi kern pts datas lik kern_law data_law inner_pos th Hth)). rewrite !rate2. symmetry. apply same_reach, H.
Qed.
Definition mv1 (e : Q) (g : Theta -> Y -> R) (th : Theta) (y : Y) : R := total (map (fun th' => Q2R (kern th th') / inner th * (a1 e th th' * close_mean e g th' + (1 - a1 e th th') * g th y)) Ts).
Definition mv2 (e : Q) (g : Theta -> Y -> R) (th : Theta) (y : Y) : R := total (map (fun th' => Q2R (kern th th') / inner th * h e th' / reach e th * (a2 e th th' * close_mean e g th' + (1 - a2 e th th') * g th y)) Ts).
Lemma mv1_level g e e2 : same e e2 -> forall th y, mv1 e g th y = mv1 e2 g th y.
Proof. intros H th y. unfold mv1. apply total_ext. intros th' _. rewrite (same_a1 e e2 th th' H), (same_mean e e2 g th' H). reflexivity. Qed.
Lemma mv2_level g e e2 : same e e2 -> forall th y, In th Ts -> mv2 e g th y = mv2 e2 g th y.
Proof. intros H th y Hth. unfold mv2. apply total_ext. intros th' Hth'. rewrite (same_a2 e e2 th th' Hth Hth' H), (same_mean e e2 g th' H), (same_h e e2 th' H), (same_reach e e2 th H). reflexivity. Qed.
Lemma abc_posterior e F : expect outs p (fun a => expect outs p (fun b => closeness e0 e (dat (pth a) b) * F (pth a) (dat (pth a) b))) = posterior e (fun _ => 1) F.
Proof.
  pose (G := fun th => expect outs p (fun b => closeness e0 e (dat th b) * F th (dat th b))). change (expect outs p (fun a => G (pth a)) = posterior e (fun _ => 1) F).
  rewrite (group outs p teq Ts pth G Ts_distinct (fun a Ha => or_introl (prior_in a Ha))). unfold P_Law5.posterior. apply total_ext. intros th Hth. rewrite (prior_law th Hth), (data_draw th _ Hth). unfold G.
  rewrite (expect_ext _ _ _ _ (fun b => if near Y dist (Fin e) (dat th b) then F th (dat th b) else 0)); [ring|]. intros b Hb. unfold P_Reweight.closeness, share, below, near. cbn [filter]. rewrite (all_below th b Hth Hb). cbn [length Nat.eqb]. destruct (nlt (dist (dat th b)) (Fin e)); cbn [length INR]; field.
Qed.
Lemma abc_kept e F f : posterior e (fun _ => 1) F = posterior e (fun _ => 1) f -> abc e F = abc e f.
Proof. intros H. unfold abc_mean. rewrite (abc_posterior e F), (abc_posterior e f), H. reflexivity. Qed.

(** C94 (second iteration, r-hit kernels 1 and 2): one simulated data set per particle.  As for the default kernel: the first iteration draws from the prior, the second reweights and, without resampling, moves; averages with the recorded weights
    approach the mean under the prior weighted by closeness at the second threshold, if perturbations of all parameters stay inside the prior equally often. *)
Theorem C94_second_hits : forall kernel (f : Theta -> Y -> R) B d ms, kernel = 1%nat \/ kernel = 2%nat -> (forall th y, Rabs (f th y) <= B) -> 0 < d -> (forall th, In th Ts -> inner th = ms) ->
  (forall q i th, nth_error (p_rows q) i = Some th -> drawn q i th) ->
  exists C, forall bernton kernel0 hits0 n steps alpha ef0 resample0 full s alpha' resample aStep, (0 < n)%nat -> fresh Theta Y s e0 -> (0 < resample)%Q ->
  forall eta, 0 < eta -> exists K1, forall k1, (K1 <= k1)%nat -> exists K2, forall k2, (K2 <= k2)%nat ->
    mean outs p (n * k1) (fun l => match first_step bernton kernel0 hits0 n steps alpha ef0 resample0 full s k1 l with
      | Ok s1 => gens outs p n k2 (fun ls =>
          if match next_weights Theta Y dist1 uniq false n alpha' ef s1 with
             | Some (e', _, nw) => negb (nlt (ess nw) (Fin resample)) && match next_step kernel r n steps alpha' ef resample full aStep s1 k2 ls with
                 | Ok s2 => off d (weighted_num (fun z => f (fst z) (snd z)) (particles Theta Y s2) (m_w _ _ s2)) (abc e' f)
                 | Err _ => true
                 end
             | None => true
             end then 1 else 0)
      | Err _ => 1
      end) <= C / INR n + 16 * B ^ 2 / (Q2R resample * d ^ 2) + eta.
Proof.
  intros kernel f B d ms Hk Hf Hd Hms Hall.
  assert (Hpos : 0 < expect outs p (fun a => expect outs p (fun b => closeness e0 ef (dat (pth a) b)))).
  { destruct outs as [|a0 l0] eqn:Eo; [exfalso; destruct law as [_ L]; cbn in L; lra|]. rewrite <- Eo in *.
    rewrite (expect_ext _ _ _ _ (fun a => expect outs p (fun b => closeness e0 ef (dat (pth a) b) * 1))) by (intros a _; apply expect_ext; intros; ring). rewrite (abc_posterior ef (fun _ _ => 1)). unfold P_Law5.posterior.
    assert (Hin : In (pth a0) Ts) by (apply prior_in; rewrite Eo; left; reflexivity).
    assert (Each : forall th, In th Ts -> 0 < Q2R (pi th) * 1 * expect datas (lik th) (fun y => if near Y dist (Fin ef) y then 1 else 0)) by (intros th Hth; rewrite Rmult_1_r; apply Rmult_lt_0_compat; [apply (prior_pos Theta pi pts density_nonneg), Hth|exact (h_final th Hth)]).
    clear - Hin Each. revert Hin Each. generalize (pth a0). intros t. generalize Ts. intros L Hin Each. apply Rlt_le_trans with (Q2R (pi t) * 1 * expect datas (lik t) (fun y => if near Y dist (Fin ef) y then 1 else 0)); [apply Each, Hin|].
    induction L as [|x L IH]; [destruct Hin|]. cbn [map]. rewrite total_cons. assert (N : 0 <= total (map (fun th => Q2R (pi th) * 1 * expect datas (lik th) (fun y => if near Y dist (Fin ef) y then 1 else 0)) L)).
    { clear - Each. induction L as [|z L IH]; [cbn; lra|]. cbn [map]. rewrite total_cons. pose proof (Each z (or_intror (or_introl eq_refl))). specialize (IH (fun th H => Each th (match H with or_introl e => or_introl e | or_intror H' => or_intror (or_intror H') end))). lra. }
    destruct Hin as [->|Hin]; [lra|]. specialize (IH Hin (fun th H => Each th (or_intror H))). pose proof (Each x (or_introl eq_refl)). lra. }
  assert (L : exists mv : Q -> (Theta -> Y -> R) -> Theta -> Y -> R,
    (forall g e e2, same e e2 -> forall th y, In th Ts -> mv e g th y = mv e2 g th y) /\
    (forall e, (ef <= e)%Q -> posterior e (fun _ => 1) (mv e f) = posterior e (fun _ => 1) f) /\
    (forall e th y, (ef <= e)%Q -> In th Ts -> mv e (fun _ _ => 1) th y = 1) /\
    forall e q ys idx th y cur g B, (ef <= e)%Q -> In th Ts -> drawn q idx th -> nth_error ys idx = Some y -> (forall th y, Rabs (g th y) <= B) ->
      Tends outs p (fun fuel l => match (match kernel with 0 => Err IndexError
          | 1 => move1 Theta (list A) Y setp pdfv kupd kpdf simc dist bern choiceL r (Fin e) q (Some ys) fuel idx th cur l
          | _ => move2 Theta (list A) Y setp pdfv kupd kupdL kpdf simc dist bern choiceL r (Fin e) q (Some ys) fuel idx th cur l end) with Ok (th', y', _, _) => g th' y' | Err _ => 0 end) (mv e g th y)).
  { destruct Hk as [-> | ->].
    - exists mv1. split; [intros g e e2 H th y _; apply mv1_level, H|]. split; [|split].
      + intros e He. destruct (law_acc1 A Theta Y outs p law setp pdfv kupd kupdL kpdf simc dist bern choiceL (Fin e) w0 pi kern pts datas lik set_all density density_nonneg kern_law data_law sim_law coin pick (h_pos e He) inner_pos) as (_ & _ & Hb & _).
        apply (same_inner Theta Y dist (Fin e) pi kern pts datas lik inner_pos ms _ f Hms). refine (P_Law5.kept Theta Y dist (Fin e) pi pts datas lik (h_pos e He) inner (fun th th' => Q2R (kern th th') / inner th) (a1 e) f (P_Law5.inner_sum Theta pi kern pts inner_pos) _).
        intros th th' H H'. specialize (Hb th th' H H'). pose proof (inner_pos th H). pose proof (inner_pos th' H'). transitivity (Q2R (pi th) * h e th * Q2R (kern th th') * a1 e th th'); [field; lra|]. rewrite Hb. field. lra.
      + intros e th y He Hth. exact (mix_one Theta Y dist e pi pts datas lik (h_pos e He) (fun th th' => Q2R (kern th th') / inner th) (a1 e) th (P_Law5.inner_sum Theta pi kern pts inner_pos th Hth)).
      + intros e q ys idx th y cur g B' He. destruct (law_acc1 A Theta Y outs p law setp pdfv kupd kupdL kpdf simc dist bern choiceL (Fin e) w0 pi kern pts datas lik set_all density density_nonneg kern_law data_law sim_law coin pick (h_pos e He) inner_pos) as (_ & _ & _ & Ht). apply Ht.
    - exists mv2. split; [exact mv2_level|]. split; [|split].
      + intros e He. destruct (law_acc2 A Theta Y outs p law setp pdfv kupd kupdL kpdf simc dist bern choiceL (Fin e) w0 pi kern pts datas lik set_all density density_nonneg kern_law data_law sim_law coin pick (h_pos e He) inner_pos) as (_ & _ & Hb & _).
        apply (same_inner Theta Y dist (Fin e) pi kern pts datas lik inner_pos ms _ f Hms). refine (P_Law5.kept Theta Y dist (Fin e) pi pts datas lik (h_pos e He) inner (fun th th' => Q2R (kern th th') / inner th * h e th' / reach e th) (a2 e) f (reach_sum Theta Y dist (Fin e) pi kern pts datas lik kern_law (h_pos e He) inner_pos) _).
        intros th th' H H'. specialize (Hb th th' H H'). pose proof (inner_pos th H). pose proof (inner_pos th' H'). pose proof (reach_pos Theta Y dist (Fin e) pi kern pts datas lik kern_law (h_pos e He) inner_pos th H). pose proof (reach_pos Theta Y dist (Fin e) pi kern pts datas lik kern_law (h_pos e He) inner_pos th' H').
        transitivity (Q2R (pi th) * h e th * (Q2R (kern th th') * h e th' / reach e th) * a2 e th th'); [field; lra|]. rewrite Hb. field. lra.
      + intros e th y He Hth. exact (mix_one Theta Y dist e pi pts datas lik (h_pos e He) (fun th th' => Q2R (kern th th') / inner th * h e th' / reach e th) (a2 e) th (reach_sum Theta Y dist (Fin e) pi kern pts datas lik kern_law (h_pos e He) inner_pos th Hth)).
      + intros e q ys idx th y cur g B' He. destruct (law_acc2 A Theta Y outs p law setp pdfv kupd kupdL kpdf simc dist bern choiceL (Fin e) w0 pi kern pts datas lik set_all density density_nonneg kern_law data_law sim_law coin pick (h_pos e He) inner_pos) as (_ & _ & _ & Ht). apply Ht. }
  destruct L as (mv & Hlev & Hkept & Hone & Ht).
  refine (second_law A Theta Y outs p law setp pdfv kupd kupdL kpdf prior simc dist dist1 bern choiceL uniq draw dat Ts ef set_all sim_draw pth prior_draw prior_in e0 kernel r f B Hf (fun e => mv e f) _ (fun e He => abc_kept e _ f (Hkept e He)) _ d Hd Hpos).
  - intros e e2 H a b Ha Hb. apply Hlev; [apply same_of, H|apply prior_in, Ha].
  - intros e q ys cur i th y v He (Hth & _) E1 E2 Ew Hv. cbn [fst] in Hth.
    assert (L : forall g B', (forall th y, Rabs (g th y) <= B') -> Un_cv (fun k => mean outs p k (fun l => match moved_to A Theta Y setp pdfv kupd kupdL kpdf prior simc dist dist1 bern choiceL kernel r (Fin e) q ys cur i k l with Some (th', y') => g th' y' | None => 0 end)) (mv e g th y)).
    { intros g B' Hg. refine (cv_ext _ _ _ _ (tends_cv A outs p _ _ (Ht e q ys i th y cur g B' He Hth (Hall q i th E1) E2 Hg))).
      intros k. apply mean_ext. intros l _. unfold moved_to, sm_accept. cbn [fst snd]. rewrite Ew, E1. cbn [nlt]. assert (Z : Qle_bool v 0 = false) by (destruct (Qle_bool v 0) eqn:X; [apply Qle_bool_iff in X; exfalso; apply (Qlt_irrefl 0), Qlt_le_trans with v; assumption|reflexivity]). rewrite Z. cbn [negb].
      destruct Hk as [-> | ->]; [destruct (move1 _ _ _ _ _ _ _ _ _ _ _ _ _ _ _ _ _ _ _ _) as [[[[th' y'] cnt] c']|]|destruct (move2 _ _ _ _ _ _ _ _ _ _ _ _ _ _ _ _ _ _ _ _ _) as [[[[th' y'] cnt] c']|]]; reflexivity. }
    split.
    + refine (cv_ext _ _ _ _ (L f B Hf)). intros k. apply mean_ext. intros l _. destruct (moved_to _ _ _ _ _ _ _ _ _ _ _ _ _ _ _ _ _ _ _ _ _ _ _) as [[th' y']|]; reflexivity.
    + pose proof (L (fun _ _ => 1) 1 ltac:(intros; cbv beta; rewrite Rabs_R1; lra)) as L1. rewrite (Hone e th y He Hth) in L1. refine (cv_ext _ _ _ _ L1). intros k. apply mean_ext. intros l _. destruct (moved_to _ _ _ _ _ _ _ _ _ _ _ _ _ _ _ _ _ _ _ _ _ _ _) as [[th' y']|]; reflexivity.
Qed.
End Hits.
Print Assumptions C94_second_hits.

(** Case: the circle of three parameters of P_Law5 with prior probabilities 1/4, 1/2, 1/4 (one draw plus 1); data are the parameter plus a draw, distances the data; first threshold 4, final threshold 3/2.
    At the final threshold the parameter 1 has posterior probability 6/11. *)
Module Circle.
Notation outs := Moves.outs.
Notation p := Moves.p.
Definition pi (th : Z) : Q := if (th =? 1)%Z then (1 # 2)%Q else if (th =? 0)%Z || (th =? 2)%Z then (1 # 4)%Q else 0%Q.
Definition pth (a : Z) : Z := (a + 1)%Z.
Definition prior (l : list Z) : list Z * Z := match l with [] => ([], 0%Z) | a :: l' => (l', pth a) end.
Definition start : sstate Z Z := mksst Z Z [4%Q] None [] None None None 0 0%Z [] [] None.
Definition step1 (n k : nat) (l : list Z) := first_step Z Z Z Moves.setp (fun th _ => Fin (pi th)) (Hits.kupd Steps.clamp) (Hits.kupdL Steps.clamp) (Hits.kpdf Steps.clamp) prior Hits.simc Hits.dist (fun y => [Hits.dist y]) Hits.bern Hits.choiceL (fun _ => 0%nat) (fun _ _ _ => Err ValueError)
  false 0 0 n 3 (3 # 4) (3 # 2) 1 1 start k l.
Definition step2 (kernel n : nat) (resample : Q) (s : sstate Z Z) (k : nat) (ls : list (list Z)) := next_step Z Z Z Moves.setp (fun th _ => Fin (pi th)) (Hits.kupd Steps.clamp) (Hits.kupdL Steps.clamp) (Hits.kpdf Steps.clamp) prior Hits.simc Hits.dist (fun y => [Hits.dist y]) Hits.bern Hits.choiceL (fun _ => 0%nat) (fun _ _ _ => Err ValueError)
  kernel 3 n 3 (3 # 4) (3 # 2) resample 1 1 s k ls.
Notation closeness := (closeness Z Hits.dist (fun y => [Hits.dist y]) false).
Notation abc e f := (abc_mean outs p pth Hits.dat (closeness 4 e) f).
Lemma Ts_eq : filter (inside Z pi) Hits.pts = [0; 1; 2]%Z.
Proof. reflexivity. Qed.
Lemma pi_nonneg th : (0 <= pi th)%Q.
Proof. unfold pi. destruct (_ =? 1)%Z; [discriminate|]. destruct (_ || _); discriminate. Qed.
Lemma data_draw th G : expect Hits.pts (Hits.lik th) G = expect outs p (fun b => G (Hits.dat th b)).
Proof. symmetry. exact (group outs p Z.eq_dec Hits.pts (Hits.dat th) G Hits.pts_nodup (fun a Ha => or_introl (Hits.dat_in th a Ha))). Qed.
Lemma data_all y : In y Hits.pts -> exists th b, In th [0; 1; 2]%Z /\ In b outs /\ y = Hits.dat th b.
Proof.
  intros [<-|[<-|[<-|[<-|[<-|[]]]]]].
  - exists 0%Z, (-1)%Z. split; [left; reflexivity|]. split; [left; reflexivity|reflexivity].
  - exists 0%Z, 0%Z. split; [left; reflexivity|]. split; [right; left; reflexivity|reflexivity].
  - exists 1%Z, 0%Z. split; [right; left; reflexivity|]. split; [right; left; reflexivity|reflexivity].
  - exists 1%Z, 1%Z. split; [right; left; reflexivity|]. split; [right; right; right; left; reflexivity|reflexivity].
  - exists 2%Z, 1%Z. split; [right; right; left; reflexivity|]. split; [right; right; right; left; reflexivity|reflexivity].
Qed.
Lemma prior_in a : In a outs -> In (pth a) [0; 1; 2]%Z.
Proof. intros H. apply Hits.outs_in in H. unfold pth. cbn. lia. Qed.
Lemma prior_law th : In th [0; 1; 2]%Z -> chance outs p (fun a => if Z.eq_dec (pth a) th then true else false) = Q2R (pi th).
Proof.
  intros [<-|[<-|[<-|[]]]]; unfold chance, expect, Moves.outs, Moves.p; cbn [map]; rewrite !total_cons; change (total []) with 0; cbn; unfold pi, Q2R; cbn; lra.
Qed.
Lemma inner_eq th : In th [0; 1; 2]%Z -> P_Law5.inner Z pi (Hits.kern Steps.clamp) Hits.pts th = 1.
Proof. intros H. exact (Hits.inner_clamp th H). Qed.
Lemma all_below th b : In th [0; 1; 2]%Z -> In b outs -> nlt (Hits.dist (Hits.dat th b)) (Fin 4) = true.
Proof. intros H Hb. apply Hits.outs_in in Hb. destruct H as [<-|[<-|[<-|[]]]]; destruct Hb as [-> |[-> | ->]]; reflexivity. Qed.
Lemma rows_drawn q i th : nth_error (p_rows q) i = Some th -> drawn Z Z outs p (Hits.kupd Steps.clamp) (Hits.kupdL Steps.clamp) (Hits.kpdf Steps.clamp) pi (Hits.kern Steps.clamp) Hits.pts q i th.
Proof.
  intros H. split; [apply (Hits.moved_law Steps.clamp Hits.clamp_in); intros _ a l; cbn; rewrite (nth_error_nth _ _ 0%Z H); reflexivity|]. split; [reflexivity|]. intros th' _. apply (Hits.moved_law Steps.clamp Hits.clamp_in). reflexivity.
Qed.
Lemma share1 y : In y [-1; 0; 1]%Z -> share 4 (3 # 2) [Hits.dist y] = 1.
Proof.
  intros H. assert (B4 : S_Reweight.below 4 [Hits.dist y] = 1%nat) by (destruct H as [<-|[<-|[<-|[]]]]; reflexivity).
  assert (B : S_Reweight.below (3 # 2) [Hits.dist y] = 1%nat) by (destruct H as [<-|[<-|[<-|[]]]]; reflexivity).
  unfold share. rewrite B4, B. cbn [Nat.eqb]. change (INR 1) with 1. field.
Qed.
Lemma share0 y : In y [2; 3]%Z -> share 4 (3 # 2) [Hits.dist y] = 0.
Proof.
  intros H. assert (B : S_Reweight.below (3 # 2) [Hits.dist y] = 0%nat) by (destruct H as [<-|[<-|[]]]; reflexivity).
  unfold share. rewrite B. destruct (_ =? _)%nat; [reflexivity|]. change (INR 0) with 0. unfold Rdiv. ring.
Qed.
Lemma final : abc (3 # 2)%Q Hits.one = 6 / 11.
Proof.
  unfold abc_mean, expect, Moves.outs, Moves.p. cbn [map]. rewrite !total_cons. change (total []) with 0.
  unfold Hits.one, pth. cbn.
  rewrite (share1 (-1)), (share1 0), (share1 1), (share0 2), (share0 3) by (cbn; lia). field.
Qed.
End Circle.
Example C94_second_hits_case : abc_mean Moves.outs Moves.p Circle.pth Hits.dat (P_Reweight.closeness Z Hits.dist (fun y => [Hits.dist y]) false 4 (3 # 2)) Hits.one = 6 / 11 /\ forall kernel d, kernel = 1%nat \/ kernel = 2%nat -> 0 < d ->
  exists C, forall n resample, (0 < n)%nat -> (0 < resample)%Q -> forall eta, 0 < eta -> exists K1, forall k1, (K1 <= k1)%nat -> exists K2, forall k2, (K2 <= k2)%nat ->
    mean Moves.outs Moves.p (n * k1) (fun l => match Circle.step1 n k1 l with
      | Ok s1 => gens Moves.outs Moves.p n k2 (fun ls =>
          if match next_weights Z Z (fun y => [Hits.dist y]) (fun _ => 0%nat) false n (3 # 4) (3 # 2) s1 with
             | Some (e', _, nw) => negb (nlt (ess nw) (Fin resample)) && match Circle.step2 kernel n resample s1 k2 ls with
                 | Ok s2 => off d (weighted_num (fun z => Hits.one (fst z) (snd z)) (particles Z Z s2) (m_w _ _ s2)) (abc_mean Moves.outs Moves.p Circle.pth Hits.dat (P_Reweight.closeness Z Hits.dist (fun y => [Hits.dist y]) false 4 e') Hits.one)
                 | Err _ => true
                 end
             | None => true
             end then 1 else 0)
      | Err _ => 1
      end) <= C / INR n + 16 * 1 ^ 2 / (Q2R resample * d ^ 2) + eta.
Proof.
  split; [exact Circle.final|]. intros kernel d Hk Hd.
  destruct (C94_second_hits Z Z Z Z.eq_dec Moves.outs Moves.p Moves.law Moves.setp (fun th _ => Fin (Circle.pi th)) (Hits.kupd Steps.clamp) (Hits.kupdL Steps.clamp) (Hits.kpdf Steps.clamp) Circle.prior Hits.simc Hits.dist Hits.bern Hits.choiceL (fun _ => 0%nat) (fun _ _ _ => Err ValueError)
    4 (3 # 2) 1 Circle.pi (Hits.kern Steps.clamp) Hits.pts Hits.pts Hits.lik Hits.dat Circle.pth (fun _ _ => eq_refl) (fun _ _ => eq_refl) Circle.pi_nonneg
    ltac:(rewrite Circle.Ts_eq; repeat constructor; cbn; intuition discriminate) (Hits.kern_law Steps.clamp Hits.clamp_in) Hits.lik_law (fun th _ => Hits.sims th) Hits.coins Hits.picks (fun _ _ _ => eq_refl)
    (fun th G _ => Circle.data_draw th G) Circle.data_all (fun _ _ => eq_refl) Circle.prior_in Circle.prior_law Hits.h_positive (fun th H => eq_ind_r (fun x => 0 < x) Rlt_0_1 (Circle.inner_eq th H)) Circle.all_below
    kernel Hits.one 1 d 1 Hk Hits.one_bound Hd Circle.inner_eq Circle.rows_drawn) as (C & HC).
  exists C. intros n resample Hn Hr. refine (HC false 0%nat 0%nat n 3%nat (3 # 4)%Q (3 # 2)%Q 1%Q 1%nat Circle.start (3 # 4)%Q resample 1%nat Hn _ Hr).
  split; [reflexivity|]. split; [reflexivity|]. split; [reflexivity|]. split; [reflexivity|discriminate].
Qed.
