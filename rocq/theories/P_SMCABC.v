(** Properties C23, C24, and C19, C21 for SMCABC. *)
From Coq Require Import Lqa Qround Relations.
From Verif Require Import M_Base M_Num L_Num M_Infer S_Infer L_Infer M_PMCABC S_PMCABC L_PMCABC M_RSMCABC L_RSMCABC M_SMCABC S_SMCABC L_SMCABC P_PMCABC.
Open Scope nat_scope.

(** C23: the bisection ends, after at most ceil((high - low) / (2 tol)) halvings, whatever the function ... *)
Theorem C23_bisection_terminates : forall f lo hi tol fuel, (0 < tol)%Q -> bisect_fuel lo hi tol <= fuel -> exists m, bisect f fuel lo hi tol = Ok m.
Proof. exact bisect_terminates. Qed.
(** ... with a point of the interval ... *)
Theorem C23_bisection_interval : forall f tol fuel lo hi m, (lo <= hi)%Q -> bisect f fuel lo hi tol = Ok m -> (lo <= m <= hi)%Q.
Proof. exact bisect_interval. Qed.
(** ... which is a zero, or within tol of a change of sign, if the ends have different signs ... *)
Theorem C23_bisection_bracket : forall f tol fuel, (forall x, exists q, f x = Fin q) -> forall lo hi m, (lo <= hi)%Q -> nlt (nmul (f lo) (f hi)) (Fin 0) = true ->
  bisect f fuel lo hi tol = Ok m ->
  neqb (f m) (Fin 0) = true
  \/ exists a b, (lo <= a <= m)%Q /\ (m <= b <= hi)%Q /\ ((b - a) / 2 <= tol)%Q /\ (m == (a + b) / 2)%Q /\ nlt (nmul (f a) (f b)) (Fin 0) = true.
Proof. exact bisect_bracket. Qed.
(** ... and otherwise, if the function has one sign throughout, within tol of the upper end. *)
Theorem C23_bisection_no_change : forall f tol fuel lo hi m, (0 <= tol)%Q -> (lo <= hi)%Q ->
  (forall x y, (lo <= x <= hi)%Q -> (lo <= y <= hi)%Q -> exists a b, f x = Fin a /\ f y = Fin b /\ (0 < a * b)%Q) ->
  bisect f fuel lo hi tol = Ok m -> (hi - tol <= m)%Q.
Proof. exact bisect_no_change. Qed.

(** non-negative weights summing to one *)
Definition weights_ok (l : list num) : Prop := exists ws, l = map Fin ws /\ Forall (fun x => 0 <= x)%Q ws /\ (qsum ws == 1)%Q.

Section Statements.
Variables Theta Rng Y : Type.
Variable setp : Theta -> Theta -> bool * Theta.
Variable pdfv : Theta -> Theta -> num.
Variable kupd : pop Theta -> nat -> Rng -> Rng * Theta.
Variable kupdL : pop Theta -> Theta -> Rng -> Rng * Theta.
Variable kpdf : pop Theta -> Theta -> Theta -> num.
Variable prior : Rng -> Rng * Theta.
Variable simc : Theta -> Rng -> Rng * option Y.
Variable dist : Y -> num.
Variable dist1 : Y -> list num.
Variable mkrng : Z -> Rng.
Variable reseed : Rng -> Rng.
Variable bern : num -> Rng -> res (Rng * bool).
Variable choiceL : list nat -> Rng -> res (Rng * nat).
Variable uniq : list num -> nat.
Variable draw : nat -> nat -> list num -> res (list nat).
Notation sample := (sm_sample Theta Rng Y setp pdfv kupd kupdL kpdf prior simc dist dist1 mkrng reseed bern choiceL uniq draw).
Notation SRun := (SRun Theta Rng Y setp pdfv kupd kupdL kpdf prior simc dist dist1 bern).
Notation Installed := (Installed Theta setp).
Notation SimY := (SimY Theta Rng Y setp simc).
Notation cloud_of := (cloud_of Theta Y).

(** What sample does.  Fewer than [steps] iterations are made only if the threshold has reached epsilon_final; then nothing is recorded
    unless full_output = 1. *)
Theorem C23_run : set_ok setp -> (forall l r r' i, choiceL l r = Ok (r', i) -> In i l) ->
  forall bernton kernel hits n steps alpha efinal resample full fuel eps0 seed cur0 count0 s,
  sample bernton kernel hits n steps alpha efinal resample full fuel eps0 None seed None None cur0 count0 = Ok s ->
  exists es idxs, SRun n bernton kernel hits efinal resample draw 0 None eps0 count0 es idxs (m_hist Theta Y s)
  /\ m_eps Theta Y s = eps0 :: es /\ length (m_hist Theta Y s) <= steps
  /\ (length (m_hist Theta Y s) < steps -> (last (m_eps Theta Y s) 0 <= efinal)%Q)
  /\ m_recs Theta Y s = (if full =? 1 then m_hist Theta Y s
                         else if (full =? 0) && (length (m_hist Theta Y s) =? steps) then match m_hist Theta Y s with [] => [] | x :: _ => [last (m_hist Theta Y s) x] end else []).
Proof.
  intros Hset Hch bernton kernel hits n steps alpha efinal resample full fuel eps0 seed cur0 count0 s H. unfold sm_sample in H.
  destruct (negb (kernel <=? 2)); [discriminate|]. destruct (bernton && (kernel =? 0)); [discriminate|].
  eapply iterate_run in H; [|exact Hset | exact Hch | left; cbn; auto | instantiate (1 := eps0); instantiate (1 := []); reflexivity | reflexivity].
  destruct H as (es & idxs & xs & A1 & A2 & A3 & A4 & A5 & A6). cbn in A1, A2, A3, A6. rewrite A3. exists es, idxs. rewrite A2 in A5 |- *. auto 6.
Qed.
(** The same on a restart from a journal with last population rows, w, ds, simulations ys and thresholds epsilon, ending in e. *)
Theorem C23_restart : set_ok setp -> (forall l r r' i, choiceL l r = Ok (r', i) -> In i l) ->
  forall bernton kernel hits n steps alpha efinal resample full fuel eps0 rows w ds ys epsilon e seed mgr0 ys0 cur0 count0 s, 0 < steps ->
  sample bernton kernel hits n steps alpha efinal resample full fuel eps0 (Some (rows, w, ds, Some ys, epsilon ++ [e])) seed mgr0 ys0 cur0 count0 = Ok s ->
  exists es idxs, SRun n bernton kernel hits efinal resample draw 0 (Some (mkcloud Theta Y rows ys ds w)) e count0 es idxs (m_hist Theta Y s)
  /\ m_eps Theta Y s = epsilon ++ e :: es /\ length (m_hist Theta Y s) <= steps
  /\ (length (m_hist Theta Y s) < steps -> (last (m_eps Theta Y s) 0 <= efinal)%Q).
Proof.
  intros Hset Hch bernton kernel hits n steps alpha efinal resample full fuel eps0 rows w ds ys epsilon e seed mgr0 ys0 cur0 count0 s Hs H. unfold sm_sample in H.
  destruct (negb (kernel <=? 2)); [discriminate|]. destruct (bernton && (kernel =? 0)); [discriminate|]. destruct steps as [|steps]; [lia|].
  eapply iterate_run in H; [|exact Hset | exact Hch | right; discriminate | instantiate (1 := e); instantiate (1 := epsilon); reflexivity | reflexivity].
  destruct H as (es & idxs & xs & A1 & A2 & A3 & A4 & A5 & A6). cbn [m_eps m_hist app] in A2, A3. rewrite A3. exists es, idxs. rewrite A2 in A5 |- *. rewrite <- app_assoc in *. auto.
Qed.
(** C23: no threshold is above its predecessor, none (after the first) below epsilon_final. *)
Theorem C23_thresholds : forall n bernton kernel hits efinal resample t c e count es idxs xs, SRun n bernton kernel hits efinal resample draw t c e count es idxs xs ->
  Forall (fun x => efinal <= x)%Q es /\ forall i a b, nth_error (e :: es) i = Some a -> nth_error (e :: es) (S i) = Some b -> (b <= a)%Q.
Proof.
  intros n bernton kernel hits efinal resample t c e count es idxs xs H. induction H as [| | t c e e' count x p ks idx es idxs xs He HR A1 A2 A3 A4 A5 A6 A7 A8 HS [IH1 IH2]].
  - split; [constructor|]. intros [|[|i]] a b; discriminate.
  - exact IHSRun.
  - destruct HR as [[B1 B2] _]. split; [constructor; assumption|]. intros [|i] a b Ha Hb; [cbn in Ha, Hb; injection Ha as <-; injection Hb as <-; exact B2 | exact (IH2 i a b Ha Hb)].
Qed.
(** Every recorded distance is that of the simulation recorded with it. *)
Theorem C24_distances : forall n bernton kernel hits efinal resample t c e count es idxs xs, SRun n bernton kernel hits efinal resample draw t c e count es idxs xs ->
  Forall (fun x => r_ds (fst x) = map dist (snd x)) xs.
Proof.
  intros n bernton kernel hits efinal resample t c e count es idxs xs H.
  assert (Hz : forall (a : list Theta) (b : list Y) (c : list num) (d : list nat), length a = length b -> length c = length b -> length d = length b ->
     (forall i z, nth_error (combine (combine (combine a b) c) d) i = Some z -> snd (fst z) = dist (snd (fst (fst z)))) -> c = map dist b).
  { clear. induction a as [|x a IH]; intros [|y b] [|u c] [|v d] L1 L2 L3 H; try discriminate; [reflexivity|]. cbn. f_equal; [exact (H 0 (x, y, u, v) eq_refl)|].
    apply (IH b c d); try (cbn in *; lia). intros i z Hz. exact (H (S i) z Hz). }
  induction H as [| t e count x ks es idxs xs A0 A1 A2 A3 A4 A5 A6 A7 A8 HS IH | t c e e' count x p ks idx es idxs xs He HR A1 A2 A3 A4 A5 A6 A7 A8 HS IH]; [constructor | |].
  - constructor; [|exact IH]. apply (Hz (r_rows (fst x)) _ _ ks); try congruence. intros i z Hi. rewrite Forall_forall in A3. apply nth_error_In in Hi. specialize (A3 z Hi). destruct z as [[[th y] d] k]. cbn in *. tauto.
  - constructor; [|exact IH]. apply (Hz (r_rows (fst x)) _ _ ks); try congruence. intros i z Hi. specialize (A3 i z Hi). destruct z as [[[th y] d] k]. destruct A3 as (w & theta & _ & _ & Hd & _). exact Hd.
Qed.

(** y was simulated at parameters of which th is the last reassignment (th itself, unless assignments of reported parameters are refused) *)
Definition Paired (th : Theta) (y : Y) : Prop := exists th0, clos_refl_trans Theta Installed th0 th /\ SimY th0 y.
(** the candidate's data was simulated at the candidate *)
Lemma candidate_sim kernel hits eps p ys i theta th y ratio k : Candidate Theta Rng Y setp pdfv kupd kupdL simc dist dist1 kernel hits eps p ys i theta th y ratio k -> SimY th y.
Proof.
  destruct kernel as [|[|kernel]]; cbn.
  - tauto.
  - intros (old & new & _ & _ & (HF & _) & (l1 & l2 & -> & _) & _). apply Forall_app in HF. destruct HF as [_ HF]. inversion HF; subst. assumption.
  - intros (primes & back & (HF & _) & (l1 & l2 & -> & _) & _). apply Forall_app in HF. destruct HF as [_ HF]. inversion HF as [|? ? [_ Hx]]; subst. exact Hx.
Qed.
(** C21, C24: after an iteration, position i holds a candidate with data simulated at it, or the parameters of position idx_i of the
    previous iteration (idx being the resampling draw) with the data of position i of the previous iteration. *)
Theorem C24_moves : forall n bernton kernel hits efinal resample t c e count es idxs xs, SRun n bernton kernel hits efinal resample draw t c e count es idxs xs ->
  forall j x x' idx, nth_error xs j = Some x -> nth_error xs (S j) = Some x' -> nth_error idxs (S j) = Some idx ->
  forall i th y, nth_error (r_rows (fst x')) i = Some th -> nth_error (snd x') i = Some y ->
  (exists th0, SimY th0 y /\ Installed th0 th)
  \/ (exists m theta, nth_error idx i = Some m /\ nth_error (r_rows (fst x)) m = Some theta /\ Installed theta th /\ nth_error (snd x) i = Some y).
Proof.
  intros n bernton kernel hits efinal resample t c e count es idxs xs H.
  assert (Hc : forall (a : list Theta) (b : list Y) (c : list num) (d : list nat) i th y, length a = length b -> length c = length b -> length d = length b ->
     nth_error a i = Some th -> nth_error b i = Some y -> exists u v, nth_error (combine (combine (combine a b) c) d) i = Some (th, y, u, v)).
  { clear. induction a as [|x a IH]; intros [|y0 b] [|u c] [|v d] i th y L1 L2 L3 Ha Hb; try discriminate; [destruct i; discriminate|]. destruct i as [|i].
    - cbn in *. injection Ha as <-. injection Hb as <-. eauto.
    - cbn in *. apply (IH b c d i th y); (assumption || lia). }
  assert (Hkey : forall t c e e' count x p ks idx es idxs xs, SRun n bernton kernel hits efinal resample draw t (Some c) e count (e' :: es) (idx :: idxs) (x :: xs) -> 
     Reweighted Theta Y dist1 n bernton efinal resample draw t c e e' idx p ->
     (forall i z, nth_error (combine (combine (combine (r_rows (fst x)) (snd x)) (r_ds (fst x))) ks) i = Some z -> Moved Theta Rng Y setp pdfv kupd kupdL kpdf simc dist dist1 bern kernel hits (Fin e') p (k_ys Theta Y c) i z) ->
     length (r_rows (fst x)) = n -> length ks = n -> length (snd x) = n -> length (r_ds (fst x)) = n ->
     forall i th y, nth_error (r_rows (fst x)) i = Some th -> nth_error (snd x) i = Some y ->
     (exists th0, SimY th0 y /\ Installed th0 th)
     \/ (exists m theta, nth_error idx i = Some m /\ nth_error (k_rows Theta Y c) m = Some theta /\ Installed theta th /\ nth_error (k_ys Theta Y c) i = Some y)).
  { clear - Hc. intros t c e e' count x p ks idx es idxs xs _ (_ & HF & _) A3 L1 L2 L3 L4 i th y Hth Hy.
    destruct (Hc (r_rows (fst x)) (snd x) (r_ds (fst x)) ks i th y) as (u & v & Hz); try congruence. specialize (A3 i _ Hz). destruct A3 as (w & theta & _ & Hrow & _ & HM).
    assert (Hkeep : Installed theta th -> nth_error (k_ys Theta Y c) i = Some y -> exists m theta, nth_error idx i = Some m /\ nth_error (k_rows Theta Y c) m = Some theta /\ Installed theta th /\ nth_error (k_ys Theta Y c) i = Some y).
    { intros Hi Hyo. destruct (F2_nth _ _ _ HF i theta Hrow) as (m & Hm & Hr). exists m, theta. auto. }
    destruct HM as [(_ & Hi & Hyo & _) | (_ & th0 & ratio & pa & r & r' & _ & [(_ & Hi & HC) | (_ & Hi & Hyo & _)])]; [right; auto | left | right; auto].
    exists th0. split; [eapply candidate_sim; exact HC | exact Hi]. }
  induction H as [| t e count x ks es idxs xs A0 A1 A2 A3 A4 A5 A6 A7 A8 HS IH | t c e e' count x p ks idx es idxs xs He HR A1 A2 A3 A4 A5 A6 A7 A8 HS IH]; intros j x0 x' idx0 Hx Hx' Hidx; [destruct j; discriminate | |].
  - destruct j as [|j]; [|exact (IH j x0 x' idx0 Hx Hx' Hidx)]. cbn in Hx. injection Hx as <-. change (nth_error xs 0 = Some x') in Hx'. change (nth_error idxs 0 = Some idx0) in Hidx.
    inversion HS as [| |? c1 e1 e' ? x1 p ks' idx1 es' idxs' xs' B0 HR B1 B2 B3 B4 B5 B6 B7 B8 HS']; subst; [discriminate|]. cbn in Hx', Hidx. injection Hx' as <-. injection Hidx as <-.
    intros i th y. exact (Hkey _ (cloud_of x) e e' _ x1 p ks' idx1 es' idxs' xs' HS HR B3 B1 B4 B5 B6 i th y).
  - destruct j as [|j]; [|exact (IH j x0 x' idx0 Hx Hx' Hidx)]. cbn in Hx. injection Hx as <-. change (nth_error xs 0 = Some x') in Hx'. change (nth_error idxs 0 = Some idx0) in Hidx.
    inversion HS as [| |? c1 e1 e1' ? x1 p1 ks' idx1 es' idxs' xs' B0 HR' B1 B2 B3 B4 B5 B6 B7 B8 HS']; subst; [discriminate|]. cbn in Hx', Hidx. injection Hx' as <-. injection Hidx as <-.
    intros i th y. exact (Hkey _ (cloud_of x) e' e1' _ x1 p1 ks' idx1 es' idxs' xs' HS HR' B3 B1 B4 B5 B6 i th y).
Qed.
(** C24: in a run without resampling, recorded parameters and simulations belong together at every position. *)
Theorem C24_paired : forall n bernton kernel hits efinal resample e count es idxs xs, SRun n bernton kernel hits efinal resample draw 0 None e count es idxs xs ->
  Forall (fun idx => idx = seq 0 (length idx)) idxs ->
  forall j x, nth_error xs j = Some x -> forall i th y, nth_error (r_rows (fst x)) i = Some th -> nth_error (snd x) i = Some y -> Paired th y.
Proof.
  intros n bernton kernel hits efinal resample e count es idxs xs H Hid.
  induction j as [|j IH]; intros x Hx i th y Hth Hy.
  - destruct xs as [|x0 xs]; [discriminate|]. cbn in Hx. injection Hx as ->. inversion H as [|t e0 c0 x1 ks es0 idxs0 xs0 A0 A1 A2 A3 A4 A5 A6 A7 A8 HS|]; subst.
    rewrite Forall_forall in A3. assert (Hin : exists u v, In (th, y, u, v) (combine (combine (combine (r_rows (fst x)) (snd x)) (r_ds (fst x))) ks)).
    { clear - Hth Hy A4 A5 A6. assert (L1 : length (snd x) = length (r_rows (fst x))) by congruence. assert (L2 : length (r_ds (fst x)) = length (r_rows (fst x))) by congruence. assert (L3 : length ks = length (r_rows (fst x))) by congruence. clear A4 A5 A6.
      revert L1 L2 L3 Hth Hy. generalize (r_rows (fst x)) (snd x) (r_ds (fst x)) ks. clear. intros l. revert i. induction l as [|a l IH]; intros i [|b m] [|c o] [|d q] L1 L2 L3 Ha Hb; try discriminate; [destruct i; discriminate|].
      destruct i as [|i]; cbn in *; [injection Ha as <-; injection Hb as <-; eauto|]. destruct (IH i m o q) as (u & v & Hin); try lia; try assumption. eauto. }
    destruct Hin as (u & v & Hin). specialize (A3 _ Hin). destruct A3 as (_ & Hs & _). exists th. split; [apply rt_refl | exact Hs].
  - destruct (nth_error xs j) as [x0|] eqn:Ex0; [|apply nth_error_None in Ex0; assert (nth_error xs (S j) <> None) by congruence; apply nth_error_Some in H0; lia].
    assert (Hlen : length idxs = length xs) by (clear - H; induction H; cbn; congruence).
    destruct (nth_error idxs (S j)) as [idx|] eqn:Eidx; [|apply nth_error_None in Eidx; assert (nth_error xs (S j) <> None) by congruence; apply nth_error_Some in H0; lia].
    destruct (C24_moves _ _ _ _ _ _ _ _ _ _ _ _ _ H j x0 x idx Ex0 Hx Eidx i th y Hth Hy) as [(th0 & Hs & Hi) | (m & theta & Hm & Hr & Hi & Hyo)].
    + exists th0. split; [apply rt_step; exact Hi | exact Hs].
    + rewrite Forall_forall in Hid. rewrite (Hid idx (nth_error_In _ _ Eidx)) in Hm.
      assert (Hmi : m = i). { clear - Hm. assert (i < length (seq 0 (length idx))) by (apply nth_error_Some; congruence). rewrite seq_length in H. apply nth_error_nth with (d := 0) in Hm. rewrite seq_nth in Hm by exact H. lia. }
      subst m. destruct (IH x0 eq_refl i theta y Hr Hyo) as (th0 & Hc & Hs). exists th0. split; [eapply rt_trans; [exact Hc | apply rt_step; exact Hi] | exact Hs].
Qed.

(** some particle survives the reweighting at threshold e' *)
Definition Alive (n : nat) (bernton : bool) (e' : Q) (c : cloud Theta Y) : Prop :=
  if bernton then exists d, In d (k_ds Theta Y c) /\ nlt d (Fin e') = true
  else exists i w y, nth_error (k_w Theta Y c) i = Some (Fin w) /\ (0 < w)%Q /\ nth_error (firstn n (k_ys Theta Y c)) i = Some y /\ 0 < closer (Fin e') (dist1 y).
Lemma closer_mono e e' l : (e' <= e)%Q -> closer (Fin e') l <= closer (Fin e) l.
Proof.
  intros H. unfold closer. induction l as [|d l IH]; cbn [filter]; [reflexivity|].
  destruct (nlt d (Fin e')) eqn:E1; [|destruct (nlt d (Fin e)); cbn [length]; lia]. replace (nlt d (Fin e)) with true; [cbn [length]; lia|]. symmetry.
  destruct d; cbn in *; try congruence. apply negb_true_iff in E1. apply negb_true_iff. destruct (Qle_bool e q) eqn:E; [|reflexivity]. apply Qle_bool_iff in E. assert (e' <= q)%Q by lra. apply Qle_bool_iff in H0. congruence.
Qed.
Lemma repeat_ok n : 0 < n -> weights_ok (repeat (ndiv (Fin 1) (ofnat n)) n).
Proof.
  intros Hn. set (q := (1 / inject_Z (Z.of_nat n))%Q). assert (Hp : (0 < inject_Z (Z.of_nat n))%Q) by (change 0%Q with (inject_Z 0); rewrite <- Zlt_Qlt; lia).
  exists (repeat q n). split; [|split].
  - unfold ofnat. rewrite ndiv_fin by lra. fold q. clearbody q. clear. induction n; cbn; congruence.
  - apply Forall_forall. intros x Hx. apply repeat_spec in Hx. subst x. unfold q. apply Qle_shift_div_l; lra.
  - assert (H : forall k, (qsum (repeat q k) == inject_Z (Z.of_nat k) * q)%Q).
    { induction k as [|k IH]; [cbn; ring|]. cbn [repeat qsum fold_right]. fold (qsum (repeat q k)). rewrite IH, Nat2Z.inj_succ. unfold Z.succ. rewrite inject_Z_plus. ring. }
    rewrite H. unfold q. field. lra.
Qed.
Lemma reweighted_ok n bernton efinal resample t c e e' idx p : 0 < n -> Reweighted Theta Y dist1 n bernton efinal resample draw t c e e' idx p ->
  weights_ok (k_w Theta Y c) -> Alive n bernton e' c -> weights_ok (p_w p).
Proof.
  intros Hn ((He1 & He2) & _ & Hw) (ws & Hws & Hnn & _) Ha. unfold Alive in Ha.
  assert (Hraw : exists ql, raw_weights Theta Y dist1 n bernton e' e c = map Fin ql /\ Forall (fun x => 0 <= x)%Q ql /\ exists x, In x ql /\ (0 < x)%Q).
  { unfold raw_weights. destruct bernton.
    - destruct Ha as (d & Hd & Hlt). exists (map (fun d => if nlt d (Fin e') then 1 else 0)%Q (k_ds Theta Y c)). split; [rewrite map_map; apply map_ext; intros x; destruct (nlt x (Fin e')); reflexivity|].
      split; [apply Forall_forall; intros x Hx; apply in_map_iff in Hx; destruct Hx as (y & <- & _); destruct (nlt y (Fin e')); lra|].
      exists 1%Q. split; [apply in_map_iff; exists d; rewrite Hlt; auto | lra].
    - destruct Ha as (i & w & y & Hi & Hw0 & Hy & Hcl). rewrite Hws in *. clear Hws Hw.
      set (g := fun wy : Q * Y => if closer (Fin e) (dist1 (snd wy)) =? 0 then 0%Q else (fst wy * (inject_Z (Z.of_nat (closer (Fin e') (dist1 (snd wy)))) / inject_Z (Z.of_nat (closer (Fin e) (dist1 (snd wy))))))%Q).
      exists (map g (combine ws (firstn n (k_ys Theta Y c)))).
      assert (Hpos : forall k, k <> 0 -> (0 < inject_Z (Z.of_nat k))%Q) by (intros k Hk; change 0%Q with (inject_Z 0); rewrite <- Zlt_Qlt; lia).
      assert (Hnon : forall k, (0 <= inject_Z (Z.of_nat k))%Q) by (intros k; change 0%Q with (inject_Z 0); rewrite <- Zle_Qle; lia).
      split; [|split].
      + rewrite map_map. generalize (firstn n (k_ys Theta Y c)). clear - Hpos. induction ws as [|x ws IH]; intros [|z l]; cbn [map combine]; [reflexivity | reflexivity | reflexivity|]. rewrite IH. f_equal. unfold g. cbn [fst snd].
        destruct (Nat.eqb_spec (closer (Fin e) (dist1 z)) 0) as [|Hne]; [reflexivity|]. unfold ofnat. rewrite ndiv_fin by (specialize (Hpos _ Hne); lra). reflexivity.
      + apply Forall_forall. intros x Hx. apply in_map_iff in Hx. destruct Hx as ([q z] & <- & Hin). unfold g. cbn [fst snd]. destruct (Nat.eqb_spec (closer (Fin e) (dist1 z)) 0) as [|Hne]; [lra|].
        rewrite Forall_forall in Hnn. specialize (Hnn q (in_combine_l _ _ _ _ Hin)). specialize (Hpos _ Hne). specialize (Hnon (closer (Fin e') (dist1 z))).
        apply Qmult_le_0_compat; [exact Hnn|]. apply Qle_shift_div_l; lra.
      + pose proof (closer_mono e e' (dist1 y) He2) as Hm. exists (g (w, y)). split.
        * apply in_map. assert (Hi' : nth_error ws i = Some w). { clear - Hi. revert i Hi. induction ws as [|a ws IH]; intros [|i] H; try discriminate; cbn in *; [congruence | auto]. }
          clear - Hi' Hy. revert i Hi' Hy. generalize (firstn n (k_ys Theta Y c)). induction ws as [|a ws IH]; intros [|b l] [|i] H1 H2; try discriminate; cbn in *; [left; congruence | right; eauto].
        * unfold g. cbn [fst snd]. destruct (Nat.eqb_spec (closer (Fin e) (dist1 y)) 0) as [|Hne]; [lia|]. pose proof (Hpos _ Hne) as P1. pose proof (Hpos (closer (Fin e') (dist1 y)) ltac:(lia)) as P2.
          assert (0 < inject_Z (Z.of_nat (closer (Fin e') (dist1 y))) / inject_Z (Z.of_nat (closer (Fin e) (dist1 y))))%Q by (apply Qlt_shift_div_l; lra). nra. }
  destruct Hraw as (ql & Eq & Hq1 & Hq2). destruct (normalise_fin ql Hq1 Hq2) as (vs & V1 & V2 & V3 & V4 & _).
  destruct (bernton || _).
  - destruct Hw as [_ ->]. apply repeat_ok. exact Hn.
  - destruct Hw as [_ ->]. rewrite Eq, V1. exists vs. split; [reflexivity|]. split; [exact V3 | exact V4].
Qed.
(** C19 for SMCABC: as long as some particle survives each reweighting, recorded weights are non-negative and sum to one. *)
Theorem C19_smcabc : forall n bernton kernel hits efinal resample e count es idxs xs, SRun n bernton kernel hits efinal resample draw 0 None e count es idxs xs ->
  (forall t x e', nth_error xs t = Some x -> nth_error es t = Some e' -> t + 1 < length xs -> Alive n bernton e' (cloud_of x)) ->
  Forall (fun x => weights_ok (r_w (fst x))) xs.
Proof.
  intros n bernton kernel hits efinal resample e count es idxs xs H Hal.
  assert (Hgen : forall t c e count es idxs xs, SRun n bernton kernel hits efinal resample draw t (Some c) e count es idxs xs -> weights_ok (k_w Theta Y c) ->
    (forall e', nth_error es 0 = Some e' -> 0 < length xs -> Alive n bernton e' c) ->
    (forall t x e', nth_error xs t = Some x -> nth_error es (S t) = Some e' -> t + 1 < length xs -> Alive n bernton e' (cloud_of x)) -> Forall (fun x => weights_ok (r_w (fst x))) xs).
  { clear. intros t c e count es idxs xs H. remember (Some c) as oc. revert c Heqoc. induction H as [| | t c0 e e' count x p ks idx es idxs xs He HR A1 A2 A3 A4 A5 A6 A7 A8 HS IH]; intros cc Eoc Hw Hz HS'; [constructor | discriminate|].
    injection Eoc as <-. assert (Hwx : weights_ok (r_w (fst x))) by (rewrite A7; eapply reweighted_ok; [exact A2 | exact HR | exact Hw | apply Hz; [reflexivity | cbn; lia]]).
    constructor; [exact Hwx|]. apply (IH (cloud_of x) eq_refl Hwx).
    - intros e1 He1 Hl. apply (HS' 0 x e1 eq_refl He1). cbn. lia.
    - intros j z e1 Hz1 He1 Hl. apply (HS' (S j) z e1 Hz1 He1). cbn. lia. }
  inversion H as [|t e0 c0 x ks es0 idxs0 xs0 A0 A1 A2 A3 A4 A5 A6 A7 A8 HS|]; subst; [constructor|].
  assert (Hwx : weights_ok (r_w (fst x))) by (rewrite A7; apply repeat_ok; exact A2).
  constructor; [exact Hwx|]. eapply Hgen; [exact HS | exact Hwx | |].
  - intros e1 He1 Hl. apply (Hal 0 x e1 eq_refl He1). cbn. lia.
  - intros j z e1 Hz He1 Hl. apply (Hal (S j) z e1 Hz He1). cbn. lia.
Qed.
End Statements.
Print Assumptions C23_bisection_terminates.
Print Assumptions C23_bisection_interval.
Print Assumptions C23_bisection_bracket.
Print Assumptions C23_bisection_no_change.
Print Assumptions C23_run.
Print Assumptions C23_restart.
Print Assumptions C23_thresholds.
Print Assumptions C24_distances.
Print Assumptions C24_moves.
Print Assumptions C24_paired.
Print Assumptions C19_smcabc.

(** A toy instance: parameters are rationals, data is the parameter itself, drawn from 1, ..., 7 by the prior; kernels move by 1/4. *)
Definition wkupd (p : pop Q) (i : nat) (r : Z) : Z * Q := ((r + 1)%Z, (nth i (p_rows p) 0 + (if Z.even r then 1 # 4 else - (1 # 4)))%Q).
Definition wkupdL (p : pop Q) (th : Q) (r : Z) : Z * Q := ((r + 1)%Z, (th + (if Z.even r then 1 # 4 else - (1 # 4)))%Q).
Definition wbern (p : num) (r : Z) : res (Z * bool) := match p with NaN => Err ValueError | _ => Ok ((r + 1)%Z, nlt (Fin 0) p && (Z.even r)) end.
Definition wchoiceL (l : list nat) (r : Z) : res (Z * nat) := match l with [] => Err ValueError | i :: l' => Ok ((r + 1)%Z, i) end.
(* draws the first position of positive weight throughout; refuses NaN *)
Fixpoint first_pos (k : nat) (w : list num) : res nat := match w with [] => Err ValueError | x :: w' => if nlt (Fin 0) x then Ok k else first_pos (S k) w' end.
Definition wdraw (t n : nat) (w : list num) : res (list nat) := match first_pos 0 w with Err e => Err e | Ok i => Ok (repeat i n) end.
Definition wsample (pr : Z -> Z * Q) := sm_sample Q Z Q xset xpdf wkupd wkupdL (fun _ _ _ => Fin 1) pr (fun c r => ((r + 1)%Z, Some c)) Fin (fun y => [Fin y]) (fun s => s) (fun r => r) wbern wchoiceL (fun w => 2) wdraw.
Definition wprior (r : Z) : Z * Q := ((r + 1)%Z, inject_Z (r mod 7 + 1)).
Definition wseed (t j : nat) : Z := Z.of_nat (3 * t + 2 * j + 2).
Definition rq (d : num) : num := match d with Fin q => Fin (Qred q) | _ => d end.
Definition showx (x : srec Q Q) := (map Qred (r_rows (fst x)), map Qred (snd x), map rq (r_ds (fst x)), map rq (r_w (fst x)), r_nsim (fst x)).
Definition showm (s : res (sstate Q Q)) := match s with Ok s => Ok (map Qred (m_eps _ _ s), map showx (m_recs _ _ s)) | Err e => Err e end.
(** DelMoral without resampling *)
Example C23_case : showm (wsample wprior false 0 2 4 3 (9#10) (1#10) 0 1 30 100 None wseed None None 0%Q 0)
  = Ok ([100; 9175019 # 1310720; 53682381523 # 10737418240],
        [([3; 5; 7; 2], [3; 5; 7; 2], [Fin 3; Fin 5; Fin 7; Fin 2], [Fin (1#4); Fin (1#4); Fin (1#4); Fin (1#4)], 4%nat);
         ([3; 5; 7; 2], [3; 5; 7; 2], [Fin 3; Fin 5; Fin 7; Fin 2], [Fin (1#3); Fin (1#3); Fin 0; Fin (1#3)], 7%nat);
         ([13#4; 5; 7; 9#4], [13#4; 5; 7; 9#4], [Fin (13#4); Fin 5; Fin 7; Fin (9#4)], [Fin (1#2); Fin 0; Fin 0; Fin (1#2)], 9%nat)])%Q.
Proof. vm_compute. reflexivity. Qed.
(** Bernton with either r-hit kernel *)
Example C23_case_bernton : showm (wsample wprior true 2 2 4 3 (1#2) (1#10) 5 0 30 100 None wseed None None 0%Q 0)
  = Ok ([100; 1001 # 20; 1003 # 40], [([11#4; 11#4; 11#4; 11#4], [11#4; 11#4; 11#4; 11#4], repeat (Fin (11#4)) 4, repeat (Fin (1#4)) 4, 28%nat)])%Q.
Proof. vm_compute. reflexivity. Qed.
(** C24 fails with resampling: parameters are permuted, simulations are not.  Here a data set is the parameter it was simulated at. *)
Theorem C24_refuted : exists s, wsample wprior true 1 2 4 2 (1#2) (1#10) 5 0 30 100 None wseed None None 0%Q 0 = Ok s /\
  exists x, m_recs _ _ s = [x] /\ map Qred (r_rows (fst x)) = [3; 3; 3; 3]%Q /\ map Qred (snd x) = [3; 5; 7; 2]%Q /\ map rq (r_ds (fst x)) = [Fin 3; Fin 5; Fin 7; Fin 2].
Proof. eexists. split; [vm_compute; reflexivity|]. eexists. split; [reflexivity|]. split; [vm_compute; reflexivity|]. split; vm_compute; reflexivity. Qed.
Theorem C24_refuted_delmoral : exists s, wsample wprior false 0 2 4 2 (9#10) (1#10) 5 0 30 100 None wseed None None 0%Q 0 = Ok s /\
  exists x, m_recs _ _ s = [x] /\ map Qred (r_rows (fst x)) = [3; 3; 3; 3]%Q /\ map Qred (snd x) = [3; 5; 7; 2]%Q.
Proof. eexists. split; [vm_compute; reflexivity|]. eexists. split; [reflexivity|]. split; vm_compute; reflexivity. Qed.
(** C19 fails without the survival condition: all distances equal, second threshold just above, third just below them. *)
Theorem C19_smcabc_refuted : exists s, wsample (fun r => (r, 1%Q)) false 0 2 4 3 (9#10) (1#10) 0 0 30 100 None wseed None None 0%Q 0 = Ok s /\
  exists x, m_recs _ _ s = [x] /\ r_w (fst x) = [NaN; NaN; NaN; NaN].
Proof. eexists. split; [vm_compute; reflexivity|]. eexists. split; reflexivity. Qed.
(** ... which the Bernton version answers with an exception (here all distances are dist_max) *)
Theorem C19_smcabc_bernton_refuted : wsample (fun r => (r, 1%Q)) true 1 2 4 2 (1#2) (1#10) 5 0 60 1 None wseed None None 0%Q 0 = Err ValueError.
Proof. vm_compute. reflexivity. Qed.
(** epsilon_final reached before the last step: without full output the journal stays empty *)
Theorem C23_early_stop_refuted : exists s, wsample wprior false 0 2 4 3 (9#10) 100 0 0 30 100 None wseed None None 0%Q 0 = Ok s /\ m_recs _ _ s = [] /\ m_hist _ _ s = [].
Proof. eexists. split; [vm_compute; reflexivity|]. split; reflexivity. Qed.
(** one hit (r_value = 1): neither r-hit kernel can move a particle *)
Theorem C21_smcabc_one_hit_refuted : wsample wprior true 1 1 4 2 (1#2) (1#10) 5 0 30 100 None wseed None None 0%Q 0 = Err ZeroDivisionError
  /\ wsample wprior true 2 1 4 2 (1#2) (1#10) 5 0 30 100 None wseed None None 0%Q 0 = Err ValueError.
Proof. split; vm_compute; reflexivity. Qed.
(** a second call of sample starts from the particles and simulations of the first, not from the prior *)
Theorem C23_second_call_refuted : exists s, wsample wprior false 0 2 4 1 (9#10) (1#10) 0 0 30 100 None wseed (Some (mkpop [1; 2; 3; 4]%Q (ones 4))) (Some [1; 2; 3; 4]%Q) 0%Q 0 = Ok s /\
  exists x, m_recs _ _ s = [x] /\ map Qred (r_rows (fst x)) = [5#4; 9#4; 13#4; 17#4]%Q.
Proof. eexists. split; [vm_compute; reflexivity|]. eexists. split; [reflexivity|]. vm_compute. reflexivity. Qed.
Theorem C23_restart_refuted : wsample wprior false 0 2 4 1 (9#10) (1#10) 0 0 30 100 (Some ([1; 2]%Q, ones 2, [Fin 1; Fin 2], None, [100%Q])) wseed None None 0%Q 0 = Err RuntimeError.
Proof. reflexivity. Qed.
Example C19_case_smcabc : weights_ok [Fin (1#3); Fin (1#3); Fin 0; Fin (1#3)] /\ Alive Q Q (fun y => [Fin y]) 4 false 6 (mkcloud Q Q [3; 5; 7; 2]%Q [3; 5; 7; 2]%Q [Fin 3; Fin 5; Fin 7; Fin 2] [Fin (1#3); Fin (1#3); Fin 0; Fin (1#3)]).
Proof.
  split; [exists [1#3; 1#3; 0; 1#3]%Q; split; [reflexivity|]; split; [repeat constructor; lra | reflexivity]|].
  exists 1, (1#3)%Q, 5%Q. split; [reflexivity|]. split; [lra|]. split; [reflexivity|]. vm_compute. lia.
Qed.
Example C23_bisection_case : bisect (fun x => Fin (x - (1#3))) 12 0 1 (1#1000) = Ok (341 # 1024)%Q.
Proof. vm_compute. reflexivity. Qed.

Print Assumptions C24_refuted.
Print Assumptions C24_refuted_delmoral.
Print Assumptions C19_smcabc_refuted.
Print Assumptions C19_smcabc_bernton_refuted.
Print Assumptions C23_early_stop_refuted.
Print Assumptions C21_smcabc_one_hit_refuted.
Print Assumptions C23_second_call_refuted.
Print Assumptions C23_restart_refuted.
