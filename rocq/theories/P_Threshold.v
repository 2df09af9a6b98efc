(** C23: the thresholds that the bisection of SMCABC finds: what they balance; C26: the mean distance that sets the temperature of SABC. *)
From Coq Require Import Qround Qfield Lqa.
From Verif Require Import M_Base M_Num M_Infer M_PMCABC M_RSMCABC M_SMCABC L_SMCABC M_SABC.
Open Scope Q_scope.

(** number of distances below e *)
Definition below (e : Q) (ds : list num) : nat := length (filter (fun d => nlt d (Fin e)) ds).
Definition count (k : nat) : Q := inject_Z (Z.of_nat k).
(** resampling probabilities: equal for the particles closer than e, 0 for the others *)
Definition equal_below (e : Q) (ds : list num) : list num := map (fun d => Fin ((if nlt d (Fin e) then 1 else 0) / count (below e ds))) ds.
(** [uniq p]: how many different particles one resampling of all particles with probabilities p gives; proportion of them, 0 without particles to choose *)
Definition proportion (uniq : list num -> nat) (n : nat) (ds : list num) (e : Q) : Q :=
  if (below e ds =? 0)%nat then 0 else count (uniq (equal_below e ds)) / count n.
(** sums, and the effective size of weights: (sum w)^2 / sum w^2, 0 if all are 0 *)
Definition total (l : list Q) : Q := fold_right Qplus 0 l.
Definition effective (l : list Q) : Q := if Qeq_bool (total l) 0 then 0 else total l * total l / total (map (fun x => x * x) l).
(** weight of a particle with the distances [row] when the threshold goes from e0 to e *)
Definition reweighted (e0 e : Q) (w : Q) (row : list num) : Q := if (below e0 row =? 0)%nat then 0 else w * (count (below e row) / count (below e0 row)).

(** e' balances g with the level a between lo and hi: g equals a there, or within 1/1000 of it g crosses a (on the left of it g is on the side where it is at lo;
    on the right of it g is on the other side, or the interval ends) *)
Definition Balanced (side : Q -> Prop) (other : Q -> Prop) (zero : Q -> Prop) (lo hi e' : Q) : Prop :=
  zero e' \/ exists a b, lo <= a <= e' /\ e' <= b <= hi /\ b - a <= 1 # 500 /\ side a /\ (b = hi \/ other b).

Lemma mid_between lo hi : lo <= hi -> lo <= Qred ((lo + hi) / 2) <= hi.
Proof. intros H. rewrite Qred_correct. split; [apply Qle_shift_div_l | apply Qle_shift_div_r]; lra. Qed.
Lemma bisect_sign (f : Q -> num) (g : Q -> Q) (s tol : Q) fuel : (forall x, f x = Fin (g x)) -> 0 <= tol -> forall lo hi m, lo <= hi -> 0 < s * g lo -> bisect f fuel lo hi tol = Ok m ->
  g m == 0 \/ exists a b, lo <= a <= m /\ m <= b <= hi /\ b - a <= 2 * tol /\ 0 < s * g a /\ (b = hi \/ s * g b < 0).
Proof.
  intros Hf Ht. assert (Short : forall lo hi, lo <= hi -> 0 < s * g lo -> Qltb tol ((hi - lo) / 2) = false ->
    g (Qred ((lo + hi) / 2)) == 0 \/ exists a b, lo <= a <= Qred ((lo + hi) / 2) /\ Qred ((lo + hi) / 2) <= b <= hi /\ b - a <= 2 * tol /\ 0 < s * g a /\ (b = hi \/ s * g b < 0)).
  { intros lo hi Hl Hs T. right. exists lo, hi. pose proof (mid_between lo hi Hl) as [M1 M2]. unfold Qltb in T. apply negb_false_iff, Qle_bool_iff in T.
    split; [lra|]. split; [lra|]. split; [|split; [exact Hs | left; reflexivity]]. assert (E : hi - lo == 2 * ((hi - lo) / 2)) by field. rewrite E. lra. }
  induction fuel as [|k IH]; intros lo hi m Hl Hs; cbn [bisect]; pose proof (Short lo hi Hl Hs) as Sh; pose proof (mid_between lo hi Hl) as [M1 M2]; set (mid := Qred ((lo + hi) / 2)) in *; clearbody mid;
    (destruct (Qltb tol ((hi - lo) / 2)) eqn:T; [|intros H; injection H as <-; apply Sh; reflexivity]); [discriminate|].
  rewrite !Hf. cbn [neqb nmul nlt]. destruct (Qeq_bool (g mid) 0) eqn:Z; [intros H; injection H as <-; left; apply Qeq_bool_iff, Z|].
  assert (Nz : ~ g mid == 0) by (intros X; apply Qeq_bool_iff in X; congruence).
  destruct (Qle_bool 0 (g lo * g mid)) eqn:P; cbn [negb]; intros H.
  - apply Qle_bool_iff in P. assert (Hm : 0 < s * g mid).
    { destruct (Qlt_le_dec 0 (s * g mid)) as [|L]; [assumption|exfalso]. assert (s * g lo * (s * g mid) <= 0) by nra. assert (0 <= s * s * (g lo * g mid)) by nra.
      assert (E : s * g mid == 0) by nra. destruct (Qeq_dec s 0) as [X|X]; [rewrite X in Hs; lra|]. apply Qmult_integral in E. tauto. }
    destruct (IH mid hi m M2 Hm H) as [|(a & b & A1 & A2 & A3)]; [left; assumption|]. right. exists a, b. split; [lra|]. split; [lra | exact A3].
  - assert (P' : g lo * g mid < 0) by (destruct (Qlt_le_dec (g lo * g mid) 0) as [|L]; [assumption|]; apply Qle_bool_iff in L; congruence).
    assert (Hm : s * g mid < 0) by (assert (0 < s * s) by nra; nra).
    destruct (IH lo mid m M1 Hs H) as [|(a & b & A1 & A2 & A3 & A4 & A5)]; [left; assumption|]. right. exists a, b. split; [lra|]. split; [lra|]. split; [exact A3|]. split; [exact A4|].
    right. destruct A5 as [-> | A5]; assumption.
Qed.

Lemma ind_sum e ds : nsum (ind_weights e ds) = Fin (count (below e ds)).
Proof.
  unfold nsum, below. assert (G : forall k, fold_left nadd (ind_weights e ds) (Fin (count k)) = Fin (count (k + length (filter (fun d => nlt d (Fin e)) ds)))).
  { induction ds as [|d ds IH]; intros k; cbn; [f_equal; f_equal; lia|]. destruct (nlt d (Fin e)); cbn [length].
    - replace (Fin (count k + 1)) with (Fin (count (S k))); [rewrite IH; do 2 f_equal; lia|]. unfold count, inject_Z, Qplus. cbn [Qnum Qden]. do 2 f_equal. lia.
    - replace (Fin (count k + 0)) with (Fin (count k)); [apply IH|]. unfold count, inject_Z, Qplus. cbn [Qnum Qden]. do 2 f_equal. lia. }
  exact (G 0%nat).
Qed.
Lemma count_pos k : (0 < k)%nat -> 0 < count k.
Proof. intros H. unfold count. replace 0 with (inject_Z 0) by reflexivity. rewrite <- Zlt_Qlt. lia. Qed.
Lemma count_0 k : Qeq_bool (count k) 0 = (k =? 0)%nat.
Proof. destruct k; [reflexivity|]. cbn [Nat.eqb]. destruct (Qeq_bool _ _) eqn:E; [|reflexivity]. apply Qeq_bool_iff in E. pose proof (count_pos (S k) ltac:(lia)). lra. Qed.
Lemma ind_normal e ds : below e ds <> 0%nat -> normalise (ind_weights e ds) = equal_below e ds.
Proof.
  intros H. unfold normalise. rewrite ind_sum. unfold ind_weights, equal_below. rewrite map_map. apply map_ext. intros d. destruct (nlt d (Fin e)); cbn [ndiv]; rewrite count_0; destruct (Nat.eqb_spec (below e ds) 0); (contradiction || reflexivity).
Qed.
Lemma eps_ber_eq uniq n ds alpha e : (0 < n)%nat -> exists q, eps_ber uniq n ds alpha e = Fin q /\ q == proportion uniq n ds e - alpha.
Proof.
  intros Hn. unfold eps_ber, proportion. cbv zeta. rewrite ind_sum. cbn [neqb]. rewrite count_0. destruct (Nat.eqb_spec (below e ds) 0) as [Z|Z].
  - eexists. split; [reflexivity|]. ring.
  - rewrite ind_normal by exact Z. unfold ofnat. fold (count (uniq (equal_below e ds))). fold (count n). cbn [ndiv]. rewrite count_0. destruct (Nat.eqb_spec n 0); [lia|]. cbn [nsub nadd nopp]. eexists. split; [reflexivity|]. ring.
Qed.

Section Th.
Variables Y : Type.
Variable dist1 : Y -> list num.
Variable uniq : list num -> nat.

(** C23 (Bernton version).  If at the final threshold resampling would keep a proportion of different particles below alpha, the next threshold keeps the proportion
    alpha, or lies within 1/1000 of a jump of the proportion across alpha, or of the previous threshold. *)
Theorem C23_bernton_threshold : forall n alpha efinal e w ds ys e' nw, efinal <= e -> (0 < n)%nat -> proportion uniq n ds efinal < alpha ->
  sm_reweight Y dist1 uniq true n alpha efinal e w ds ys = Ok (e', nw) ->
  Balanced (fun x => proportion uniq n ds x < alpha) (fun x => alpha < proportion uniq n ds x) (fun x => proportion uniq n ds x == alpha) efinal e e'.
Proof.
  intros n alpha efinal e w ds ys e' nw He Hn Hp H. unfold sm_reweight in H. destruct (negb _); [discriminate|]. destruct (bisect _ _ _ _ _) as [e1|] eqn:B; [|discriminate]. injection H as <- _.
  pose proof (bisect_interval _ _ _ _ _ _ He B) as I. assert (C : (if Qltb e1 efinal then efinal else e1) = e1) by (unfold Qltb; destruct (Qle_bool efinal e1) eqn:X; [reflexivity|]; destruct I as [I _]; apply Qle_bool_iff in I; congruence). rewrite C.
  set (g := fun x => match eps_ber uniq n ds alpha x with Fin q => q | _ => 0 end). assert (G : forall x, eps_ber uniq n ds alpha x = Fin (g x)) by (intros x; unfold g; destruct (eps_ber_eq uniq n ds alpha x Hn) as (q & -> & _); reflexivity).
  assert (V : forall x, g x == proportion uniq n ds x - alpha) by (intros x; unfold g; destruct (eps_ber_eq uniq n ds alpha x Hn) as (q & -> & E); exact E).
  destruct (bisect_sign _ g (- (1)) (1 # 1000) (bisect_fuel efinal e (1 # 1000)) G ltac:(lra) efinal e e1 He) as [Z|(a & b & A1 & A2 & A3 & A4 & A5)]; [rewrite V; lra | exact B | left; rewrite V in Z; lra|].
  right. exists a, b. split; [exact A1|]. split; [exact A2|]. split; [lra|]. split; [rewrite V in A4; lra|]. destruct A5 as [-> | A5]; [left; reflexivity | right; rewrite V in A5; lra].
Qed.

Lemma nsum_total l : exists q, nsum (map Fin l) = Fin q /\ q == total l.
Proof.
  unfold nsum. assert (G : forall l k, exists q, fold_left nadd (map Fin l) (Fin k) = Fin q /\ q == k + total l).
  { clear. induction l as [|x l IH]; intros k; cbn; [exists k; split; [reflexivity | ring]|]. destruct (IH (k + x)) as (q & E & Eq). exists q. split; [exact E|]. change (q == k + (x + total l)). rewrite Eq. ring. }
  destruct (G l 0) as (q & E & Eq). exists q. split; [exact E|]. rewrite Eq. ring.
Qed.
Lemma total_nonneg l : Forall (fun x => 0 <= x) l -> 0 <= total l.
Proof. induction 1 as [|x l H _ IH]; cbn; [lra|]. unfold total in IH. lra. Qed.
Lemma total_zero l : Forall (fun x => 0 <= x) l -> total l == 0 -> Forall (fun x => x == 0) l.
Proof. induction 1 as [|x l H F IH]; cbn; intros E; [constructor|]. pose proof (total_nonneg l F) as N. change (fold_right Qplus 0 l) with (total l) in E. constructor; [lra|]. apply IH. lra. Qed.
Lemma squares_nonneg l : Forall (fun x => 0 <= x) (map (fun x => x * x) l).
Proof. induction l; constructor; [nra | assumption]. Qed.
Lemma squares_pos l : ~ total l == 0 -> 0 < total (map (fun x => x * x) l).
Proof.
  intros H. pose proof (total_nonneg _ (squares_nonneg l)) as N. destruct (Qlt_le_dec 0 (total (map (fun x => x * x) l))) as [|L]; [assumption|exfalso].
  assert (Z : total (map (fun x => x * x) l) == 0) by lra. pose proof (total_zero _ (squares_nonneg l) Z) as A. apply H. clear - A. induction l as [|x l IH]; cbn; [reflexivity|].
  inversion A as [|? ? B C]; subst. rewrite (IH C). assert (x == 0) by (apply Qmult_integral in B; tauto). lra.
Qed.
Lemma ess_eq l : ~ total (map (fun x => x * x) l) == 0 -> exists q, ess (map Fin l) = Fin q /\ q == 1 / total (map (fun x => x * x) l).
Proof.
  intros H. unfold ess. rewrite map_map. cbn [nmul]. rewrite <- (map_map (fun x => x * x) Fin). destruct (nsum_total (map (fun x => x * x) l)) as (q & E & Eq). rewrite E. cbn [ndiv].
  destruct (Qeq_bool q 0) eqn:Z; [apply Qeq_bool_iff in Z; exfalso; apply H; rewrite <- Eq; exact Z|]. eexists. split; [reflexivity|]. rewrite Eq. reflexivity.
Qed.
Lemma total_ext l l' : Forall2 Qeq l l' -> total l == total l'.
Proof. induction 1 as [|x y l l' E _ IH]; cbn; [reflexivity|]. change (x + total l == y + total l'). rewrite E, IH. reflexivity. Qed.
Lemma total_scal c l : total (map (fun x => c * x) l) == c * total l.
Proof. induction l as [|x l IH]; cbn; [ring|]. change (c * x + total (map (fun x => c * x) l) == c * (x + total l)). rewrite IH. ring. Qed.
Lemma ess_normal l : ~ total l == 0 -> exists q, ess (normalise (map Fin l)) = Fin q /\ q == effective l.
Proof.
  intros H. destruct (nsum_total l) as (t & E & Et). assert (Nt : ~ t == 0) by (rewrite Et; exact H). unfold normalise. rewrite E, map_map.
  assert (M : map (fun x => ndiv (Fin x) (Fin t)) l = map Fin (map (fun x => x / t) l)).
  { rewrite map_map. apply map_ext. intros x. cbn [ndiv]. destruct (Qeq_bool t 0) eqn:Z; [apply Qeq_bool_iff in Z; contradiction | reflexivity]. }
  rewrite M. pose proof (squares_pos l H) as P. assert (Sq : total (map (fun x => x * x) (map (fun x => x / t) l)) == / (t * t) * total (map (fun x => x * x) l)).
  { rewrite <- total_scal. apply total_ext. rewrite !map_map. clear - Nt. induction l; constructor; [field; exact Nt | assumption]. }
  destruct (ess_eq (map (fun x => x / t) l)) as (q & Eq & Q).
  - rewrite Sq. intros X. apply Qmult_integral in X. destruct X as [X|X]; [|lra]. assert (t * t * / (t * t) == 1) by (field; exact Nt). rewrite X in H0. lra.
  - exists q. split; [exact Eq|]. rewrite Q, Sq. unfold effective. destruct (Qeq_bool (total l) 0) eqn:Z; [apply Qeq_bool_iff in Z; contradiction|]. rewrite Et. field. split; (exact H || (intros X; lra)).
Qed.
(** the new weights *)
Lemma dm_eq e0 e ws dm : dm_weights e e0 (map Fin ws) dm = map Fin (map (fun wr => reweighted e0 e (fst wr) (snd wr)) (combine ws dm)).
Proof.
  unfold dm_weights. revert dm. induction ws as [|w ws IH]; intros [|row dm]; cbn [map combine]; [reflexivity..|]. f_equal; [|apply IH]. cbn [fst snd]. cbv zeta. unfold reweighted.
  change (n_below e0 row) with (below e0 row). change (n_below e row) with (below e row). pose proof (count_0 (below e0 row)) as C. destruct (Nat.eqb_spec (below e0 row) 0); [reflexivity|]. unfold ofnat. fold (count (below e row)) (count (below e0 row)). cbn [ndiv]. rewrite C. reflexivity.
Qed.
Definition new_weights (e0 : Q) (ws : list Q) (dm : list (list num)) (e : Q) : list Q := map (fun wr => reweighted e0 e (fst wr) (snd wr)) (combine ws dm).
Lemma eps_del_eq ws dm alpha e0 e : ~ total (map (fun x => x * x) ws) == 0 ->
  exists q, eps_del (map Fin ws) dm alpha e0 e = Fin q /\ q == alpha * (1 / total (map (fun x => x * x) ws)) - effective (new_weights e0 ws dm e).
Proof.
  intros H. destruct (ess_eq ws H) as (s & E & Es). unfold eps_del. cbv zeta. rewrite E, dm_eq. fold (new_weights e0 ws dm e). destruct (nsum_total (new_weights e0 ws dm e)) as (t & Et & Ett). rewrite Et. cbn [neqb nmul].
  destruct (Qeq_bool t 0) eqn:Z.
  - eexists. split; [reflexivity|]. unfold effective. apply Qeq_bool_iff in Z. rewrite Ett in Z. destruct (Qeq_bool _ 0) eqn:Z'; [rewrite Es; ring|]. exfalso. apply Qeq_bool_iff in Z. congruence.
  - assert (Nz : ~ total (new_weights e0 ws dm e) == 0) by (intros X; rewrite <- Ett in X; apply Qeq_bool_iff in X; congruence). destruct (ess_normal _ Nz) as (q & -> & Q). cbn [nsub nadd nopp]. eexists. split; [reflexivity|]. rewrite Q, Es. ring.
Qed.

(** C23 (Del Moral version).  The effective size of the reweighted particles at the next threshold is alpha times that of the previous weights (1 / sum w^2 for
    weights of sum 1), or the threshold lies within 1/1000 of a jump across that level, or of the previous threshold; this if the final threshold would give an
    effective size below the level. *)
Theorem C23_delmoral_threshold : forall n alpha efinal e ws ds ys e' nw, efinal <= e -> let dm := map dist1 (firstn n ys) in let level := alpha * (1 / total (map (fun x => x * x) ws)) in
  ~ total (map (fun x => x * x) ws) == 0 -> effective (new_weights e ws dm efinal) < level ->
  sm_reweight Y dist1 uniq false n alpha efinal e (map Fin ws) ds ys = Ok (e', nw) ->
  Balanced (fun x => effective (new_weights e ws dm x) < level) (fun x => level < effective (new_weights e ws dm x)) (fun x => effective (new_weights e ws dm x) == level) efinal e e'.
Proof.
  intros n alpha efinal e ws ds ys e' nw He dm level Hw Hp H. unfold sm_reweight in H. destruct (_ || _); [discriminate|]. cbv zeta in H. fold dm in H. destruct (bisect _ _ _ _ _) as [e1|] eqn:B; [|discriminate]. injection H as <- _.
  pose proof (bisect_interval _ _ _ _ _ _ He B) as I. assert (C : (if Qltb e1 efinal then efinal else e1) = e1) by (unfold Qltb; destruct (Qle_bool efinal e1) eqn:X; [reflexivity|]; destruct I as [I _]; apply Qle_bool_iff in I; congruence). rewrite C.
  set (f := eps_del (map Fin ws) dm alpha e) in *. set (g := fun x => match f x with Fin q => q | _ => 0 end). assert (G : forall x, f x = Fin (g x)) by (intros x; unfold g, f; destruct (eps_del_eq ws dm alpha e x Hw) as (q & -> & _); reflexivity).
  assert (V : forall x, g x == level - effective (new_weights e ws dm x)) by (intros x; unfold g, f; destruct (eps_del_eq ws dm alpha e x Hw) as (q & -> & E); exact E). clearbody level.
  destruct (bisect_sign _ g 1 (1 # 1000) (bisect_fuel efinal e (1 # 1000)) G ltac:(lra) efinal e e1 He) as [Z|(a & b & A1 & A2 & A3 & A4 & A5)]; [rewrite V; lra | exact B | left; rewrite V in Z; lra|].
  right. exists a, b. split; [exact A1|]. split; [exact A2|]. split; [lra|]. split; [rewrite V in A4; lra|]. destruct A5 as [-> | A5]; [left; reflexivity | right; rewrite V in A5; lra].
Qed.
End Th.
Print Assumptions C23_bernton_threshold.
Print Assumptions C23_delmoral_threshold.
(** Non-trivial cases: four particles at distances 1 to 4, previous threshold 10.  The proportion of different particles (here: all that can be chosen) crosses 1/2
    at distance 2, between two and three particles closer; the effective size of three equal weights is 3. *)
Example C23_threshold_case :
  let ds := [Fin 1; Fin 2; Fin 3; Fin 4] in let all p := length (filter (fun x => nlt (Fin 0) x) p) in
  proportion all 4 ds (1 # 10) < 1 # 2 /\ proportion all 4 ds (5 # 2) == 1 # 2 /\ (exists e' nw, sm_reweight unit (fun _ => []) all true 4 (5 # 8) (1 # 10) 10 [] ds [] = Ok (e', nw) /\ 3 - (1 # 1000) <= e' <= 3 + (1 # 1000))
  /\ effective (new_weights 10 (repeat (1 # 4) 4) (map (fun d => [d]) ds) (7 # 2)) == 3.
Proof.
  cbv zeta. split; [reflexivity|]. split; [reflexivity|]. split; [|reflexivity].
  eexists. eexists. split; [vm_compute; reflexivity|]. split; vm_compute; discriminate.
Qed.

(** C26.  The U of SABC is the arithmetic mean of the smoothed distances. *)
Theorem C26_mean : forall l, l <> [] -> exists q, nmean (map Fin l) = Fin q /\ q * count (length l) == total l.
Proof.
  intros l H. destruct (nsum_total l) as (t & E & Et). unfold nmean. rewrite E, map_length. unfold ofnat. fold (count (length l)). cbn [ndiv]. rewrite count_0. destruct l as [|x l]; [contradiction|]. cbn [length Nat.eqb].
  eexists. split; [reflexivity|]. rewrite <- Et. pose proof (count_pos (S (length l)) ltac:(lia)). field. lra.
Qed.
Print Assumptions C26_mean.
Example C26_mean_case : exists q, nmean [Fin (1 # 4); Fin (3 # 4); Fin (1 # 2)] = Fin q /\ q == 1 # 2.
Proof. eexists. split; [vm_compute; reflexivity | reflexivity]. Qed.
