(** C57: the covariance matrices of the perturbation kernels. *)
From Coq Require Import Reals Qreals Lia Lra.
From Verif Require Import M_Base M_Num M_XReal M_MMD M_Stats M_Graph M_Infer M_Journal M_APM M_Kernel M_Cov S_Stats S_Distance S_Wass L_PMC L_Stats L_Distance L_PosDef L_MMD L_Journal2 S_Cov.
Open Scope R_scope.

(** lists *)
Lemma combine_map_r {A B C} (f : B -> C) : forall (w : list A) l, combine w (map f l) = map (fun p => (fst p, f (snd p))) (combine w l).
Proof. induction w as [|a w IH]; intros [|x l]; try reflexivity. cbn [map combine fst snd]. f_equal. apply IH. Qed.
Lemma combine_maps {A B C} (f : A -> B) (g : A -> C) l : combine (map f l) (map g l) = map (fun r => (f r, g r)) l.
Proof. induction l as [|x l IH]; [reflexivity|]. cbn. f_equal. exact IH. Qed.
Lemma over_ext w xs f g : (forall a x, In a w -> In x xs -> f a x = g a x) -> over w xs f = over w xs g.
Proof. intros H. unfold over. apply total_ext. intros [a x] HI. cbn [fst snd]. apply H; [apply in_combine_l in HI|apply in_combine_r in HI]; assumption. Qed.
Lemma over_plus w xs f g : over w xs (fun a x => f a x + g a x) = over w xs f + over w xs g.
Proof. unfold over. apply (total_plus (fun wx => f (fst wx) (snd wx)) (fun wx => g (fst wx) (snd wx))). Qed.
Lemma over_scale w xs c f : over w xs (fun a x => c * f a x) = c * over w xs f.
Proof. unfold over. apply (total_scale (fun wx => f (fst wx) (snd wx))). Qed.
Lemma over_total {I} w xs (F : I -> R -> list R -> R) (L : list I) : over w xs (fun a x => total (map (fun i => F i a x) L)) = total (map (fun i => over w xs (F i)) L).
Proof. unfold over. apply (total_swap (fun wx i => F i (fst wx) (snd wx))). Qed.
Lemma over_nonneg w xs f : (forall a x, In a w -> In x xs -> 0 <= f a x) -> 0 <= over w xs f.
Proof. intros H. unfold over. apply total_nonneg. apply Forall_map, Forall_forall. intros [a x] HI. apply H; [apply in_combine_l in HI|apply in_combine_r in HI]; assumption. Qed.
Lemma over_pos w xs f : (forall a x, In a w -> In x xs -> 0 <= f a x) -> forall k, (k < length w)%nat -> (k < length xs)%nat -> 0 < f (nth k w 0) (nth k xs []) -> 0 < over w xs f.
Proof.
  revert xs. induction w as [|a w IH]; intros [|x xs] H k Hk Hl P; try (cbn in *; lia).
  change (over (a :: w) (x :: xs) f) with (f a x + over w xs f).
  assert (N : 0 <= over w xs f) by (apply over_nonneg; intros; apply H; right; assumption).
  assert (N0 : 0 <= f a x) by (apply H; left; reflexivity).
  destruct k as [|k]; [cbn [nth] in P; lra|]. cbn [nth length] in *.
  assert (0 < over w xs f); [|lra]. apply IH with k; try lia; try assumption. intros; apply H; right; assumption.
Qed.

(** the factor for reliability weights is positive *)
Lemma squares_le w : Forall (fun a => 0 <= a) w -> total (map (fun a => a ^ 2) w) <= total w ^ 2 /\ 0 <= total w.
Proof.
  induction 1 as [|a w Ha Hw IH]; [cbn; lra|]. cbn [map]. rewrite !total_cons. destruct IH as [I1 I2]. split; [|lra].
  pose proof (Rmult_le_pos a (total w) Ha I2). nra.
Qed.
Lemma nth_pos_total w : Forall (fun a => 0 <= a) w -> forall j, 0 < nth j w 0 -> 0 < total w.
Proof.
  induction 1 as [|a w Ha Hw IH]; intros j Hj; [destruct j; cbn in Hj; lra|]. rewrite total_cons. destruct (squares_le w Hw) as [_ I2].
  destruct j as [|j]; cbn [nth] in Hj; [lra|]. specialize (IH j Hj). lra.
Qed.
Lemma squares_lt w : TwoPositive w -> total (map (fun a => a ^ 2) w) < total w ^ 2.
Proof.
  intros [HF (i & j & Hij & Hi & Hj)]. revert i j Hij Hi Hj. induction HF as [|a w Ha Hw IH]; intros i j Hij Hi Hj; [destruct i; cbn in Hi; lra|].
  cbn [map]. rewrite !total_cons. destruct (squares_le w Hw) as [I1 I2]. destruct j as [|j]; [lia|]. cbn [nth] in Hj. pose proof (nth_pos_total w Hw j Hj) as T. destruct i as [|i]; cbn [nth] in Hi.
  - pose proof (Rmult_lt_0_compat a (total w) Hi T). nra.
  - specialize (IH i j ltac:(lia) Hi Hj). pose proof (Rmult_le_pos a (total w) Ha I2). nra.
Qed.
Definition fact (w : list R) : R := total w - total (map (fun a => a ^ 2) w) / total w.
Lemma fact_pos w : TwoPositive w -> 0 < total w /\ 0 < fact w.
Proof.
  intros H. pose proof (squares_lt w H) as S. assert (T : 0 < total w) by (destruct H as [HF (i & j & _ & Hi & _)]; exact (nth_pos_total w HF i Hi)). split; [assumption|].
  unfold fact. apply (Rmult_lt_reg_r (total w)); [assumption|]. rewrite Rmult_0_l. unfold Rdiv. rewrite Rmult_minus_distr_r, Rmult_assoc, Rinv_l by lra. nra.
Qed.

(** np.cov of at least two rows *)
Lemma wavg_fin w xs i : total w <> 0 -> wavg w (map (fun r => nth i r 0) xs) = XR (wmean w xs i).
Proof.
  intros H. unfold wavg. rewrite combine_map_r, map_map. cbn [fst snd].
  change (map (fun p => XR (fst p * nth i (snd p) 0)) (combine w xs)) with (map (fun p => XR ((fun p => fst p * nth i (snd p) 0) p)) (combine w xs)).
  rewrite <- (map_map (fun p => fst p * nth i (snd p) 0) XR), !xsum_fin, !total_rsum. rewrite xdiv_fin by assumption. reflexivity.
Qed.
Lemma wprod_fin w xs i j : total w <> 0 ->
  wprod w (map (fun r => nth i r 0) xs) (map (fun r => nth j r 0) xs) = XR (over w xs (fun a x => a * (coord x i - wmean w xs i) * (coord x j - wmean w xs j))).
Proof.
  intros H. unfold wprod. rewrite !wavg_fin by assumption. rewrite combine_maps, combine_map_r, map_map. cbn [fst snd xsub xopp xadd xmul].
  rewrite <- (map_map (fun p => (nth i (snd p) 0 + - wmean w xs i) * ((nth j (snd p) 0 + - wmean w xs j) * fst p)) XR), xsum_fin, total_rsum.
  f_equal. unfold over. apply total_ext. intros [a x] _. cbn [fst snd]. unfold coord. ring.
Qed.
Definition table (p : nat) (A : nat -> nat -> R) : list (list xr) := map (fun i => map (fun j => XR (A i j)) (seq 0 p)) (seq 0 p).
Lemma many p xs : (2 <= length xs)%nat -> variables p xs = map (fun i => map (fun r => nth i r 0) xs) (seq 0 p) /\ observations p xs = length xs.
Proof. intros H. destruct xs as [|x [|y xs]]; cbn in H; try lia. split; reflexivity. Qed.
Lemma entries_fin w p xs f : total w <> 0 -> 0 < f -> (2 <= length xs)%nat ->
  map (fun u => map (fun v => xmul (wprod w u v) (xdiv (XR 1) (XR (clip f)))) (variables p xs)) (variables p xs)
  = table p (fun i j => over w xs (fun a x => a * (coord x i - wmean w xs i) * (coord x j - wmean w xs j)) / f).
Proof.
  intros HT Hf HL. rewrite (proj1 (many p xs HL)). unfold table. rewrite map_map. apply map_ext. intros i. rewrite map_map. apply map_ext. intros j.
  rewrite wprod_fin by assumption. unfold clip. destruct (Rle_dec f 0) as [|N]; [lra|]. rewrite xdiv_fin by lra. cbn [xmul]. f_equal. unfold Rdiv. ring.
Qed.
Lemma rsuml_total' l : rsuml l = total l.
Proof. reflexivity. Qed.
Lemma np_cov_weighted p xs w : (2 <= length xs)%nat -> length w = length xs -> TwoPositive w -> np_cov p xs (Some w) = Ok (squeeze_cov (table p (wcov w xs))).
Proof.
  intros HL HW HT. destruct (fact_pos w HT) as [T F]. unfold np_cov. rewrite (proj2 (many p xs HL)), HW, Nat.eqb_refl. cbn [negb].
  assert (E : existsb (fun x => if Rlt_dec x 0 then true else false) w = false).
  { destruct HT as [HF _]. clear -HF. induction HF as [|a w Ha HF IH]; [reflexivity|]. cbn [existsb]. destruct (Rlt_dec a 0); [lra|exact IH]. }
  rewrite E, rsuml_total'. destruct (Req_EM_T (total w) 0) as [|_]; [lra|]. do 2 f_equal.
  replace (rsuml (map (fun x => x * x) w)) with (total (map (fun a => a ^ 2) w)) by (symmetry; rewrite rsuml_total'; apply total_ext; intros; simpl; ring).
  change (total w - total (map (fun a => a ^ 2) w) / total w) with (fact w). rewrite entries_fin by (assumption || lra). reflexivity.
Qed.
Lemma total_repeat' c n : total (repeat c n) = INR n * c.
Proof. induction n as [|n IH]; [cbn; lra|]. cbn [repeat]. rewrite total_cons, IH, S_INR. ring. Qed.
Lemma fact_repeat c n : 0 < c -> (2 <= n)%nat -> fact (repeat c n) = c * (INR n - 1).
Proof.
  intros Hc Hn. assert (0 < INR n) by (apply lt_0_INR; lia). unfold fact. rewrite total_repeat'.
  assert (E : map (fun a => a ^ 2) (repeat c n) = repeat (c ^ 2) n) by (clear; induction n; cbn; [reflexivity|f_equal; assumption]). rewrite E, total_repeat'. field. lra.
Qed.
Lemma np_cov_plain p xs : (2 <= length xs)%nat -> np_cov p xs None = Ok (squeeze_cov (table p (wcov (repeat 1 (length xs)) xs))).
Proof.
  intros HL. unfold np_cov. rewrite (proj2 (many p xs HL)). do 2 f_equal.
  pose proof (fact_repeat 1 (length xs) Rlt_0_1 HL) as F. assert (1 < INR (length xs)) by (apply (lt_INR 1); lia).
  rewrite entries_fin; try assumption; [|rewrite total_repeat'; lra|lra].
  unfold table. apply map_ext. intros i. apply map_ext. intros j. unfold wcov. fold (fact (repeat 1 (length xs))). rewrite F. do 2 f_equal. lra.
Qed.
Lemma repeat_two c n : 0 < c -> (2 <= n)%nat -> TwoPositive (repeat c n).
Proof.
  intros Hc Hn. split; [apply Forall_forall; intros a Ha; apply repeat_spec in Ha; subst; lra|].
  exists 0%nat, 1%nat. split; [lia|]. destruct n as [|[|n]]; [lia|lia|]. cbn. split; assumption.
Qed.
Lemma wcov_scale c w xs i j : 0 < c -> 0 < total w -> 0 < fact w -> wcov (map (Rmult c) w) xs i j = wcov w xs i j.
Proof.
  intros Hc HT HF.
  assert (T : total (map (Rmult c) w) = c * total w) by (pose proof (total_scale (fun x => x) c w) as TS; rewrite map_id in TS; exact TS).
  assert (S : total (map (fun a => a ^ 2) (map (Rmult c) w)) = c ^ 2 * total (map (fun a => a ^ 2) w)) by (rewrite map_map, <- total_scale; apply total_ext; intros; ring).
  assert (OV : forall f, over (map (Rmult c) w) xs f = over w xs (fun a x => f (c * a) x)).
  { intros f. unfold over. clear. revert xs. induction w as [|a w IH]; intros [|x xs]; try reflexivity. cbn [map combine fst snd]. rewrite !total_cons, IH. reflexivity. }
  assert (M : forall k, wmean (map (Rmult c) w) xs k = wmean w xs k).
  { intros k. unfold wmean. rewrite OV, T. rewrite (over_ext w xs _ (fun a x => c * (a * coord x k))) by (intros; ring). rewrite over_scale. field. split; lra. }
  unfold wcov. rewrite !M, OV, T, S. rewrite (over_ext w xs _ (fun a x => c * (a * (coord x i - wmean w xs i) * (coord x j - wmean w xs j)))) by (intros; ring). rewrite over_scale.
  unfold fact in HF. set (U := over w xs _). set (Q := total (map (fun a => a ^ 2) w)) in *.
  replace (c * total w - c ^ 2 * Q / (c * total w)) with (c * (total w - Q / total w)) by (field; split; lra). field. repeat split; try lra.
  intros Z. assert (total w * (total w - Q / total w) = 0) by (replace (total w * (total w - Q / total w)) with (total w * total w - Q) by (field; lra); lra).
  apply Rmult_integral in H. lra.
Qed.

(** the rows of a kernel *)
Lemma flat_ok p row : Row p row -> flat_row row = Ok (values row).
Proof.
  intros (NE & [HS|HA] & _).
  - assert (E : forall r, Forall (fun v => exists q, v = KS q) r -> exists l, all_scalars r = Ok l /\ map Q2R l = values r).
    { induction 1 as [|v r (q & ->) _ IH]; [exists []; split; reflexivity|]. destruct IH as (l & E1 & E2). exists (q :: l). cbn [all_scalars]. rewrite E1. split; [reflexivity|]. cbn. rewrite E2. reflexivity. }
    destruct (E row HS) as (l & E1 & E2). destruct HS as [|v r (q & ->) HS]; [congruence|]. unfold flat_row. rewrite E1. cbn [rthen]. rewrite E2. reflexivity.
  - assert (E : forall r, Forall (fun v => exists l, v = KA l) r -> exists ls, all_arrays r = Ok ls /\ map Q2R (concat ls) = values r).
    { induction 1 as [|v r (l & ->) _ IH]; [exists []; split; reflexivity|]. destruct IH as (ls & E1 & E2). exists (l :: ls). cbn [all_arrays]. rewrite E1. split; [reflexivity|]. cbn. rewrite map_app, E2. reflexivity. }
    destruct (E row HA) as (ls & E1 & E2). destruct HA as [|v r (l & ->) HA]; [congruence|]. unfold flat_row. rewrite E1. cbn [rthen]. rewrite E2. reflexivity.
Qed.
Lemma row_numbers qs : qs <> [] -> Row (length qs) (map KS qs).
Proof.
  intros H. split; [destruct qs; [congruence|discriminate]|]. split; [left; apply Forall_map, Forall_forall; intros q _; exists q; reflexivity|].
  unfold values. clear. induction qs as [|q qs IH]; [reflexivity|]. cbn [map flat_map app length]. f_equal. exact IH.
Qed.
Lemma row_array l : Row (length l) [KA l].
Proof. split; [discriminate|]. split; [right; constructor; [exists l; reflexivity|constructor]|]. cbn. rewrite app_nil_r, map_length. reflexivity. Qed.
Lemma calc_rows p rows aw : rows <> [] -> Forall (Row p) rows -> calculate_cov rows aw = np_cov p (map values rows) aw.
Proof.
  intros NE HR. unfold calculate_cov. rewrite (mapR_map flat_row values) by (intros r Hr; rewrite Forall_forall in HR; apply (flat_ok p), HR; assumption). cbn [rthen].
  destruct rows as [|r rows]; [congruence|]. cbn [map]. inversion HR as [|? ? (_ & _ & Lr) HR']; subst.
  replace (forallb _ _) with true; [reflexivity|]. symmetry. apply forallb_forall. intros x Hx. change (values r :: map values rows) with (map values (r :: rows)) in Hx. apply in_map_iff in Hx. destruct Hx as (r' & <- & Hr').
  rewrite Forall_forall in HR. apply HR in Hr'. destruct Hr' as (_ & _ & L). rewrite L. apply Nat.eqb_refl.
Qed.
Lemma table_len p A : length (table p A) = p.
Proof. unfold table. rewrite map_length, seq_length. reflexivity. Qed.
Lemma table_row p A i : (i < p)%nat -> nth i (table p A) [] = map (fun j => XR (A i j)) (seq 0 p).
Proof.
  intros H. unfold table. rewrite nth_indep with (d' := (fun i => map (fun j => XR (A i j)) (seq 0 p)) 0%nat) by (rewrite map_length, seq_length; assumption).
  rewrite (map_nth (fun i => map (fun j => XR (A i j)) (seq 0 p))), seq_nth by assumption. reflexivity.
Qed.
Lemma table_at p A i j : (i < p)%nat -> (j < p)%nat -> nth j (nth i (table p A) []) XNaN = XR (A i j).
Proof.
  intros Hi Hj. rewrite table_row by assumption. rewrite nth_indep with (d' := (fun j => XR (A i j)) 0%nat) by (rewrite map_length, seq_length; assumption).
  rewrite (map_nth (fun j => XR (A i j))), seq_nth by assumption. reflexivity.
Qed.
Lemma squeeze_is p A : (1 <= p)%nat -> IsMatrix p A (squeeze_cov (table p A)).
Proof.
  intros Hp. destruct p as [|[|p]]; [lia|cbn; split; reflexivity|]. assert (E : squeeze_cov (table (S (S p)) A) = Matrix (table (S (S p)) A)) by reflexivity. rewrite E.
  split; [apply table_len|]. intros i Hi. split; [rewrite table_row by assumption; rewrite map_length, seq_length; reflexivity|]. intros j Hj. apply table_at; assumption.
Qed.

(** With at least two particles, and at least two positive weights, the matrix is the weighted covariance; without weights
    it is the one for equal weights. *)
Theorem C57_value : forall p rows w, (1 <= p)%nat -> (2 <= length rows)%nat -> Forall (Row p) rows -> length w = length rows -> TwoPositive w ->
  exists a, calculate_cov rows (Some w) = Ok a /\ IsMatrix p (wcov w (map values rows)) a.
Proof.
  intros p rows w Hp HL HR HW HT. rewrite (calc_rows p) by (assumption || (destruct rows; cbn in HL; [lia|discriminate])).
  rewrite np_cov_weighted by (rewrite ?map_length; assumption). eexists. split; [reflexivity|]. apply squeeze_is. assumption.
Qed.
Theorem C57_unweighted : forall p rows c, (1 <= p)%nat -> (2 <= length rows)%nat -> Forall (Row p) rows -> 0 < c ->
  calculate_cov rows None = calculate_cov rows (Some (repeat c (length rows))).
Proof.
  intros p rows c Hp HL HR Hc. rewrite !(calc_rows p) by (assumption || (destruct rows; cbn in HL; [lia|discriminate])).
  rewrite np_cov_plain by (rewrite map_length; assumption). rewrite np_cov_weighted; try (rewrite ?map_length, ?repeat_length; assumption || reflexivity); [|apply repeat_two; assumption].
  do 2 f_equal. unfold table. apply map_ext. intros i. apply map_ext. intros j. f_equal. rewrite map_length.
  replace (repeat c (length rows)) with (map (Rmult c) (repeat 1 (length rows))) by (clear; induction (length rows); cbn; [reflexivity|f_equal; [lra|assumption]]).
  symmetry. destruct (fact_pos (repeat 1 (length rows)) (repeat_two 1 _ Rlt_0_1 HL)). apply wcov_scale; assumption.
Qed.
(** Multiplying all weights by a positive number changes nothing. *)
Theorem C57_scale : forall p rows w c, (1 <= p)%nat -> (2 <= length rows)%nat -> Forall (Row p) rows -> length w = length rows -> TwoPositive w -> 0 < c ->
  calculate_cov rows (Some (map (Rmult c) w)) = calculate_cov rows (Some w).
Proof.
  intros p rows w c Hp HL HR HW HT Hc. rewrite !(calc_rows p) by (assumption || (destruct rows; cbn in HL; [lia|discriminate])).
  assert (HT' : TwoPositive (map (Rmult c) w)).
  { destruct HT as [HF (i & j & Hij & Hi & Hj)]. split; [apply Forall_map; eapply Forall_impl; [|exact HF]; intros a Ha; apply Rmult_le_pos; lra|].
    exists i, j. split; [assumption|]. assert (N : forall k, nth k (map (Rmult c) w) 0 = c * nth k w 0) by (intros k; rewrite <- (map_nth (Rmult c)); f_equal; ring).
    rewrite !N. split; apply Rmult_lt_0_compat; assumption. }
  rewrite !np_cov_weighted by (rewrite ?map_length; assumption). do 2 f_equal. unfold table. apply map_ext. intros i. apply map_ext. intros j. f_equal.
  destruct (fact_pos w HT). apply wcov_scale; assumption.
Qed.
(** Weights that define no covariance are refused: too many or too few, a negative one, or a zero sum. *)
Theorem C57_refused : forall p rows w, (1 <= p)%nat -> (2 <= length rows)%nat -> Forall (Row p) rows ->
  (length w <> length rows -> calculate_cov rows (Some w) = Err RuntimeError) /\
  (length w = length rows -> (exists a, In a w /\ a < 0) -> calculate_cov rows (Some w) = Err ValueError) /\
  (length w = length rows -> Forall (fun a => a = 0) w -> calculate_cov rows (Some w) = Err ZeroDivisionError).
Proof.
  intros p rows w Hp HL HR. rewrite (calc_rows p) by (assumption || (destruct rows; cbn in HL; [lia|discriminate])).
  unfold np_cov. rewrite (proj2 (many p (map values rows) ltac:(rewrite map_length; assumption))), map_length. split; [|split].
  - intros H. apply Nat.eqb_neq in H. rewrite H. reflexivity.
  - intros -> (a & Ha & Hn). rewrite Nat.eqb_refl. cbn [negb]. replace (existsb _ _) with true; [reflexivity|]. symmetry. apply existsb_exists. exists a. split; [assumption|]. destruct (Rlt_dec a 0); [reflexivity|lra].
  - intros -> HZ. rewrite Nat.eqb_refl. cbn [negb]. replace (existsb _ _) with false.
    + rewrite rsuml_total'. destruct (Req_EM_T (total w) 0) as [_|N]; [reflexivity|]. exfalso. apply N. clear -HZ. induction HZ as [|a w -> HZ IH]; [reflexivity|]. rewrite total_cons, IH. lra.
    + symmetry. clear -HZ. induction HZ as [|a w -> HZ IH]; [reflexivity|]. cbn [existsb]. destruct (Rlt_dec 0 0); [lra|exact IH].
Qed.

(** The matrix that is used for the moves: the factor times the covariance, plus the trace times 1e-20 on the diagonal;
    always two-dimensional. *)
Definition widened (c : R) (p : nat) (A : nat -> nat -> R) (i j : nat) : R := c * A i j + / 10 ^ 20 * trace p A * (if (i =? j)%nat then 1 else 0).
Lemma mtrace_fin p A m : length m = p -> (forall i, (i < p)%nat -> length (nth i m []) = p /\ forall j, (j < p)%nat -> nth j (nth i m []) XNaN = XR (A i j)) -> mtrace m = XR (trace p A).
Proof.
  intros L H. unfold mtrace, trace. rewrite L. rewrite (map_ext_in _ (fun i => XR (A i i))).
  - rewrite <- (map_map (fun i => A i i) XR), xsum_fin, total_rsum. reflexivity.
  - intros i Hi. apply in_seq in Hi. apply H; lia.
Qed.
Lemma msize_len p m : length m = p -> (forall i, (i < p)%nat -> length (nth i m []) = p) -> msize m = (p * p)%nat.
Proof.
  intros L H. unfold msize. assert (F : Forall (fun r => length r = p) m). { apply Forall_forall. intros r Hr. apply (In_nth _ _ []) in Hr. destruct Hr as (i & Hi & <-). apply H. lia. }
  rewrite <- L at 2. clear L H. induction F as [|r m Hr F IH]; [cbn; lia|]. cbn [concat]. rewrite app_length, IH, Hr. cbn. lia.
Qed.
Theorem C57_accepted : forall p A a c, IsMatrix p A a -> exists m, accepted_one (XR c) a = Matrix m /\ IsMatrix p (widened c p A) (Matrix m).
Proof.
  intros p A [x| |m] c H; [| |]; cbn [IsMatrix] in H.
  - destruct H as [-> ->]. cbn [accepted_one]. eexists. split; [reflexivity|]. split; [reflexivity|]. intros i Hi. assert (i = 0)%nat by lia. subst. split; [reflexivity|]. intros j Hj. assert (j = 0)%nat by lia. subst. cbn [nth]. unfold scale_one. cbn [xmul xadd]. f_equal. unfold widened, trace, tiny. cbn [seq map total fold_right Nat.eqb]. ring.
  - destruct H.
  - destruct H as [L H]. pose proof (msize_len p m L (fun i Hi => proj1 (H i Hi))) as S. pose proof (mtrace_fin p A m L H) as T. cbn [accepted_one].
    destruct (negb (msize m =? 1)%nat) eqn:E1.
    + eexists. split; [reflexivity|]. split; [rewrite map_length, seq_length; assumption|]. intros i Hi. rewrite T.
      set (F := fun i0 => map (fun j => xadd (xmul (XR c) (nth j (nth i0 m []) XNaN)) (xmul (xmul (XR tiny) (XR (trace p A))) (XR (if (i0 =? j)%nat then 1 else 0)))) (seq 0 (length (nth i0 m [])))).
      change (length (nth i (map F (seq 0 (length m))) []) = p /\ (forall j, (j < p)%nat -> nth j (nth i (map F (seq 0 (length m))) []) XNaN = XR (widened c p A i j))).
      rewrite (nth_indep (map F (seq 0 (length m))) [] (F 0%nat)) by (rewrite map_length, seq_length; lia). rewrite (map_nth F), seq_nth by lia. cbn [Nat.add]. unfold F. rewrite (proj1 (H i Hi)).
      split; [rewrite map_length, seq_length; reflexivity|]. intros j Hj.
      set (Gf := fun j => xadd (xmul (XR c) (nth j (nth i m []) XNaN)) (xmul (xmul (XR tiny) (XR (trace p A))) (XR (if (i =? j)%nat then 1 else 0)))).
      rewrite (nth_indep (map Gf (seq 0 p)) XNaN (Gf 0%nat)) by (rewrite map_length, seq_length; lia). rewrite (map_nth Gf), seq_nth by lia. cbn [Nat.add]. unfold Gf. rewrite (proj2 (H i Hi) j Hj). cbn [xmul xadd]. reflexivity.
    + apply Bool.negb_false_iff, Nat.eqb_eq in E1. destruct p as [|[|p]]; [nia| |nia]. eexists. split; [reflexivity|]. split; [reflexivity|]. intros i Hi. assert (i = 0)%nat by lia. subst. split; [reflexivity|]. intros j Hj. assert (j = 0)%nat by lia. subst.
      rewrite (proj2 (H 0%nat ltac:(lia)) 0%nat ltac:(lia)). cbn [nth]. unfold scale_one. cbn [xmul xadd]. f_equal. unfold widened, trace, tiny. cbn [seq map total fold_right Nat.eqb]. ring.
Qed.

(** positive definiteness *)
Lemma quad_wcov p w xs u : quad p (wcov w xs) u = over w xs (fun a x => a * (total (map (fun i => u i * (coord x i - wmean w xs i)) (seq 0 p))) ^ 2) / fact w.
Proof.
  unfold quad, wcov. fold (fact w).
  transitivity (total (map (fun i => total (map (fun j => / fact w * over w xs (fun a x => a * ((u i * (coord x i - wmean w xs i)) * (u j * (coord x j - wmean w xs j))))) (seq 0 p))) (seq 0 p))).
  { apply total_ext. intros i _. apply total_ext. intros j _. unfold Rdiv. rewrite (over_ext w xs (fun a x => a * (u i * _ * _)) (fun a x => (u i * u j) * (a * (coord x i - wmean w xs i) * (coord x j - wmean w xs j)))) by (intros; ring). rewrite over_scale. ring. }
  rewrite (total_ext _ (fun i => / fact w * over w xs (fun a x => total (map (fun j => a * ((u i * (coord x i - wmean w xs i)) * (u j * (coord x j - wmean w xs j)))) (seq 0 p))))) by (intros i _; rewrite total_scale, over_total; reflexivity).
  rewrite total_scale, <- over_total. unfold Rdiv. rewrite Rmult_comm. f_equal. apply over_ext. intros a x _ _.
  rewrite (total_ext _ (fun i => (a * (u i * (coord x i - wmean w xs i))) * total (map (fun j => u j * (coord x j - wmean w xs j)) (seq 0 p)))) by (intros i _; rewrite <- total_scale; apply total_ext; intros; ring).
  set (T := total (map (fun j => u j * (coord x j - wmean w xs j)) (seq 0 p))).
  rewrite (total_ext _ (fun i => (a * T) * (u i * (coord x i - wmean w xs i)))) by (intros; ring). rewrite total_scale. fold T. ring.
Qed.
Lemma quad_widened c p A u : quad p (widened c p A) u = c * quad p A u + / 10 ^ 20 * trace p A * norm_sq p u.
Proof.
  unfold quad, norm_sq, widened. rewrite <- !total_scale, <- total_plus. apply total_ext. intros i Hi.
  rewrite (total_ext _ (fun j => c * (u i * A i j * u j) + (/ 10 ^ 20 * trace p A * u i) * (if (i =? j)%nat then u j else 0))) by (intros j _; destruct (i =? j)%nat; ring).
  rewrite total_plus, !total_scale. f_equal.
  assert (D : total (map (fun j => if (i =? j)%nat then u j else 0) (seq 0 p)) = u i).
  { apply in_seq in Hi. assert (G : forall s n, (s <= i < s + n)%nat -> total (map (fun j => if (i =? j)%nat then u j else 0) (seq s n)) = u i).
    { intros s n. revert s. induction n as [|n IH]; intros s Hs; [lia|]. cbn [seq map]. rewrite total_cons. destruct (Nat.eqb_spec i s) as [->|N].
      - replace (total (map (fun j => if (s =? j)%nat then u j else 0) (seq (S s) n))) with 0; [lra|]. symmetry. rewrite (total_ext _ (fun _ => 0)); [rewrite total_const; ring|]. intros j Hj. apply in_seq in Hj. destruct (Nat.eqb_spec s j); [lia|reflexivity].
      - rewrite IH by lia. lra. }
    apply G. lia. }
  rewrite D. ring.
Qed.
Lemma trace_wcov p w xs : trace p (wcov w xs) = over w xs (fun a x => a * total (map (fun i => (coord x i - wmean w xs i) ^ 2) (seq 0 p))) / fact w.
Proof.
  unfold trace, wcov. fold (fact w). unfold Rdiv. rewrite (over_ext w xs _ (fun a x => total (map (fun i => a * (coord x i - wmean w xs i) ^ 2) (seq 0 p)))) by (intros; rewrite total_scale; reflexivity).
  rewrite over_total, Rmult_comm, <- total_scale. apply total_ext. intros i _. rewrite Rmult_comm. f_equal. apply over_ext. intros. ring.
Qed.
Lemma norm_sq_pos p u : (exists i, (i < p)%nat /\ u i <> 0) -> 0 < norm_sq p u.
Proof.
  intros (i & Hi & Hu). unfold norm_sq. assert (HI : In i (seq 0 p)) by (apply in_seq; lia). revert HI. generalize (seq 0 p). induction l as [|k l IH]; [intros []|]. cbn [map]. rewrite total_cons.
  assert (N : 0 <= total (map (fun i => u i ^ 2) l)) by (apply total_nonneg, Forall_map, Forall_forall; intros; apply pow2_ge_0). pose proof (pow2_ge_0 (u k)).
  intros [-> | HI]; [|specialize (IH HI); lra]. assert (0 < u i ^ 2) by (rewrite <- Rsqr_pow2; apply Rsqr_pos_lt; assumption). lra.
Qed.
(** two particles with positive weights are different *)
Definition Spread (p : nat) (w : list R) (xs : list (list R)) : Prop :=
  exists k l i, (k < length xs)%nat /\ (l < length xs)%nat /\ (i < p)%nat /\ 0 < nth k w 0 /\ 0 < nth l w 0 /\ coord (nth k xs []) i <> coord (nth l xs []) i.
Lemma trace_pos p w xs : TwoPositive w -> length w = length xs -> Spread p w xs -> 0 < trace p (wcov w xs).
Proof.
  intros HT HL (k & l & i & Hk & Hl & Hi & Pk & Pl & D). destruct (fact_pos w HT) as [T F]. rewrite trace_wcov. apply Rmult_lt_0_compat; [|apply Rinv_0_lt_compat; assumption].
  assert (HN : forall a x, In a w -> In x xs -> 0 <= a * total (map (fun i => (coord x i - wmean w xs i) ^ 2) (seq 0 p))).
  { intros a x Ha _. destruct HT as [HF _]. rewrite Forall_forall in HF. apply Rmult_le_pos; [apply HF; assumption|]. apply total_nonneg, Forall_map, Forall_forall. intros; apply pow2_ge_0. }
  assert (C : coord (nth k xs []) i <> wmean w xs i \/ coord (nth l xs []) i <> wmean w xs i).
  { destruct (Req_dec (coord (nth k xs []) i) (wmean w xs i)) as [E|E]; [right; congruence|left; assumption]. }
  assert (W : forall r, (r < length xs)%nat -> 0 < nth r w 0 -> coord (nth r xs []) i <> wmean w xs i -> 0 < over w xs (fun a x => a * total (map (fun i => (coord x i - wmean w xs i) ^ 2) (seq 0 p)))).
  { intros r Hr Pr Cr. apply over_pos with r; try assumption; try lia. apply Rmult_lt_0_compat; [assumption|]. apply (norm_sq_pos p (fun i => coord (nth r xs []) i - wmean w xs i)). exists i. split; [assumption|lra]. }
  destruct C as [C|C]; [apply (W k)|apply (W l)]; assumption.
Qed.
(** If two particles with positive weights differ, the matrix is symmetric and positive definite (for a factor that is not
    negative), also where the particles lie in a subspace. *)
Theorem C57_positive_definite : forall p rows w c, (1 <= p)%nat -> (2 <= length rows)%nat -> Forall (Row p) rows -> length w = length rows -> TwoPositive w ->
  Spread p w (map values rows) -> 0 <= c ->
  exists a m B, calculate_cov rows (Some w) = Ok a /\ accepted_one (XR c) a = Matrix m /\ IsMatrix p B (Matrix m) /\
    (forall i j, (i < p)%nat -> (j < p)%nat -> B i j = B j i) /\ forall u, (exists i, (i < p)%nat /\ u i <> 0) -> 0 < quad p B u.
Proof.
  intros p rows w c Hp HL HR HW HT HD Hc. destruct (C57_value p rows w Hp HL HR HW HT) as (a & E & HM). destruct (C57_accepted p _ a c HM) as (m & Em & HB).
  exists a, m, (widened c p (wcov w (map values rows))). split; [assumption|]. split; [assumption|]. split; [assumption|]. split.
  - intros i j _ _. unfold widened. rewrite (Nat.eqb_sym j i). f_equal. f_equal. unfold wcov. f_equal. apply over_ext. intros. ring.
  - intros u Hu. rewrite quad_widened, quad_wcov. destruct (fact_pos w HT) as [T F].
    pose proof (trace_pos p w (map values rows) HT ltac:(rewrite map_length; assumption) HD) as TP. pose proof (norm_sq_pos p u Hu) as NP.
    assert (TT : 0 < / 10 ^ 20 * trace p (wcov w (map values rows)) * norm_sq p u) by (apply Rmult_lt_0_compat; [apply Rmult_lt_0_compat; [apply Rinv_0_lt_compat, pow_lt; lra|assumption]|assumption]).
    match goal with |- 0 < c * (?O / _) + _ => assert (Q : 0 <= O) end.
    { apply over_nonneg. intros x y Hx _. destruct HT as [HF _]. rewrite Forall_forall in HF. apply Rmult_le_pos; [apply HF; assumption|apply pow2_ge_0]. }
    match goal with |- 0 < c * ?O + _ => assert (0 <= c * O); [|lra] end. apply Rmult_le_pos; [assumption|]. apply Rmult_le_pos; [assumption|]. left. apply Rinv_0_lt_compat. assumption.
Qed.
(** Otherwise (all particles with positive weight are the same) it is zero: a move cannot leave the point. *)
Theorem C57_degenerate : forall p rows w c v, (1 <= p)%nat -> (2 <= length rows)%nat -> Forall (Row p) rows -> length w = length rows -> TwoPositive w ->
  (forall k, (k < length rows)%nat -> 0 < nth k w 0 -> values (nth k rows []) = v) ->
  exists a m, calculate_cov rows (Some w) = Ok a /\ accepted_one (XR c) a = Matrix m /\ IsMatrix p (fun _ _ => 0) (Matrix m).
Proof.
  intros p rows w c v Hp HL HR HW HT HV. destruct (C57_value p rows w Hp HL HR HW HT) as (a & E & HM). destruct (C57_accepted p _ a c HM) as (m & Em & HB).
  exists a, m. split; [assumption|]. split; [assumption|]. destruct (fact_pos w HT) as [T F].
  assert (OZ : forall f : list R -> R, f v = 0 -> over w (map values rows) (fun a x => a * f x) = 0).
  { intros f Hf. destruct HT as [HF _]. unfold over. rewrite combine_map_r, map_map. cbn [fst snd].
    assert (Z : forall q, In q (combine w rows) -> fst q * f (values (snd q)) = 0).
    { intros q Hq. apply (In_nth _ _ (0, [])) in Hq. destruct Hq as (k & Hk & <-). rewrite combine_length in Hk. rewrite combine_nth by assumption. cbn [fst snd].
      destruct (Rlt_dec 0 (nth k w 0)) as [P|N]; [rewrite (HV k) by (lia || assumption); rewrite Hf; ring|].
      assert (0 <= nth k w 0) by (rewrite Forall_forall in HF; apply HF, nth_In; lia). replace (nth k w 0) with 0 by lra. ring. }
    rewrite (total_ext _ (fun _ => 0)) by (intros q Hq; apply Z; assumption). rewrite total_const. ring. }
  assert (M : forall i, wmean w (map values rows) i = coord v i).
  { intros i. unfold wmean. rewrite (over_ext w _ _ (fun a x => a * (coord x i - coord v i) + coord v i * a)) by (intros; ring). rewrite over_plus, over_scale, (OZ (fun x => coord x i - coord v i)) by lra.
    assert (OT : over w (map values rows) (fun a _ => a) = total w).
    { unfold over. rewrite <- (map_id w) at 2. clear -HW. assert (L : length w = length (map values rows)) by (rewrite map_length; assumption). revert L. generalize (map values rows). clear HW. induction w as [|x w IH]; intros [|y l] L; try discriminate; [reflexivity|]. cbn [combine map fst]. rewrite !total_cons, (IH l) by (cbn in L; lia). reflexivity. }
    rewrite OT. field. lra. }
  assert (Z : forall i j, wcov w (map values rows) i j = 0).
  { intros i j. unfold wcov. rewrite !M. rewrite (over_ext w _ _ (fun a x => a * ((coord x i - coord v i) * (coord x j - coord v j)))) by (intros; ring). rewrite OZ by ring. unfold Rdiv. ring. }
  destruct HB as [L H]. split; [assumption|]. intros i Hi. destruct (H i Hi) as [H1 H2]. split; [assumption|]. intros j Hj. rewrite (H2 j Hj). f_equal. unfold widened.
  assert (TZ : trace p (wcov w (map values rows)) = 0) by (unfold trace; rewrite (total_ext _ (fun _ => 0)) by (intros; apply Z); rewrite total_const; ring). rewrite Z, TZ. ring.
Qed.
(** A single positive weight gives no numbers at all, ... *)
Theorem C57_one_weight_refuted : forall c a b, 0 < c -> calculate_cov [[KS a]; [KS b]] (Some [c; 0]) = Ok (Scalar XNaN).
Proof.
  intros c a b Hc. rewrite (calc_rows 1) by (first [discriminate | repeat apply Forall_cons; [exact (row_numbers [a] ltac:(discriminate))|exact (row_numbers [b] ltac:(discriminate))|apply Forall_nil]]).
  cbn [map values flat_map app]. unfold np_cov. cbn [observations length Nat.eqb negb existsb]. destruct (Rlt_dec c 0); [lra|]. destruct (Rlt_dec 0 0); [lra|]. cbn [orb].
  rewrite !rsuml_total'. destruct (Req_EM_T (total [c; 0]) 0) as [Z|_]; [cbn in Z; lra|]. do 2 f_equal. cbn [variables seq map nth]. 
  assert (HT : total [c; 0] <> 0) by (cbn; lra).
  pose proof (wprod_fin [c; 0] [[Q2R a]; [Q2R b]] 0 0 HT) as WP. cbn [map nth] in WP. rewrite WP.
  assert (M : wmean [c; 0] [[Q2R a]; [Q2R b]] 0 = Q2R a) by (unfold wmean, over, coord; cbn; field; lra).
  assert (O : over [c; 0] [[Q2R a]; [Q2R b]] (fun a0 x => a0 * (coord x 0 - wmean [c; 0] [[Q2R a]; [Q2R b]] 0) * (coord x 0 - wmean [c; 0] [[Q2R a]; [Q2R b]] 0)) = 0) by (rewrite M; unfold over, coord; cbn; ring).
  rewrite O. assert (C : clip (total [c; 0] - total [c * c; 0 * 0] / total [c; 0]) = 0).
  { unfold clip. destruct (Rle_dec _ 0) as [|N]; [reflexivity|]. exfalso. apply N. cbn. right. field. lra. }
  match goal with |- context [clip ?x] => change (clip x) with (clip (total [c; 0] - total [c * c; 0 * 0] / total [c; 0])) end. rewrite C. cbn [xdiv]. unfold rsign. destruct (total_order_T 0 0) as [[?|_]|?]; [lra| |lra]. destruct (total_order_T 1 0) as [[?|?]|_]; [lra|lra|]. cbn [xneg negb xmul xsgn]. unfold rsign. destruct (total_order_T 0 0) as [[?|_]|?]; [lra|reflexivity|lra].
Qed.
(** ... and a population of one particle is treated as one variable: with a weight this is an error, without weights the
    spread among the parameters of the particle becomes a 1 x 1 matrix. *)
Theorem C57_one_particle : forall p row w, (2 <= p)%nat -> Row p row -> calculate_cov [row] (Some [w]) = Err RuntimeError.
Proof.
  intros p row w Hp HR. rewrite (calc_rows p) by (first [discriminate | constructor; [assumption|constructor]]). unfold np_cov. cbn [map observations length].
  destruct (Nat.eqb_spec 1 p); [lia|reflexivity].
Qed.
Theorem C57_one_particle_refuted : calculate_cov [[KS 1; KS 3]] None = Ok (Scalar (XR 2)) /\
  exists m, accepted_one (XR 1) (Scalar (XR 2)) = Matrix m /\ length m = 1%nat.
Proof.
  split; [|eexists; split; reflexivity]. rewrite (calc_rows 2) by (first [discriminate | repeat apply Forall_cons; [exact (row_numbers [1%Q; 3%Q] ltac:(discriminate))|apply Forall_nil]]).
  unfold np_cov. cbn [map values flat_map app observations variables repeat squeeze_cov]. replace (Q2R 1) with 1 by (unfold Q2R; cbn; field). replace (Q2R 3) with 3 by (unfold Q2R; cbn; field).
  assert (A : wavg [1; 1] [1; 3] = XR 2). { unfold wavg. cbn [combine map fst snd]. change [XR (1 * 1); XR (1 * 3)] with (map XR [1 * 1; 1 * 3]). change [XR 1; XR 1] with (map XR [1; 1]). rewrite !xsum_fin, !total_rsum. rewrite xdiv_fin by (cbn; lra). f_equal. cbn. field. }
  do 2 f_equal. unfold wprod. rewrite !A. cbn [combine map fst snd xsub xopp xadd xmul].
  match goal with |- xmul (xsum [XR ?x; XR ?y]) _ = _ => change [XR x; XR y] with (map XR [x; y]) end. rewrite xsum_fin, total_rsum. cbn [total fold_right INR].
  unfold clip. destruct (Rle_dec (1 + 1 - 1) 0) as [|_]; [lra|]. rewrite xdiv_fin by lra. cbn [xmul]. f_equal. field.
Qed.
(** One factor per kernel: with fewer factors than kernels the last kernels get no matrix. *)
Theorem C57_factors : forall cs covs, length (compute_accepted_cov_mats_pmc cs covs) = Nat.min (length cs) (length covs) /\
  forall k c a, nth_error cs k = Some c -> nth_error covs k = Some a -> nth_error (compute_accepted_cov_mats_pmc cs covs) k = Some (accepted_one c a).
Proof.
  intros cs covs. unfold compute_accepted_cov_mats_pmc. split; [rewrite map_length, combine_length; reflexivity|].
  intros k. revert cs covs. induction k as [|k IH]; intros [|c0 cs] [|a0 covs] c a Hc Ha; try discriminate; cbn in *; [congruence|]. apply IH; assumption.
Qed.
(** The other schemes use one factor for all kernels: every kernel gets its matrix, in the order of the kernels, and for a covariance matrix it is the one with
    entries c times those of A plus 1e-20 times the trace on the diagonal. *)
Theorem C57_one_factor : forall c covs, length (compute_accepted_cov_mats (XR c) covs) = length covs /\
  forall i p A a, nth_error covs i = Some a -> IsMatrix p A a ->
  exists m, nth_error (compute_accepted_cov_mats (XR c) covs) i = Some (Matrix m) /\ IsMatrix p (widened c p A) (Matrix m).
Proof.
  intros c covs. unfold compute_accepted_cov_mats. split; [apply map_length|]. intros i p A a Hi HA. destruct (C57_accepted p A a c HA) as (m & E & Hm).
  exists m. split; [|exact Hm]. rewrite (map_nth_error _ _ _ Hi), E. reflexivity.
Qed.
Print Assumptions C57_one_factor.
(** Kernels for discrete parameters have no covariance: they get the 1 x 1 zero matrix whatever the factor. *)
Theorem C57_walk : forall c, accepted_one (XR c) walk_cov = Matrix [[XR 0]].
Proof. intros c. unfold walk_cov, accepted_one, scale_one. cbn. do 4 f_equal. ring. Qed.
Print Assumptions C57_walk.
Print Assumptions C57_value.
Print Assumptions C57_unweighted.
Print Assumptions C57_scale.
Print Assumptions C57_refused.
Print Assumptions C57_accepted.
Print Assumptions C57_positive_definite.
Print Assumptions C57_degenerate.
Print Assumptions C57_one_weight_refuted.
Print Assumptions C57_one_particle.
Print Assumptions C57_one_particle_refuted.
Print Assumptions C57_factors.
(** The hypotheses: three particles with a number and three with an array, on a line of the plane. *)
Example C57_example : Forall (Row 2) [[KS 1; KS 2]; [KS 2; KS 4]; [KS 3; KS 6]] /\ Forall (Row 2) [[KA [1%Q; 2%Q]]; [KA [2%Q; 4%Q]]; [KA [3%Q; 6%Q]]] /\
  TwoPositive [1; 0; 3] /\ Spread 2 [1; 0; 3] (map values [[KS 1; KS 2]; [KS 2; KS 4]; [KS 3; KS 6]]).
Proof.
  split; [|split; [|split]].
  - repeat apply Forall_cons; [exact (row_numbers [1%Q; 2%Q] ltac:(discriminate))|exact (row_numbers [2%Q; 4%Q] ltac:(discriminate))|exact (row_numbers [3%Q; 6%Q] ltac:(discriminate))|apply Forall_nil].
  - repeat apply Forall_cons; [apply row_array|apply row_array|apply row_array|apply Forall_nil].
  - split; [repeat constructor; lra|]. exists 0%nat, 2%nat. split; [lia|]. cbn. lra.
  - exists 0%nat, 2%nat, 0%nat. cbn [length map]. split; [lia|]. split; [lia|]. split; [lia|]. unfold coord, Q2R. cbn. lra.
Qed.
