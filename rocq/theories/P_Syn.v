(** C65: synthetic likelihoods. *)
From Coq Require Import Reals Lia Lra Permutation.
From Verif Require Import M_Base M_Num M_XReal M_MMD M_Stats M_Syn S_Stats S_Distance L_PMC L_Stats L_Distance L_PosDef L_MMD S_Syn.
Open Scope R_scope.

Lemma xsum_map_fin {A} (f : A -> R) l : xsum (map (fun x => XR (f x)) l) = XR (total (map f l)).
Proof. rewrite <- (map_map f XR), xsum_fin, total_rsum. reflexivity. Qed.
Lemma xsum_ext {A} (f : A -> xr) (g : A -> R) l : (forall x, In x l -> f x = XR (g x)) -> xsum (map f l) = XR (total (map g l)).
Proof. intros H. rewrite (map_ext_in f (fun x => XR (g x))) by assumption. apply xsum_map_fin. Qed.
Lemma flat_map_seq {A} (F : nat -> nat -> A) (l l' : list nat) (g : nat -> nat -> R) (toA : R -> A) : (forall i j, In i l -> In j l' -> F i j = toA (g i j)) ->
  flat_map (fun i => map (fun j => F i j) l') l = map toA (flat_map (fun i => map (fun j => g i j) l') l).
Proof.
  intros H. induction l as [|i l IH]; [reflexivity|]. cbn [flat_map]. rewrite map_app, map_map. f_equal; [apply map_ext_in; intros j Hj; apply H; [left; reflexivity|assumption]|].
  apply IH. intros; apply H; [right; assumption|assumption].
Qed.
Lemma total_flat {A} (f : A -> list R) l : total (flat_map f l) = total (map (fun x => total (f x)) l).
Proof. induction l as [|x l IH]; [reflexivity|]. cbn [flat_map map]. rewrite total_app, total_cons, IH. reflexivity. Qed.
Lemma einsum1_fin d M P x y : Is d P M -> (forall i, (i < d)%nat -> nth i x XNaN = XR (y i)) -> einsum1 d M x = XR (qform d P y).
Proof.
  intros HM HX. unfold einsum1. rewrite (flat_map_seq _ (seq 0 d) (seq 0 d) (fun i j => y i * P i j * y j) XR).
  - rewrite xsum_fin, total_rsum. f_equal. rewrite total_flat. reflexivity.
  - intros i j Hi Hj. apply in_seq in Hi, Hj. rewrite !HX, HM by lia. reflexivity.
Qed.
Lemma mean_row_len d s : length (mean_row d s) = d.
Proof. unfold mean_row. rewrite map_length, seq_length. reflexivity. Qed.
Lemma mean_row_nth d s i : (i < d)%nat -> nth i (mean_row d s) 0 = mean_of_col s i.
Proof.
  intros H. unfold mean_row. set (f := fun j => rsuml (map (fun r => nth j r 0) s) / INR (length s)). rewrite (nth_indep (map f (seq 0 d)) 0 (f 0%nat)) by (rewrite map_length, seq_length; assumption).
  rewrite (map_nth f), seq_nth by assumption. unfold f, mean_of_col, average. rewrite map_length. reflexivity.
Qed.
Lemma sub_nth : forall x y i, length x = length y -> (i < length x)%nat -> nth i (map XR (sub x y)) XNaN = XR (nth i x 0 - nth i y 0).
Proof.
  induction x as [|a x IH]; intros [|b y] i L Hi; try (cbn in *; lia). destruct i as [|i]; [reflexivity|]. cbn in *. apply IH; lia.
Qed.

Section Syn.
Variable ledoit_wolf : list vec -> res (list (list xr)).
Variable inv : list (list xr) -> res (list (list xr)).
Variable logdet : list (list xr) -> xr.
Notation syn := (syn_loglik ledoit_wolf inv logdet).
(** the library computes, from the simulations, the precision matrix P whose determinant has the logarithm ld *)
Definition Estimates (d : nat) (sim : list (list R)) (P : nat -> nat -> R) (ld : R) : Prop :=
  exists C M, ledoit_wolf sim = Ok C /\ inv C = Ok M /\ Is d P M /\ logdet M = XR ld.

(** The value is the logarithm of the normal density of the observations, with the mean of the simulations and the estimated
    precision, up to a constant that depends on the numbers of observations and statistics only. *)
Theorem C65_gaussian : forall d obs sim P ld, sim <> [] -> Forall (fun o => length o = d) obs -> Estimates d sim P ld ->
  syn d obs sim = Ok (XR (total (map (normal_logdensity d (mean_of_col sim) P ld) obs) + INR (length obs) * (INR d / 2 * ln (2 * PI)))).
Proof.
  intros d obs sim P ld HN HO (C & M & E1 & E2 & HM & EL). unfold syn_loglik. destruct sim as [|s0 sim]; [congruence|]. set (sm := s0 :: sim) in *. clearbody sm.
  rewrite E1. cbn [rthen]. rewrite E2. cbn [rthen]. rewrite EL. rewrite map_map.
  rewrite (xsum_ext _ (fun o => - (/ 2) * qform d P (fun i => nth i o 0 - mean_of_col sm i))).
  - cbn [half xmul xadd]. do 2 f_equal. rewrite <- (total_const (INR d / 2 * ln (2 * PI)) obs), <- total_plus.
    replace (/ 2 * INR (length obs) * ld) with (total (map (fun _ : list R => / 2 * ld) obs)) by (rewrite total_const; ring). rewrite <- total_plus.
    apply total_ext. intros o _. unfold normal_logdensity. field.
  - intros o Ho. rewrite Forall_forall in HO. specialize (HO o Ho). rewrite (einsum1_fin d M P _ (fun i => nth i o 0 - mean_of_col sm i)); [reflexivity|assumption|].
    intros i Hi. rewrite sub_nth by (rewrite ?mean_row_len; lia). rewrite mean_row_nth by assumption. reflexivity.
Qed.
(** The likelihood is the exponential of that: the product of the normal densities of the observations times a positive constant that depends on the numbers
    of observations and statistics only; errors stay errors. *)
Theorem C65_likelihood : forall d obs sim P ld, sim <> [] -> Forall (fun o => length o = d) obs -> Estimates d sim P ld ->
  likelihood (syn d obs sim) = Ok (XR (fold_right Rmult 1 (map (fun o => exp (normal_logdensity d (mean_of_col sim) P ld o)) obs) * exp (INR (length obs) * (INR d / 2 * ln (2 * PI)))))
  /\ forall e, likelihood (Err e) = Err e.
Proof.
  intros d obs sim P ld HN HO HE. split; [|reflexivity]. rewrite (C65_gaussian d obs sim P ld HN HO HE). unfold likelihood. cbn [rthen xexp]. do 2 f_equal. rewrite exp_plus. f_equal.
  clear. induction obs as [|o obs IH]; [cbn; apply exp_0|]. cbn [map fold_right]. rewrite total_cons, exp_plus, IH. reflexivity.
Qed.
(** So comparing two parameter values compares the two normal densities: the constant cancels. *)
Theorem C65_ratio : forall d obs sim1 sim2 P1 ld1 P2 ld2 v1 v2, sim1 <> [] -> sim2 <> [] -> Forall (fun o => length o = d) obs ->
  Estimates d sim1 P1 ld1 -> Estimates d sim2 P2 ld2 -> syn d obs sim1 = Ok (XR v1) -> syn d obs sim2 = Ok (XR v2) ->
  v1 - v2 = total (map (normal_logdensity d (mean_of_col sim1) P1 ld1) obs) - total (map (normal_logdensity d (mean_of_col sim2) P2 ld2) obs).
Proof.
  intros d obs sim1 sim2 P1 ld1 P2 ld2 v1 v2 N1 N2 HO H1 H2 E1 E2. rewrite (C65_gaussian d obs sim1 P1 ld1 N1 HO H1) in E1. rewrite (C65_gaussian d obs sim2 P2 ld2 N2 HO H2) in E2.
  injection E1 as E1. injection E2 as E2. rewrite <- E1, <- E2. ring.
Qed.
(** The order of the observations does not matter, ... *)
Lemma total_perm l l' : Permutation l l' -> total l = total l'.
Proof. induction 1; rewrite ?total_cons; lra. Qed.
Theorem C65_order : forall d obs obs' sim P ld, sim <> [] -> Forall (fun o => length o = d) obs -> Estimates d sim P ld -> Permutation obs obs' ->
  syn d obs sim = syn d obs' sim.
Proof.
  intros d obs obs' sim P ld HN HO HE HP. rewrite !(C65_gaussian d _ sim P ld); try assumption.
  - rewrite (Permutation_length HP). rewrite (total_perm _ _ (Permutation_map _ HP)). reflexivity.
  - rewrite Forall_forall in *. intros o Ho. apply HO. eapply Permutation_in; [apply Permutation_sym; exact HP|assumption].
Qed.
(** ... independent data sets add up, ... *)
Theorem C65_join : forall d o1 o2 sim P ld v1 v2, sim <> [] -> Forall (fun o => length o = d) o1 -> Forall (fun o => length o = d) o2 -> Estimates d sim P ld ->
  syn d o1 sim = Ok (XR v1) -> syn d o2 sim = Ok (XR v2) -> syn d (o1 ++ o2) sim = Ok (XR (v1 + v2)).
Proof.
  intros d o1 o2 sim P ld v1 v2 HN H1 H2 HE E1 E2. rewrite (C65_gaussian d o1 sim P ld HN H1 HE) in E1. rewrite (C65_gaussian d o2 sim P ld HN H2 HE) in E2.
  rewrite (C65_gaussian d (o1 ++ o2) sim P ld HN) by (try assumption; apply Forall_app; split; assumption).
  injection E1 as E1. injection E2 as E2. rewrite <- E1, <- E2. do 2 f_equal. rewrite map_app, total_app, app_length, plus_INR. ring.
Qed.
(** ... and the value is largest exactly where all observations are the mean of the simulations. *)
Theorem C65_peak : forall d obs sim P ld v, sim <> [] -> Forall (fun o => length o = d) obs -> Estimates d sim P ld -> PositiveDefinite d P ->
  syn d obs sim = Ok (XR v) ->
  v <= INR (length obs) * ld / 2 /\ (v = INR (length obs) * ld / 2 <-> Forall (fun o => forall i, (i < d)%nat -> nth i o 0 = mean_of_col sim i) obs).
Proof.
  intros d obs sim P ld v HN HO HE HP E. rewrite (C65_gaussian d obs sim P ld HN HO HE) in E. injection E as E. clear HE HO.
  set (q := fun o : list R => qform d P (fun i => nth i o 0 - mean_of_col sim i)).
  assert (EV : v = INR (length obs) * ld / 2 - total (map q obs) / 2).
  { rewrite <- E. rewrite (total_ext _ (fun o => (ld / 2 - INR d / 2 * ln (2 * PI)) + (- / 2) * q o)); [rewrite total_plus, total_const, total_scale; field|].
    intros o _. unfold normal_logdensity. fold (q o). field. }
  assert (Q0 : forall o, (forall i, (i < d)%nat -> nth i o 0 = mean_of_col sim i) -> q o = 0).
  { intros o Ho. unfold q, qform. rewrite (total_ext _ (fun _ => 0)); [rewrite total_const; ring|]. intros i Hi. apply in_seq in Hi. rewrite (total_ext _ (fun _ => 0)); [rewrite total_const; ring|]. intros j _. rewrite Ho by lia. ring. }
  assert (Q : forall o, 0 <= q o /\ (q o = 0 -> forall i, (i < d)%nat -> nth i o 0 = mean_of_col sim i)).
  { intros o. destruct (Forall_dec (fun i => nth i o 0 = mean_of_col sim i) (fun i => Req_EM_T _ _) (seq 0 d)) as [F|F].
    - assert (A : forall i, (i < d)%nat -> nth i o 0 = mean_of_col sim i) by (intros i Hi; rewrite Forall_forall in F; apply F; apply in_seq; lia). split; [rewrite (Q0 o A); lra|intros _; exact A].
    - apply neg_Forall_Exists_neg in F; [|intros; apply Req_EM_T]. apply Exists_exists in F. destruct F as (i & Hi & N). apply in_seq in Hi.
      assert (0 < q o) by (apply HP; exists i; split; [lia|lra]). split; [lra|intros; lra]. }
  assert (T : 0 <= total (map q obs)) by (apply total_nonneg, Forall_map, Forall_forall; intros; apply Q). split; [lra|]. split.
  - intros EE. assert (Z : total (map q obs) = 0) by lra. clear -Z Q. induction obs as [|o obs IH]; [constructor|]. cbn [map] in Z. rewrite total_cons in Z.
    assert (0 <= total (map q obs)) by (apply total_nonneg, Forall_map, Forall_forall; intros; apply Q). destruct (Q o) as [Q1 Q2]. constructor; [apply Q2; lra|apply IH; lra].
  - intros F. assert (Z : total (map q obs) = 0); [|lra]. clear -F Q0. induction F as [|o obs Ho F IH]; [reflexivity|]. cbn [map]. rewrite total_cons, IH, (Q0 o Ho). lra.
Qed.
(** A failure of the library (a singular estimate) is passed on. *)
Theorem C65_singular : forall d obs sim e, sim <> [] -> (ledoit_wolf sim = Err e \/ exists C, ledoit_wolf sim = Ok C /\ inv C = Err e) -> syn d obs sim = Err e.
Proof.
  intros d obs sim e HN H. unfold syn_loglik. destruct sim; [congruence|]. destruct H as [->|(C & -> & E)]; [reflexivity|]. cbn [rthen]. rewrite E. reflexivity.
Qed.
End Syn.
Print Assumptions C65_gaussian.
Print Assumptions C65_likelihood.
Print Assumptions C65_ratio.
Print Assumptions C65_order.
Print Assumptions C65_join.
Print Assumptions C65_peak.
Print Assumptions C65_singular.

(** ** The semiparametric synthetic likelihood *)
(** Ranks *)
Lemma nth_over {A} (f : nat -> A) d i x : (i < d)%nat -> nth i (map f (seq 0 d)) x = f i.
Proof. intros H. rewrite (nth_indep (map f (seq 0 d)) x (f 0%nat)) by (rewrite map_length, seq_length; assumption). rewrite (map_nth f), seq_nth by assumption. reflexivity. Qed.
Lemma filter_all_lt {A} (f : A -> bool) l x : In x l -> f x = false -> (length (filter f l) < length l)%nat.
Proof.
  induction l as [|y l IH]; intros HI HF; [destruct HI|]. cbn [filter length]. destruct HI as [<-|HI]; [rewrite HF; clear; induction l as [|z l IH]; cbn; [lia|destruct (f z); cbn; lia]|].
  specialize (IH HI HF). destruct (f y); cbn; lia.
Qed.
Lemma filter_le_impl {A} (f g : A -> bool) l : (forall x, f x = true -> g x = true) -> (length (filter f l) <= length (filter g l))%nat.
Proof. intros H. induction l as [|y l IH]; [cbn; lia|]. cbn [filter]. destruct (f y) eqn:E; [rewrite (H y E); cbn; lia|destruct (g y); cbn; lia]. Qed.
Lemma less_lt l x y : In x l -> x < y -> (less l x < less l y)%nat.
Proof.
  intros HI HL. unfold less. induction l as [|z l IH]; [destruct HI|]. cbn [filter]. destruct HI as [->|HI].
  - destruct (Rlt_dec x x); [lra|]. destruct (Rlt_dec x y); [|lra]. cbn [length]. apply Nat.lt_succ_r. apply filter_le_impl. intros w. destruct (Rlt_dec w x), (Rlt_dec w y); intros; congruence || lra.
  - specialize (IH HI). destruct (Rlt_dec z x), (Rlt_dec z y); cbn [length]; lra || lia.
Qed.
Lemma less_bound l x : In x l -> (less l x < length l)%nat.
Proof. intros HI. apply (filter_all_lt _ l x HI). destruct (Rlt_dec x x); [lra|reflexivity]. Qed.
Lemma same_once l x : NoDup l -> In x l -> same l x = 1%nat.
Proof.
  induction 1 as [|y l HN ND IH]; intros HI; [destruct HI|]. unfold same in *. cbn [filter]. destruct HI as [->|HI].
  - destruct (Req_EM_T x x); [|congruence]. cbn [length]. f_equal. rewrite length_zero_iff_nil. clear -HN. induction l as [|z l IH]; [reflexivity|]. cbn [filter]. destruct (Req_EM_T z x); [exfalso; apply HN; left; assumption|apply IH; intros ?; apply HN; right; assumption].
  - destruct (Req_EM_T y x); [congruence|]. apply IH; assumption.
Qed.
Lemma rank_no_tie l x : NoDup l -> In x l -> rank l x = INR (less l x + 1).
Proof. intros ND HI. unfold rank. rewrite (same_once l x ND HI), plus_INR. cbn. lra. Qed.
Lemma less_perm l : NoDup l -> Permutation (map (less l) l) (seq 0 (length l)).
Proof.
  intros ND. apply NoDup_Permutation_bis.
  - assert (H : forall l', incl l' l -> NoDup l' -> NoDup (map (less l) l')).
    { intros l' HI N. induction N as [|x l' HX N IH]; [constructor|]. cbn [map]. constructor; [|apply IH; intros y Hy; apply HI; right; assumption].
      intros C. apply in_map_iff in C. destruct C as (y & E & Hy). assert (In y l) by (apply HI; right; assumption). assert (In x l) by (apply HI; left; reflexivity).
      destruct (Rtotal_order x y) as [L|[->|L]]; [pose proof (less_lt l x y ltac:(assumption) L); lia|contradiction|pose proof (less_lt l y x ltac:(assumption) L); lia]. }
    apply H; [intros x Hx; exact Hx|assumption].
  - rewrite map_length, seq_length. lia.
  - intros k Hk. apply in_map_iff in Hk. destruct Hk as (x & <- & Hx). apply in_seq. pose proof (less_bound l x Hx). lia.
Qed.
Lemma same_pos l x : In x l -> (1 <= same l x)%nat /\ (less l x + same l x <= length l)%nat.
Proof.
  intros HI. split.
  - unfold same. induction l as [|z l IH]; [destruct HI|]. cbn [filter]. destruct HI as [->|HI]; [destruct (Req_EM_T x x); [cbn; lia|congruence]|]. specialize (IH HI). destruct (Req_EM_T z x); cbn; lia.
  - clear HI. unfold less, same. induction l as [|z l IH]; [cbn; lia|]. cbn [filter]. destruct (Rlt_dec z x), (Req_EM_T z x); cbn [length]; lra || lia.
Qed.
Lemma mid_rank_rank l x : mid_rank l x = rank l x.
Proof. unfold mid_rank, rank, less, same. lra. Qed.
Lemma rank_bounds l x : In x l -> 0 < rank l x / INR (length l + 1) < 1.
Proof.
  intros HI. destruct (same_pos l x HI) as [H1 H2]. assert (P : 0 < INR (length l + 1)) by (apply lt_0_INR; lia).
  assert (B : 0 < rank l x < INR (length l + 1)).
  { unfold rank. apply le_INR in H1, H2. rewrite plus_INR in H2. rewrite plus_INR. cbn in *. pose proof (pos_INR (less l x)). lra. }
  split; [apply Rdiv_lt_0_compat; lra|]. apply (Rmult_lt_reg_r (INR (length l + 1))); [assumption|]. unfold Rdiv. rewrite Rmult_assoc, Rinv_l by lra. lra.
Qed.
Lemma trunc_INR n : trunc (INR n) = INR n.
Proof.
  unfold trunc. destruct (Rle_dec 0 (INR n)) as [H|H]; [|pose proof (pos_INR n); lra]. rewrite INR_IZR_INZ. f_equal. unfold Int_part. 
  assert (E : (Z.of_nat n + 1)%Z = Rdefinitions.up (IZR (Z.of_nat n))) by (apply tech_up; rewrite plus_IZR; lra). lia.
Qed.
Lemma trunc_unit x : 0 < x < 1 -> trunc x = 0.
Proof.
  intros H. unfold trunc. destruct (Rle_dec 0 x) as [L|L]; [|lra]. unfold Int_part. assert (E : (1)%Z = Rdefinitions.up x) by (apply tech_up; cbn; lra). rewrite <- E. reflexivity.
Qed.

Lemma total_prod {A B} (f : A -> R) (g : B -> R) l l' : total (map (fun i => total (map (fun j => f i * g j) l')) l) = total (map f l) * total (map g l').
Proof. rewrite (total_ext _ (fun i => total (map g l') * f i)); [rewrite total_scale; ring|]. intros i _. rewrite total_scale. ring. Qed.

Lemma rank_monotone (f : R -> R) l x : StrictlyIncreasing f -> rank (map f l) (f x) = rank l x.
Proof.
  intros M. assert (LT : forall a b, f a < f b <-> a < b). { intros a b. split; [|apply M]. intros H. destruct (Rtotal_order a b) as [L|[->|L]]; [assumption|lra|apply M in L; lra]. }
  assert (EQ : forall a b, f a = f b <-> a = b). { intros a b. split; [|congruence]. intros H. destruct (Rtotal_order a b) as [L|[L|L]]; [apply M in L; lra|assumption|apply M in L; lra]. }
  unfold rank. assert (E1 : less (map f l) (f x) = less l x).
  { unfold less. induction l as [|y l IH]; [reflexivity|]. cbn [map filter]. specialize (LT y x). destruct (Rlt_dec (f y) (f x)), (Rlt_dec y x); cbn [length]; try tauto; first [exact IH | f_equal; exact IH | exfalso; tauto]. }
  assert (E2 : same (map f l) (f x) = same l x).
  { clear E1. unfold same. induction l as [|y l IH]; [reflexivity|]. cbn [map filter]. specialize (EQ y x). destruct (Req_EM_T (f y) (f x)), (Req_EM_T y x); cbn [length]; try tauto; first [exact IH | f_equal; exact IH | exfalso; tauto]. }
  rewrite E1, E2. reflexivity.
Qed.

Section Semi.
Variable inv : list (list xr) -> res (list (list xr)).
Variable logdet : list (list xr) -> xr.
Variable kde : list R -> res ((R -> xr) * (R -> R)).
Variable ppf : R -> xr.
Variable junk : R.
Variable phi : R -> R.
Notation semi := (semi_loglik inv logdet kde ppf junk).
Notation corr := (gaussian_correlation ppf).

(** the ranks of integer statistics are written into an array of integers: exact if there are no ties *)
Definition Ranked (ints : bool) (d : nat) (s : list (list R)) : Prop := ints = false \/ forall j, (j < d)%nat -> NoTies j s.

Lemma col_len j (s : list vec) : length (col j s) = length s.
Proof. apply map_length. Qed.
Lemma scores_fin ints d s j : Quantile ppf phi -> Ranked ints d s -> (j < d)%nat -> scores ppf ints j s = map (fun r => XR (normal_score phi s j r)) s.
Proof.
  intros [Q _] HR Hj. unfold scores. unfold col at 2. rewrite map_map. apply map_ext_in. intros r Hr. assert (HI : In (nth j r 0) (col j s)) by (unfold col; apply (in_map (fun r => nth j r 0)); assumption).
  unfold normal_score. rewrite mid_rank_rank. fold (col j s).
  assert (E : storeR ints (rank (col j s) (nth j r 0)) = rank (col j s) (nth j r 0)).
  { destruct ints; [|reflexivity]. destruct HR as [HR|HR]; [discriminate|]. unfold storeR. rewrite rank_no_tie by (try assumption; apply HR; assumption). apply trunc_INR. }
  rewrite E, <- (col_len j s). apply Q. apply rank_bounds. assumption.
Qed.
Lemma dot_scores (f g : vec -> R) (s : list vec) : xsum (map (fun ab => xmul (fst ab) (snd ab)) (combine (map (fun r => XR (f r)) s) (map (fun r => XR (g r)) s))) = XR (total (map (fun r => f r * g r) s)).
Proof.
  rewrite <- (xsum_map_fin (fun r => f r * g r)). f_equal. induction s as [|r s IH]; [reflexivity|]. cbn [map combine fst snd xmul]. f_equal. exact IH.
Qed.
Lemma grid_in n k : In k (seq 1 n) -> 0 < INR k / INR (n + 1) < 1.
Proof.
  intros H. apply in_seq in H. assert (P : 0 < INR (n + 1)) by (apply lt_0_INR; lia). assert (A : 0 < INR k) by (apply lt_0_INR; lia). assert (B : INR k < INR (n + 1)) by (apply lt_INR; lia).
  split; [apply Rdiv_lt_0_compat; lra|]. apply (Rmult_lt_reg_r (INR (n + 1))); [assumption|]. unfold Rdiv. rewrite Rmult_assoc, Rinv_l by lra. lra.
Qed.
Definition grid (n : nat) : R := total (map (fun k => phi (INR k / INR (n + 1)) * phi (INR k / INR (n + 1))) (seq 1 n)).
Lemma denominator_fin n : Quantile ppf phi -> denominator_for ppf n = XR (grid n).
Proof.
  intros [Q _]. unfold denominator_for, grid. rewrite <- seq_shift, map_map. apply xsum_ext. intros k Hk. replace (k + 1)%nat with (S k) by lia.
  rewrite Q by (apply grid_in; rewrite <- seq_shift; apply in_map; assumption). reflexivity.
Qed.
Lemma grid_pos n : Quantile ppf phi -> (2 <= n)%nat -> 0 < grid n.
Proof.
  intros [Q M] Hn. assert (NN : forall l, 0 <= total (map (fun k => phi (INR k / INR (n + 1)) * phi (INR k / INR (n + 1))) l)) by (intros; apply total_nonneg, Forall_map, Forall_forall; intros; nra).
  unfold grid. destruct n as [|[|n]]; [lia|lia|]. cbn [seq map]. rewrite !total_cons. specialize (NN (seq 3 n)).
  assert (L : phi (INR 1 / INR (S (S n) + 1)) < phi (INR 2 / INR (S (S n) + 1))).
  { apply M; try apply (grid_in (S (S n))); [apply in_seq; lia| |apply in_seq; lia]. apply Rmult_lt_compat_r; [apply Rinv_0_lt_compat, lt_0_INR; lia|apply lt_INR; lia]. }
  set (a := phi (INR 1 / _)) in *. set (b := phi (INR 2 / _)) in *. assert (a <> 0 \/ b <> 0) as [H|H] by (destruct (Req_EM_T a 0); [right|left]; lra); [assert (0 < a * a) by nra|assert (0 < b * b) by nra]; nra.
Qed.

(** The matrix of the copula: the correlation of the normal scores of the ranks. *)
Theorem C65_rank_correlation : forall ints d s, Quantile ppf phi -> Ranked ints d s -> (2 <= length s)%nat ->
  snd (corr ints d s []) = table d (rank_correlation phi s).
Proof.
  intros ints d s Q HR Hn. unfold gaussian_correlation. cbn [find_memo find option_map snd]. unfold table. apply map_ext_in. intros i Hi. apply map_ext_in. intros j Hj. apply in_seq in Hi, Hj.
  rewrite !(scores_fin ints d) by (try assumption; lia). rewrite dot_scores, denominator_fin by assumption. rewrite xdiv_fin by (pose proof (grid_pos (length s) Q Hn); lra). reflexivity.
Qed.
(** It is symmetric, has ones on the diagonal and entries between -1 and 1, and is positive semidefinite, when no statistic has ties. *)
Lemma score_grid s j : NoTies j s -> total (map (fun r => normal_score phi s j r * normal_score phi s j r) s) = grid (length s).
Proof.
  unfold NoTies. intros NT. unfold normal_score. rewrite <- (map_map (fun r => nth j r 0) (fun x => phi (mid_rank (map (fun r => nth j r 0) s) x / INR (length s + 1)) * phi (mid_rank (map (fun r => nth j r 0) s) x / INR (length s + 1)))).
  set (l := map (fun r => nth j r 0) s) in *. assert (L : length l = length s) by apply map_length. rewrite <- L. clearbody l.
  unfold grid. rewrite <- seq_shift, map_map. rewrite <- (total_perm _ _ (Permutation_map _ (less_perm l NT))). rewrite map_map. apply total_ext. intros x Hx. rewrite mid_rank_rank, rank_no_tie by assumption.
  replace (less l x + 1)%nat with (S (less l x)) by lia. reflexivity.
Qed.
Lemma dotl_scores (f g : vec -> R) (s : list vec) : total (map (fun r => f r * g r) s) = dotl (map f s) (map g s).
Proof. induction s as [|r s IH]; [reflexivity|]. cbn [map]. rewrite dotl_cons, total_cons, IH. reflexivity. Qed.
Theorem C65_correlation : forall d s, Quantile ppf phi -> (forall j, (j < d)%nat -> NoTies j s) -> (2 <= length s)%nat ->
  (forall i j, rank_correlation phi s i j = rank_correlation phi s j i) /\
  (forall i, (i < d)%nat -> rank_correlation phi s i i = 1) /\
  (forall i j, (i < d)%nat -> (j < d)%nat -> -1 <= rank_correlation phi s i j <= 1) /\
  (forall x, 0 <= qform d (rank_correlation phi s) x).
Proof.
  intros d s Q NT Hn. pose proof (grid_pos (length s) Q Hn) as G. unfold rank_correlation. fold (grid (length s)). split; [|split; [|split]].
  - intros i j. f_equal. apply total_ext. intros; ring.
  - intros i Hi. rewrite score_grid by (apply NT; assumption). field. lra.
  - intros i j Hi Hj. set (t := total _). assert (C : t * t <= grid (length s) * grid (length s)).
    { unfold t. rewrite dotl_scores. rewrite <- (score_grid s i) at 1 by (apply NT; assumption). rewrite <- (score_grid s j) by (apply NT; assumption). rewrite !dotl_scores. apply cauchy. rewrite !map_length. reflexivity. }
    assert (- grid (length s) <= t <= grid (length s)) by nra. set (g := grid (length s)) in *. split; apply (Rmult_le_reg_r g); try assumption; unfold Rdiv; rewrite ?Rmult_assoc, ?Rinv_l by lra; lra.
  - intros x. unfold qform.
    assert (E : total (map (fun i => total (map (fun j => x i * (total (map (fun r => normal_score phi s i r * normal_score phi s j r) s) / grid (length s)) * x j) (seq 0 d))) (seq 0 d))
      = / grid (length s) * total (map (fun r => total (map (fun i => x i * normal_score phi s i r) (seq 0 d)) * total (map (fun i => x i * normal_score phi s i r) (seq 0 d))) s)).
    { rewrite <- total_scale. rewrite (total_ext (fun r => / grid (length s) * _) (fun r => total (map (fun i => total (map (fun j => / grid (length s) * (x i * normal_score phi s i r * (x j * normal_score phi s j r))) (seq 0 d))) (seq 0 d)))).
      2: { intros r _. rewrite <- total_prod, <- total_scale. apply total_ext. intros i _. exact (eq_sym (total_scale (fun j => x i * normal_score phi s i r * (x j * normal_score phi s j r)) _ _)). }
      rewrite (total_swap (fun r i => total (map (fun j => / grid (length s) * (x i * normal_score phi s i r * (x j * normal_score phi s j r))) (seq 0 d)))). apply total_ext. intros i _.
      rewrite (total_swap (fun r j => / grid (length s) * (x i * normal_score phi s i r * (x j * normal_score phi s j r)))). apply total_ext. intros j _.
      replace (x i * (total (map (fun r => normal_score phi s i r * normal_score phi s j r) s) / grid (length s)) * x j) with (x i * x j / grid (length s) * total (map (fun r => normal_score phi s i r * normal_score phi s j r) s)) by (field; lra).
      rewrite <- total_scale. apply total_ext. intros r _. field. lra. }
    rewrite E. apply Rmult_le_pos; [left; apply Rinv_0_lt_compat; assumption|]. apply total_nonneg, Forall_map, Forall_forall. intros; nra.
Qed.
(** It depends on the order of the simulated values only: increasing transformations of the statistics do not change it. *)
Theorem C65_monotone : forall ints d s m f, (forall j, StrictlyIncreasing (f j)) -> corr ints d (map (transform f d) s) m = corr ints d s m.
Proof.
  intros ints d s m f M. assert (E : forall j, (j < d)%nat -> scores ppf ints j (map (transform f d) s) = scores ppf ints j s).
  { intros j Hj. assert (C : col j (map (transform f d) s) = map (f j) (col j s)).
    { unfold col. rewrite !map_map. apply map_ext. intros r. unfold transform. apply (nth_over (fun j => f j (nth j r 0))). assumption. }
    unfold scores. rewrite C, map_map, map_length. apply map_ext. intros x. rewrite rank_monotone by apply M. reflexivity. }
  unfold gaussian_correlation. rewrite map_length. destruct (match find_memo m (length s) with Some v => _ | None => _ end) as [m' den]. f_equal.
  apply map_ext_in. intros i Hi. apply map_ext_in. intros j Hj. apply in_seq in Hi, Hj. rewrite !E by lia. reflexivity.
Qed.
(** With ties the diagonal need not be one. *)
Theorem C65_ties_refuted : Quantile ppf phi -> phi (1 / 2) = 0 ->
  ~ (forall d s i, (2 <= length s)%nat -> (i < d)%nat -> nth i (nth i (snd (corr false d s [])) []) XNaN = XR 1).
Proof.
  intros Q H0 C. specialize (C 2%nat [[3; 1]; [3; 2]] 0%nat ltac:(cbn; lia) ltac:(lia)).
  rewrite (C65_rank_correlation false 2 [[3; 1]; [3; 2]] Q (or_introl eq_refl)) in C by (cbn; lia). unfold table in C. rewrite nth_over, nth_over in C by lia. injection C as C.
  unfold rank_correlation, normal_score, mid_rank in C. cbn [map nth filter length] in C. destruct (Rlt_dec 3 3); [lra|]. destruct (Req_EM_T 3 3); [|congruence]. cbn [length] in C.
  replace ((1 + INR 0 + (INR 2 - 1) / 2) / INR (2 + 1)) with (1 / 2) in C by (cbn; field). rewrite H0 in C. rewrite !total_cons in C. change (total []) with 0 in C. unfold Rdiv in C at 1. lra.
Qed.

(** The value: the logarithms of the marginal densities, plus the logarithm of the Gaussian copula density at the normal scores of the
    marginal distribution functions, added up over the observations. *)
Definition Marginals (d : nat) (sim : list (list R)) (lf F : nat -> R -> R) : Prop :=
  forall j, (j < d)%nat -> exists l c, kde (map (fun r => nth j r 0) sim) = Ok (l, c) /\ (forall x, l x = XR (lf j x)) /\ forall x, c x = F j x /\ 0 < F j x < 1.
Lemma marginals_fin ints d sim lf F obs js : Marginals d sim lf F -> (forall j, In j js -> (j < d)%nat) ->
  marginals kde junk ints js obs sim = Ok (map (fun j => (map (fun o => store junk ints (XR (lf j (nth j o 0)))) obs, map (fun o => storeR ints (F j (nth j o 0))) obs)) js).
Proof.
  intros HM. induction js as [|j js IH]; intros HJ; [reflexivity|]. cbn [marginals]. destruct (HM j ltac:(apply HJ; left; reflexivity)) as (l & c & E & HL & HF).
  unfold col at 1. rewrite E. cbn [rthen]. rewrite IH by (intros; apply HJ; right; assumption). cbn [rthen map fst snd]. do 3 f_equal; unfold col; rewrite map_map; apply map_ext; intros o; [rewrite HL|rewrite (proj1 (HF _))]; reflexivity.
Qed.
Lemma map_nth_seq {A B} (f : A -> B) (l : list A) (a : A) : map (fun b => f (nth b l a)) (seq 0 (length l)) = map f l.
Proof. induction l as [|x l IH]; [reflexivity|]. cbn [length seq map nth]. f_equal. rewrite <- seq_shift, map_map. exact IH. Qed.
Lemma minus_eye_is d M P : Is d P M -> Is d (fun i j => P i j - (if (i =? j)%nat then 1 else 0)) (minus_eye d M).
Proof. intros H i j Hi Hj. unfold minus_eye. rewrite nth_over, nth_over, H by assumption. reflexivity. Qed.
Lemma corr_split ints d s m : exists m', corr ints d s m = (m', snd (corr ints d s m)).
Proof. destruct (corr ints d s m) as [m' R]. exists m'. reflexivity. Qed.
Theorem C65_semi : forall d sim_int obs sim lf F M P ld, Quantile ppf phi -> (2 <= d)%nat -> (2 <= length sim)%nat -> Marginals d sim lf F ->
  Ranked sim_int d sim -> inv (table d (rank_correlation phi sim)) = Ok M -> Is d P M -> logdet M = XR ld ->
  snd (semi d false sim_int obs sim []) =
  Ok (XR (total (map (fun o => total (map (fun j => lf j (nth j o 0)) (seq 0 d)) + copula_logdensity d P ld (fun j => phi (F j (nth j o 0)))) obs))).
Proof.
  intros d sim_int obs sim lf F M P ld Q Hd Hn HM HR EI HP EL. unfold semi_loglik. destruct (Nat.ltb_spec d 2) as [L|_]; [lia|].
  rewrite (marginals_fin false d sim lf F) by (try assumption; intros j Hj; apply in_seq in Hj; lia).
  destruct (corr_split sim_int d sim []) as (m' & ->). rewrite C65_rank_correlation by assumption. rewrite EI, EL. cbn [snd]. f_equal.
  rewrite map_map. cbn [fst].
  assert (E1 : xsum (concat (map (fun j => map (fun o => store junk false (XR (lf j (nth j o 0)))) obs) (seq 0 d))) = XR (total (map (fun o => total (map (fun j => lf j (nth j o 0)) (seq 0 d))) obs))).
  { cbn [store]. rewrite <- flat_map_concat_map. unfold store. rewrite (total_swap (fun o j => lf j (nth j o 0))). rewrite <- (total_flat (fun j => map (fun o => lf j (nth j o 0)) obs)). rewrite <- total_rsum, <- xsum_fin. f_equal.
    induction (seq 0 d) as [|j js IH]; [reflexivity|]. cbn [flat_map]. rewrite map_app, map_map, IH. reflexivity. }
  rewrite E1. clear E1.
  assert (E2 : map (fun eta => xmul (xopp half) (einsum1 d (minus_eye d M) eta)) (map (fun b => map (fun c => ppf (nth b (snd c) 0)) (map (fun j => (map (fun o => store junk false (XR (lf j (nth j o 0)))) obs, map (fun o => storeR false (F j (nth j o 0))) obs)) (seq 0 d))) (seq 0 (length obs)))
     = map (fun o => XR (- (/ 2) * qform d (fun i j => P i j - (if (i =? j)%nat then 1 else 0)) (fun j => phi (F j (nth j o 0))))) obs).
  { rewrite map_map. rewrite <- (map_nth_seq (fun o => XR _) obs []). apply map_ext_in. intros b Hb. apply in_seq in Hb. rewrite map_map. cbn [snd].
    rewrite (einsum1_fin d _ (fun i j => P i j - (if (i =? j)%nat then 1 else 0)) _ (fun j => phi (F j (nth j (nth b obs []) 0)))); [reflexivity|apply minus_eye_is; assumption|].
    intros i Hi. rewrite (nth_over (fun j => ppf (nth b (map (fun o => storeR false (F j (nth j o 0))) obs) 0))) by assumption. unfold storeR.
    rewrite (nth_indep (map (fun o => F i (nth i o 0)) obs) 0 (F i (nth i [] 0))) by (rewrite map_length; lia). rewrite (map_nth (fun o => F i (nth i o 0))). destruct (HM i Hi) as (l & c & _ & _ & HF). apply (proj1 Q). apply HF. }
  rewrite E2. rewrite xsum_map_fin. cbn [half xmul xadd]. do 2 f_equal. rewrite total_plus. f_equal. unfold copula_logdensity.
  replace (/ 2 * INR (length obs) * ld) with (total (map (fun _ : list R => ld / 2) obs)) by (rewrite total_const; field). rewrite <- total_plus. apply total_ext. intros o _. field.
Qed.
Theorem C65_dimension : forall d oi si obs sim m, (d < 2)%nat -> semi d oi si obs sim m = (m, Err RuntimeError).
Proof. intros d oi si obs sim m H. unfold semi_loglik. destruct (Nat.ltb_spec d 2); [reflexivity|lia]. Qed.

(** The stored denominators change no result: a sequence of calls gives what fresh objects give. *)
Definition call := (nat * bool * bool * list (list R) * list (list R))%type.
Definition one (c : call) (m : memo) : memo * res xr := let '(d, oi, si, o, s) := c in semi d oi si o s m.
Fixpoint calls (cs : list call) (m : memo) : list (res xr) :=
  match cs with [] => [] | c :: cs' => let '(m', r) := one c m in r :: calls cs' m' end.
Lemma memo_step c m : (forall n v, find_memo m n = Some v -> v = denominator_for ppf n) ->
  snd (one c m) = snd (one c []) /\ forall n v, find_memo (fst (one c m)) n = Some v -> v = denominator_for ppf n.
Proof.
  intros HM. destruct c as [[[[d oi] si] o] s]. cbn [one]. unfold semi_loglik. destruct (Nat.ltb d 2); [split; [reflexivity|exact HM]|].
  destruct (marginals kde junk oi (seq 0 d) o s) as [ms|e]; [|split; [reflexivity|exact HM]].
  assert (C : snd (corr si d s m) = snd (corr si d s []) /\ forall n v, find_memo (fst (corr si d s m)) n = Some v -> v = denominator_for ppf n).
  { unfold gaussian_correlation. destruct (find_memo m (length s)) as [v|] eqn:E.
    - cbn [find_memo find option_map]. cbn [fst snd]. split; [|exact HM]. rewrite (HM _ _ E). reflexivity.
    - cbn [find_memo find option_map fst snd]. split; [reflexivity|]. intros n v. unfold find_memo. cbn [find fst]. destruct (Nat.eqb_spec (length s) n) as [<-|NE]; [cbn; congruence|]. exact (HM n v). }
  destruct (corr si d s m) as [m1 R1], (corr si d s []) as [m2 R2]. cbn [fst snd] in C. destruct C as [-> HM']. destruct (inv R2); cbn [fst snd]; split; (reflexivity || exact HM').
Qed.
Theorem C65_memo : forall cs, calls cs [] = map (fun c => snd (one c [])) cs.
Proof.
  intros cs. assert (H : forall m, (forall n v, find_memo m n = Some v -> v = denominator_for ppf n) -> calls cs m = map (fun c => snd (one c [])) cs).
  { induction cs as [|c cs IH]; intros m HM; [reflexivity|]. cbn [calls map]. destruct (memo_step c m HM) as [E HM']. destruct (one c m) as [m' r]. cbn [fst snd] in *. rewrite E, (IH m' HM'). reflexivity. }
  apply H. discriminate.
Qed.

(** Observations whose statistics are integers: the values of the distribution functions are cut off to zero, and the result is never a
    finite number. *)
Definition fin (x : xr) : Prop := exists r, x = XR r.
Lemma xadd_fin_r x y : fin (xadd x y) -> fin x /\ fin y.
Proof. destruct x, y; cbn; intros [q E]; try discriminate; split; eexists; reflexivity. Qed.
Lemma xsum_fin_in : forall l x, fin (xsum l) -> In x l -> fin x.
Proof.
  intros l x. unfold xsum. rewrite <- fold_left_rev_right. rewrite (in_rev l x). generalize (rev l). clear l. intros l. induction l as [|y l IH]; cbn [fold_right]; intros HF HI; [destruct HI|]. apply xadd_fin_r in HF. destruct HI as [<-|HI]; [apply HF|apply IH; [apply HF|assumption]].
Qed.
Lemma Ok_same {A} (x y : A) : Ok x = Ok y -> x = y.
Proof. congruence. Qed.
Lemma xsum_fin_head x l : fin (xsum (x :: l)) -> fin x.
Proof. intros H. apply (xsum_fin_in (x :: l)); [assumption|left; reflexivity]. Qed.
Lemma xmul_fin_r x y : fin (xmul x y) -> fin x /\ fin y.
Proof.
  assert (N : forall b, ~ fin (xneg b)) by (intros [|] [r E]; discriminate). assert (NN : ~ fin XNaN) by (intros [r E]; discriminate).
  unfold xmul. destruct x as [a| | |], y as [b| | |]; intros H; try (split; eexists; reflexivity); exfalso; revert H;
    repeat match goal with |- context [match ?t with Some _ => _ | None => _ end] => destruct t end; first [apply N | apply NN].
Qed.
Theorem C65_integer_refuted : forall d sim_int obs sim lf F m, ppf 0 = XNInf -> (2 <= d)%nat -> obs <> [] -> Marginals d sim lf F ->
  forall v, snd (semi d true sim_int obs sim m) <> Ok (XR v).
Proof.
  intros d sim_int obs sim lf F m H0 Hd HO HM v. unfold semi_loglik. destruct (Nat.ltb_spec d 2) as [L|_]; [lia|].
  rewrite (marginals_fin true d sim lf F) by (try assumption; intros j Hj; apply in_seq in Hj; lia).
  destruct (corr_split sim_int d sim m) as (m' & ->). destruct (inv _) as [M|e]; cbn [snd]; [|congruence]. intros E. apply Ok_same in E.
  assert (FF : forall a b c, xadd a (xadd b c) = XR v -> fin b). { intros a b c H. assert (G : fin (xadd a (xadd b c))) by (eexists; exact H). apply xadd_fin_r in G. destruct G as [_ G]. apply xadd_fin_r in G. apply G. }
  apply FF in E. clear FF. rewrite map_map in E. destruct obs as [|o obs]; [congruence|]. cbn [length seq] in E. rewrite map_cons in E.
  apply xsum_fin_head in E. 
  rewrite map_map in E. cbn [snd nth map] in E.
  assert (EE : map (fun j => ppf (storeR true (F j (nth j o 0)))) (seq 0 d) = map (fun _ => XNInf) (seq 0 d)).
  { apply map_ext_in. intros j Hj. apply in_seq in Hj. destruct (HM j ltac:(lia)) as (l & c & _ & _ & HF). unfold storeR. rewrite trunc_unit by apply HF. exact H0. }
  rewrite EE in E. clear EE. unfold einsum1 in E.
  apply xmul_fin_r in E. destruct E as [_ E]. destruct d as [|d]; [lia|]. cbn [seq flat_map map] in E.
  apply xsum_fin_head in E. apply xmul_fin_r in E. destruct E as [_ [r E]]. discriminate.
Qed.
End Semi.
Print Assumptions C65_rank_correlation.
Print Assumptions C65_correlation.
Print Assumptions C65_monotone.
Print Assumptions C65_ties_refuted.
Print Assumptions C65_semi.
Print Assumptions C65_dimension.
Print Assumptions C65_memo.
Print Assumptions C65_integer_refuted.

(** ** Cases *)
Module Toy.
Definition lw (s : list vec) : res (list (list xr)) := Ok [[XR 4]].
Definition iv (m : list (list xr)) : res (list (list xr)) := Ok [[XR (1 / 4)]].
Definition ld (m : list (list xr)) : xr := XR (ln (1 / 4)).
Definition sim : list (list R) := [[1]; [3]].
Lemma estimates : Estimates lw iv ld 1 sim (fun _ _ => 1 / 4) (ln (1 / 4)).
Proof. exists [[XR 4]], [[XR (1 / 4)]]. split; [reflexivity|split; [reflexivity|split; [|reflexivity]]]. intros i j Hi Hj. replace i with 0%nat by lia. replace j with 0%nat by lia. reflexivity. Qed.
Lemma definite : PositiveDefinite 1 (fun _ _ => 1 / 4).
Proof. intros x (i & Hi & N). replace i with 0%nat in N by lia. unfold qform. cbn [seq map]. rewrite !total_cons. change (total []) with 0. nra. Qed.
Example C65_case : syn_loglik lw iv ld 1 [[5]; [2]] sim = Ok (XR (- 9 / 8 + ln (1 / 4))).
Proof.
  unfold syn_loglik. cbn -[ln Rinv Rdiv IZR Rplus Rmult Ropp Rminus]. unfold einsum1, half, mean_row, xsum. cbn -[ln Rinv Rdiv IZR Rplus Rmult Ropp Rminus]. do 2 f_equal. field.
Qed.
Example C65_case_peak : syn_loglik lw iv ld 1 [[2]; [2]] sim = Ok (XR (INR 2 * ln (1 / 4) / 2)).
Proof.
  rewrite (C65_gaussian lw iv ld 1 [[2]; [2]] sim (fun _ _ => 1 / 4) (ln (1 / 4))); [|discriminate|repeat constructor|exact estimates].
  do 2 f_equal. unfold normal_logdensity, qform, mean_of_col, average, sim. cbn [seq map length nth]. rewrite !total_cons. change (total []) with 0. cbn. field.
Qed.
(** the identity, shifted, as quantile function: then the matrix holds Spearman's correlations *)
Definition phi (u : R) : R := u - 1 / 2.
Definition ppf (u : R) : xr := if Rlt_dec 0 u then (if Rlt_dec u 1 then XR (phi u) else XInf) else XNInf.
Lemma quantile : Quantile ppf phi.
Proof. split; [intros u H; unfold ppf; destruct (Rlt_dec 0 u); [|lra]; destruct (Rlt_dec u 1); [reflexivity|lra]|unfold phi; intros; lra]. Qed.
Lemma ppf0 : ppf 0 = XNInf.
Proof. unfold ppf. destruct (Rlt_dec 0 0); [lra|reflexivity]. Qed.
Definition s3 : list (list R) := [[1; 9]; [2; 5]; [3; 7]].
Lemma noties : forall j, (j < 2)%nat -> NoTies j s3.
Proof. intros [|[|j]] H; [| |lia]; unfold NoTies, s3; cbn [map nth]; repeat apply NoDup_cons; try apply NoDup_nil; cbn [In]; intuition lra. Qed.
Example C65_case_correlation : snd (gaussian_correlation ppf true 2 s3 []) = [[XR 1; XR (- 1 / 2)]; [XR (- 1 / 2); XR 1]].
Proof.
  rewrite (C65_rank_correlation ppf phi true 2 s3 quantile (or_intror noties)) by (cbn; lia).
  destruct (C65_correlation ppf phi 2 s3 quantile noties ltac:(cbn; lia)) as (SY & D & _ & _). unfold table. cbn [seq map]. rewrite !D by lia. rewrite (SY 1%nat 0%nat).
  assert (E : rank_correlation phi s3 0 1 = - 1 / 2); [|rewrite E; reflexivity].
  unfold rank_correlation, normal_score, mid_rank, s3. cbn [map nth].
  assert (LT : forall (a b : R), a < b -> Rlt_dec a b = Rlt_dec a b) by reflexivity. clear LT.
  cbn [filter].
  repeat (match goal with |- context [Rlt_dec ?a ?b] => destruct (Rlt_dec a b); [try lra|try lra] end).
  all: repeat (match goal with |- context [Req_EM_T ?a ?b] => destruct (Req_EM_T a b); [try lra|try lra] end).
  all: cbn [length seq map]; rewrite !total_cons; change (total []) with 0; unfold phi; cbn; field.
Qed.
Definition kde (l : list R) : res ((R -> xr) * (R -> R)) := Ok (fun x => XR (- x), fun _ => 1 / 3).
Lemma marginal : forall d sim, Marginals kde d sim (fun _ x => - x) (fun _ _ => 1 / 3).
Proof. intros d sm j Hj. exists (fun x => XR (- x)), (fun _ => 1 / 3). split; [reflexivity|split; [reflexivity|]]. intros x. split; [reflexivity|lra]. Qed.
Definition iv2 (m : list (list xr)) : res (list (list xr)) := Ok [[XR (4 / 3); XR (2 / 3)]; [XR (2 / 3); XR (4 / 3)]].
Definition P2 (i j : nat) : R := if (i =? j)%nat then 4 / 3 else 2 / 3.
Lemma is2 : Is 2 P2 [[XR (4 / 3); XR (2 / 3)]; [XR (2 / 3); XR (4 / 3)]].
Proof. intros [|[|i]] [|[|j]] Hi Hj; try lia; reflexivity. Qed.
Definition ld2 (m : list (list xr)) : xr := XR (ln (4 / 3)).
Example C65_case_semi : snd (semi_loglik iv2 ld2 kde ppf 0 2 false true [[5; 6]] s3 []) = Ok (XR (- 11 + (ln (4 / 3) / 2 - 1 / 36))).
Proof.
  rewrite (C65_semi iv2 ld2 kde ppf 0 phi 2 true [[5; 6]] s3 (fun _ x => - x) (fun _ _ => 1 / 3) _ P2 (ln (4 / 3)) quantile ltac:(lia) ltac:(cbn; lia) (marginal _ _) (or_intror noties) eq_refl is2 eq_refl).
  do 2 f_equal. unfold copula_logdensity, qform, P2, phi. cbn [seq map nth Nat.eqb]. rewrite !total_cons. change (total []) with 0. field.
Qed.
Example C65_case_integer : forall v, snd (semi_loglik iv2 ld2 kde ppf 0 2 true true [[5; 6]] s3 []) <> Ok (XR v).
Proof. apply (C65_integer_refuted iv2 ld2 kde ppf 0 2 true [[5; 6]] s3 _ _ [] ppf0 ltac:(lia) ltac:(discriminate) (marginal _ _)). Qed.
Example C65_case_monotone : snd (gaussian_correlation ppf true 2 (map (transform (fun _ x => exp x) 2) s3) []) = [[XR 1; XR (- 1 / 2)]; [XR (- 1 / 2); XR 1]].
Proof. rewrite (C65_monotone ppf true 2 s3 [] (fun _ x => exp x) (fun _ => exp_increasing)). apply C65_case_correlation. Qed.
End Toy.
