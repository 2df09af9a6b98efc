(** C89: how likely two work items get the same random seed. *)
From Coq Require Import Reals Lra Lia.
From Verif Require Import M_Base M_Num M_Journal M_Rejection S_Rejection P_Rejection M_Seeds L_Seeds P_Seeds M_XReal M_Stats L_PMC S_Stats L_Stats L_Distance L_PosDef S_Law P_Law L_Law L_Gen S_Consist L_LLN S_Collide.
Open Scope R_scope.

Lemma twice_iff {X} eq (l : list X) : twice eq l = false <-> NoDup l.
Proof.
  induction l as [|x l IH]; cbn [twice]; [split; [constructor|reflexivity]|]. rewrite orb_false_iff, IH. destruct (in_dec eq x l) as [H|H]; split.
  - intros [E _]; discriminate.
  - intros N. inversion N; contradiction.
  - intros [_ N]. constructor; assumption.
  - intros N. inversion N; split; [reflexivity|assumption].
Qed.
Lemma twice_places {X} eq (l : list X) : twice eq l = true <-> exists i j x, (i < j)%nat /\ nth_error l i = Some x /\ nth_error l j = Some x.
Proof.
  split.
  - induction l as [|x l IH]; cbn [twice]; intros H; [discriminate|]. apply orb_true_iff in H. destruct H as [H|H].
    + destruct (in_dec eq x l) as [Hi|]; [|discriminate]. apply In_nth_error in Hi. destruct Hi as (j & Hj). exists O, (S j), x. split; [lia|]. split; [reflexivity|exact Hj].
    + destruct (IH H) as (i & j & y & Hij & Hi & Hj). exists (S i), (S j), y. split; [lia|]. split; assumption.
  - intros (i & j & x & Hij & Hi & Hj). destruct (twice eq l) eqn:E; [reflexivity|]. apply twice_iff in E. rewrite NoDup_nth_error in E. exfalso.
    assert (i = j); [|lia]. apply E; [apply nth_error_Some; congruence|congruence].
Qed.
Lemma ints_length lo m : length (ints lo m) = m.
Proof. unfold ints. rewrite map_length. apply seq_length. Qed.
Lemma ints_NoDup lo m : NoDup (ints lo m).
Proof. unfold ints. apply FinFun.Injective_map_NoDup; [intros x y H; lia|apply seq_NoDup]. Qed.
Lemma ints_In lo m v : In v (ints lo m) <-> (lo <= v < lo + Z.of_nat m)%Z.
Proof.
  unfold ints. rewrite in_map_iff. split; [intros (i & <- & Hi); apply in_seq in Hi; lia|]. intros H. exists (Z.to_nat (v - lo)). split; [lia|]. apply in_seq. lia.
Qed.

Lemma filter_split {X} (l : list X) P : (length (filter P l) + length (filter (fun x => negb (P x)) l) = length l)%nat.
Proof. induction l as [|x l IH]; [reflexivity|]. cbn [filter]. destruct (P x); cbn [negb length]; lia. Qed.

Section Uniform.
Variable X : Type.
Variable eq : forall x y : X, {x = y} + {x <> y}.
Variable outs : list X.
Hypothesis distinct : NoDup outs.
Variable m : nat.
Hypothesis size : length outs = m.
Hypothesis m_pos : (0 < m)%nat.
Notation prob := (prob outs (even m)).
Notation chance := (chance outs (even m)).
Notation expect := (expect outs (even m)).

Lemma INR_m : 0 < INR m.
Proof. apply lt_0_INR. exact m_pos. Qed.
Lemma even_law : Law outs (even m).
Proof.
  pose proof INR_m. split; [intros; unfold even; left; apply Rinv_0_lt_compat; assumption|]. unfold even. rewrite total_const_map, size. field. lra.
Qed.
Lemma chance_count P : chance P = INR (length (filter P outs)) / INR m.
Proof.
  unfold S_Law.chance, S_Law.expect, even, Rdiv. rewrite total_scale, Rmult_comm. f_equal. clear. induction outs as [|x l IH]; [reflexivity|]. cbn [map filter]. rewrite total_cons, IH. destruct (P x); cbn [length]; [rewrite S_INR|]; ring.
Qed.
Lemma fresh used : NoDup used -> (forall x, In x used -> In x outs) -> (length used <= m)%nat /\ chance (fun a => if in_dec eq a used then false else true) = 1 - INR (length used) / INR m.
Proof.
  intros N I. pose proof (NoDup_incl_length N I) as L. rewrite size in L. split; [exact L|]. pose proof INR_m.
  rewrite chance_count. assert (E : (length (filter (fun a => if in_dec eq a used then false else true) outs) + length used = m)%nat).
  { rewrite <- size. rewrite <- (filter_split outs (fun a => if in_dec eq a used then false else true)). f_equal.
    apply Nat.le_antisymm; apply NoDup_incl_length; try assumption; try (apply NoDup_filter; exact distinct).
    - intros x Hx. apply filter_In. split; [apply I, Hx|]. destruct (in_dec eq x used); [reflexivity|contradiction].
    - intros x Hx. apply filter_In in Hx. destruct Hx as [_ Hx]. destruct (in_dec eq x used); [assumption|discriminate]. }
  apply (f_equal INR) in E. rewrite plus_INR in E. field_simplify; [|lra|lra]. f_equal. lra.
Qed.
Lemma distinct_used k : forall used, NoDup used -> (forall x, In x used -> In x outs) ->
  prob k (fun l => negb (twice eq l) && forallb (fun a => if in_dec eq a used then false else true) l) = spread (INR m) (INR (length used)) k.
Proof.
  induction k as [|k IH]; intros used N I; cbn [S_Law.prob spread]; [reflexivity|]. destruct (fresh used N I) as [_ Hf]. rewrite <- Hf, Rmult_comm. unfold S_Law.chance. rewrite <- expect_scale. apply expect_ext. intros a Ha.
  destruct (in_dec eq a used) as [Hu|Hu].
  - rewrite Rmult_0_r. rewrite (prob_ext _ _ _ k _ (fun _ => false)); [apply (prob_const _ _ _ k false even_law)|]. intros l _. cbn [forallb]. destruct (in_dec eq a used); [|contradiction]. cbn [andb]. apply andb_false_r.
  - rewrite Rmult_1_r. replace (INR (length used) + 1) with (INR (length (a :: used))) by (cbn [length]; rewrite S_INR; reflexivity).
    rewrite <- (IH (a :: used)); [|constructor; assumption|intros x [<-|Hx]; [exact Ha|apply I, Hx]].
    apply prob_ext. intros l _. cbn [twice forallb]. destruct (in_dec eq a used); [contradiction|]. cbn [andb]. apply eq_true_iff_eq. rewrite !andb_true_iff, !negb_true_iff, orb_false_iff, !forallb_forall. split.
    + intros [[H1 H2] H3]. split; [exact H2|]. intros x Hx. destruct (in_dec eq x (a :: used)) as [[<-|Hi]|]; [|specialize (H3 x Hx); destruct (in_dec eq x used); [discriminate|contradiction]|reflexivity]. destruct (in_dec eq a l); [discriminate|contradiction].
    + intros [H2 H3]. split; [split; [|exact H2]|].
      * destruct (in_dec eq a l) as [Hi|]; [|reflexivity]. specialize (H3 a Hi). destruct (in_dec eq a (a :: used)) as [|Hn]; [discriminate|]. exfalso. apply Hn. left. reflexivity.
      * intros x Hx. specialize (H3 x Hx). destruct (in_dec eq x (a :: used)) as [|Hn]; [discriminate|]. destruct (in_dec eq x used) as [Hi|]; [|reflexivity]. exfalso. apply Hn. right. exact Hi.
Qed.
Lemma prob_neg k F : prob k F = 1 - prob k (fun l => negb (F l)).
Proof.
  assert (E : prob k F + prob k (fun l => negb (F l)) = 1); [|lra]. rewrite !(prob_mean _ outs (even m)), <- (mean_plus _ outs (even m)). transitivity (S_Law.mean outs (even m) k (fun _ => 1)); [|apply (mean_const _ outs (even m) even_law k 1)]. apply mean_ext. intros l _. destruct (F l); cbn [negb]; lra.
Qed.
(** the exact probability that k draws are not all different *)
Lemma collide_exact k : prob k (twice eq) = 1 - spread (INR m) 0 k.
Proof.
  rewrite prob_neg. f_equal. change 0 with (INR (length (@nil X))). rewrite <- (distinct_used k []); [|constructor|intros x []]. apply prob_ext. intros l _.
  rewrite (proj2 (forallb_forall _ l)); [symmetry; apply andb_true_r|]. intros x _. reflexivity.
Qed.
Lemma spread_bounds k : forall u, 0 <= u <= INR m -> (exists i, u = INR i) -> 0 <= spread (INR m) u k <= exp (- (INR k * u + INR k * (INR k - 1) / 2) / INR m) /\ 1 - (INR k * u + INR k * (INR k - 1) / 2) / INR m <= spread (INR m) u k.
Proof.
  pose proof INR_m as Hm. induction k as [|k IH]; intros u Hu (i & Hi); cbn [spread].
  - replace (- (INR 0 * u + INR 0 * (INR 0 - 1) / 2) / INR m) with 0 by (cbn; field; lra). rewrite exp_0. cbn [INR]. split; [lra|]. apply Req_le. field. lra.
  - destruct (Req_dec u (INR m)) as [E|E].
    + replace (1 - u / INR m) with 0 by (rewrite E; field; lra). rewrite Rmult_0_l. split; [split; [lra|left; apply exp_pos]|]. rewrite S_INR. pose proof (pos_INR k).
      assert (1 <= ((INR k + 1) * u + (INR k + 1) * (INR k + 1 - 1) / 2) / INR m); [|lra]. apply Rmult_le_reg_r with (INR m); [exact Hm|]. unfold Rdiv at 1. rewrite Rmult_assoc, Rinv_l, Rmult_1_r, Rmult_1_l by lra. rewrite E. nra.
    + assert (Hu1 : 0 <= u + 1 <= INR m).
      { split; [lra|]. subst u. rewrite <- S_INR. apply le_INR. assert (i < m)%nat; [apply INR_lt; lra|lia]. }
      destruct (IH (u + 1) Hu1 ltac:(exists (S i); rewrite S_INR; lra)) as [[B0 B1] B2]. set (s := spread (INR m) (u + 1) k) in *.
      assert (F0 : 0 <= 1 - u / INR m).
      { assert (u / INR m <= 1); [|lra]. apply Rmult_le_reg_r with (INR m); [exact Hm|]. unfold Rdiv. rewrite Rmult_assoc, Rinv_l by lra. lra. }
      assert (U0 : 0 <= u / INR m) by (apply Rmult_le_pos; [lra|left; apply Rinv_0_lt_compat; exact Hm]).
      rewrite S_INR. split; [split; [apply Rmult_le_pos; assumption|]|].
      * replace (- ((INR k + 1) * u + (INR k + 1) * (INR k + 1 - 1) / 2) / INR m) with (- (u / INR m) + - (INR k * (u + 1) + INR k * (INR k - 1) / 2) / INR m) by (field; lra). rewrite exp_plus. apply Rmult_le_compat; try assumption.
        pose proof (exp_ineq1_le (- (u / INR m))). lra.
      * replace (((INR k + 1) * u + (INR k + 1) * (INR k + 1 - 1) / 2) / INR m) with (u / INR m + (INR k * (u + 1) + INR k * (INR k - 1) / 2) / INR m) by (field; lra).
        set (y := (INR k * (u + 1) + INR k * (INR k - 1) / 2) / INR m) in *. set (x := u / INR m) in *.
        assert (Y0 : 0 <= y).
        { unfold y. apply Rmult_le_pos; [|left; apply Rinv_0_lt_compat; exact Hm]. pose proof (pos_INR k). destruct k as [|k']; [cbn; lra|]. rewrite S_INR in *. pose proof (pos_INR k'). nra. }
        apply Rle_trans with ((1 - x) * (1 - y)); [nra|]. apply Rmult_le_compat_l; assumption.
Qed.
(** C89 (the birthday problem): the probability that k of m equally likely values are not all different. *)
Theorem C89_exact : forall k, prob k (twice eq) = 1 - spread (INR m) 0 k
  /\ 1 - exp (- (INR k * (INR k - 1) / (2 * INR m))) <= prob k (twice eq) <= INR k * (INR k - 1) / (2 * INR m).
Proof.
  intros k. pose proof INR_m as Hm. split; [apply collide_exact|]. rewrite collide_exact. destruct (spread_bounds k 0 ltac:(lra) ltac:(exists O; reflexivity)) as [[B0 B1] B2].
  replace (- (INR k * 0 + INR k * (INR k - 1) / 2) / INR m) with (- (INR k * (INR k - 1) / (2 * INR m))) in B1 by (field; lra).
  replace ((INR k * 0 + INR k * (INR k - 1) / 2) / INR m) with (INR k * (INR k - 1) / (2 * INR m)) in B2 by (field; lra). lra.
Qed.
End Uniform.
Print Assumptions C89_exact.
(** 3 of the 8 values 1 .. 8: 1 - (7/8) (6/8) *)
Example C89_exact_case : prob (ints 1 8) (even 8) 3 (twice Z.eq_dec) = 11 / 32.
Proof. rewrite (proj1 (C89_exact Z Z.eq_dec (ints 1 8) (ints_NoDup 1 8) 8 (ints_length 1 8) ltac:(lia) 3)). cbn [spread INR]. lra. Qed.

Lemma quarter n : (2 <= n)%nat -> 1 / 4 < 1 - exp (- (INR n * (INR n - 1) / (2 * (INR n * INR n - 1)))).
Proof.
  intros Hn. apply le_INR in Hn. cbn [INR] in Hn. replace (1 + 1) with 2 in Hn by ring. set (x := INR n) in *.
  assert (E : x * (x - 1) / (2 * (x * x - 1)) = x / (2 * (x + 1))) by (field; nra). rewrite E.
  assert (B : / 3 <= x / (2 * (x + 1))).
  { apply Rmult_le_reg_r with (2 * (x + 1)); [lra|]. unfold Rdiv. rewrite Rmult_assoc, Rinv_l by lra. lra. }
  set (y := x / (2 * (x + 1))) in *. rewrite exp_Ropp. pose proof (exp_ineq1_le y). assert (4 / 3 <= exp y) by lra.
  assert (/ exp y <= / (4 / 3)) by (apply Rinv_le_contravar; lra). replace (/ (4 / 3)) with (3 / 4) in H1 by field.
  destruct (Req_dec (/ exp y) (3 / 4)) as [Q|Q]; [|lra]. exfalso.
  assert (Hy : exp y = 4 / 3) by (rewrite <- (Rinv_inv (exp y)), Q; field).
  pose proof (exp_ineq1 y ltac:(lra)). lra.
Qed.
(** C89: n seeds drawn from 1 .. n*n - 1, as RejectionABC, ModelSelections (modelselections.py:148,193) and StatisticsLearning
    (statisticslearning.py:120) do: the probability that two agree is between one quarter and one half for every n. *)
Lemma values_ints lo hi m : (hi - lo = Z.of_nat m)%Z -> randint_values (lo, hi) = ints lo m /\ alike (randint_values (lo, hi)) = even m.
Proof.
  intros H. assert (E : randint_values (lo, hi) = ints lo m) by (unfold randint_values, ints; cbn [fst snd]; rewrite H, Nat2Z.id; reflexivity). rewrite E. split; [reflexivity|]. unfold alike. rewrite ints_length. reflexivity.
Qed.
Lemma square_ints n : (1 <= n)%nat -> randint_values (square_range n) = ints 1 (n * n - 1) /\ alike (randint_values (square_range n)) = even (n * n - 1).
Proof. intros H. apply values_ints. rewrite Nat2Z.inj_sub, Nat2Z.inj_mul by nia. reflexivity. Qed.
Theorem C89_square : forall n, (2 <= n)%nat -> 1 / 4 < prob (randint_values (square_range n)) (alike (randint_values (square_range n))) n (twice Z.eq_dec) < 1 / 2.
Proof.
  intros n Hn. destruct (square_ints n ltac:(lia)) as [-> ->]. assert (M : (1 <= n * n)%nat) by nia. assert (M0 : (0 < n * n - 1)%nat) by nia. pose proof (quarter n Hn) as Q.
  destruct (C89_exact Z Z.eq_dec (ints 1 (n * n - 1)) (ints_NoDup _ _) (n * n - 1) (ints_length _ _) M0 n) as [_ [B U]].
  rewrite minus_INR, mult_INR in B, U by exact M. cbn [INR] in B, U. split; [lra|]. eapply Rle_lt_trans; [exact U|].
  apply le_INR in Hn. cbn [INR] in Hn. set (x := INR n) in *. replace (x * (x - 1) / (2 * (x * x - 1))) with (1 / 2 - / (2 * (x + 1))) by (field; nra).
  assert (0 < / (2 * (x + 1))) by (apply Rinv_0_lt_compat; lra). lra.
Qed.
Print Assumptions C89_square.
Lemma prob_ext_in {X} (outs : list X) p k : forall F G, (forall l, length l = k -> (forall x, In x l -> In x outs) -> F l = G l) -> prob outs p k F = prob outs p k G.
Proof.
  induction k as [|k IH]; intros F G H; cbn [prob]; [rewrite H; [reflexivity|reflexivity|intros x []]|]. apply expect_ext. intros a Ha. apply IH. intros l Hl Hi. apply H; [cbn; congruence|]. intros x [<-|Hx]; [exact Ha|apply Hi, Hx].
Qed.
(** C89: RejectionABC asked for n samples draws its n seeds from 1 .. n*n - 1 (inferences.py:580).  Whatever the model, the threshold and
    the number of samples, with a probability of more than a quarter the journal holds two rows that are copies of each other. *)
Theorem C89_rejection :
  forall (Rng Y E Name : Type) (eq : forall x y : E, {x = y} + {x <> y}) (neqb : Name -> Name -> bool)
         (prior : Rng -> Rng * list E) (sim : list E -> Rng -> Rng * option Y) mkrng dist dist_max cols n eps full fuel c0,
  (2 <= Z.of_nat n <= 46340)%Z -> full = 0%nat \/ full = 1%nat -> nlt eps dist_max = true ->
  (forall seed, In seed (randint_values (square_range n)) -> exists k th d, (k <= fuel)%nat /\ FirstHit prior sim dist dist_max eps (mkrng seed) k th d) ->
  let copied := prob (randint_values (square_range n)) (alike (randint_values (square_range n))) n (fun seeds =>
    match sample Rng Y E Name neqb prior sim mkrng dist dist_max cols (Some n) None (Some eps) None full seeds fuel c0 with
    | Ok j => match get_accepted_parameters j None with Ok rows => twice (list_eq_dec eq) rows | Err _ => false end
    | Err _ => false
    end) in
  1 - exp (- (INR n * (INR n - 1) / (2 * (INR n * INR n - 1)))) <= copied /\ 1 / 4 < copied.
Proof.
  intros Rng Y E Name eq neqb prior sim mkrng dist dist_max cols n eps full fuel c0 Hn Hf He Hh copied. unfold copied. clear copied. destruct (square_ints n ltac:(lia)) as [E1 E2]. rewrite E1 in Hh. rewrite E2, E1. match goal with |- _ <= ?x /\ _ => set (copied := x) end.
  assert (M : (1 <= n * n)%nat) by nia. assert (M0 : (0 < n * n - 1)%nat) by nia.
  assert (L : 1 - exp (- (INR n * (INR n - 1) / (2 * (INR n * INR n - 1)))) <= copied).
  { destruct (C89_exact Z Z.eq_dec (ints 1 (n * n - 1)) (ints_NoDup _ _) (n * n - 1) (ints_length _ _) M0 n) as [_ [B _]].
    rewrite minus_INR, mult_INR in B by exact M. cbn [INR] in B. eapply Rle_trans; [exact B|]. unfold copied.
    match goal with |- _ <= prob _ _ _ ?G => set (bad := G) end.
    rewrite (prob_ext_in _ _ n bad (fun l => twice Z.eq_dec l || bad l)).
    2: { intros l Hl Hi. destruct (twice Z.eq_dec l) eqn:T; [|reflexivity]. cbn [orb]. unfold bad.
      destruct (C16_total _ _ _ _ neqb prior sim mkrng dist dist_max cols n eps full l fuel c0 Hl Hn Hf He) as (j & S).
      { intros seed Hs. apply Hh, Hi, Hs. }
      rewrite S. destruct (C16_threshold _ _ _ _ neqb prior sim mkrng dist dist_max cols n eps full l fuel c0 j Hl S) as (rows & ds & ks & D & Lr & _ & _ & G & _). rewrite G.
      apply twice_places in T. destruct T as (i & k & s & Hik & Hi' & Hk). destruct (C42_equal_seeds _ _ _ prior sim mkrng dist dist_max eps l rows ds ks i k s D Hi' Hk) as [Q _].
      apply twice_places. destruct (nth_error rows i) as [x|] eqn:X.
      - exists i, k, x. split; [exact Hik|]. split; [exact X|symmetry; exact Q].
      - exfalso. apply nth_error_None in X. assert (i < length l)%nat by (apply nth_error_Some; congruence). lia. }
    apply (prob_le _ _ _ (even_law Z (ints 1 (n * n - 1)) (n * n - 1) (ints_length _ _) M0)). intros l ->. reflexivity. }
  split; [exact L|]. pose proof (quarter n ltac:(lia)). lra.
Qed.
Print Assumptions C89_rejection.
Definition Q_eq (x y : Q) : {x = y} + {x <> y}.
Proof. decide equality; [apply Pos.eq_dec|apply Z.eq_dec]. Defined.
(** the small machine of C16 with threshold 4 meets the hypotheses for every n *)
Example C89_rejection_case : nlt (Fin 4) PInf = true /\ forall seed, exists k th d, (k <= 3)%nat /\ FirstHit ex_prior ex_sim Fin PInf (Fin 4) seed k th d.
Proof.
  split; [reflexivity|]. intros seed.
  assert (A : forall r, exists d, Attempt ex_prior ex_sim Fin PInf r (r + 1)%Z [inject_Z (r mod 7)] d /\ d = match r mod 7 with 5 => PInf | z => Fin (inject_Z z) end%Z).
  { intros r. eexists. split; [eexists; eexists; split; [reflexivity|]; split; reflexivity|]. cbn [hd]. pose proof (Z.mod_pos_bound r 7 ltac:(lia)).
    assert (C : (r mod 7 = 0 \/ r mod 7 = 1 \/ r mod 7 = 2 \/ r mod 7 = 3 \/ r mod 7 = 4 \/ r mod 7 = 5 \/ r mod 7 = 6)%Z) by lia. repeat destruct C as [C|C]; rewrite ?C; reflexivity. }
  assert (S1 : forall r, (r mod 7 = 6 -> (r + 1) mod 7 = 0)%Z) by (intros r H; rewrite Z.add_mod, H by lia; reflexivity).
  assert (S2 : forall r, (r mod 7 = 5 -> (r + 1) mod 7 = 6)%Z) by (intros r H; rewrite Z.add_mod, H by lia; reflexivity).
  assert (Z0 : forall r, (r mod 7 = 0 \/ r mod 7 = 1 \/ r mod 7 = 2 \/ r mod 7 = 3 \/ r mod 7 = 4)%Z -> exists k th d, (k <= 1)%nat /\ FirstHit ex_prior ex_sim Fin PInf (Fin 4) r k th d).
  { intros r C. destruct (A r) as (d & H & ->). do 3 eexists. split; [apply le_n|]. eapply hit; [exact H|]. repeat destruct C as [C|C]; rewrite C; reflexivity. }
  assert (Z6 : forall r, (r mod 7 = 6)%Z -> exists k th d, (k <= 2)%nat /\ FirstHit ex_prior ex_sim Fin PInf (Fin 4) r k th d).
  { intros r C. destruct (A r) as (d & H & ->). destruct (Z0 (r + 1)%Z (or_introl (S1 r C))) as (k & th & d' & Hk & F). exists (S k), th, d'. split; [lia|]. eapply miss; [exact H| |exact F]. rewrite C. reflexivity. }
  pose proof (Z.mod_pos_bound seed 7 ltac:(lia)).
  assert (C : ((seed mod 7 = 0 \/ seed mod 7 = 1 \/ seed mod 7 = 2 \/ seed mod 7 = 3 \/ seed mod 7 = 4) \/ seed mod 7 = 5 \/ seed mod 7 = 6)%Z) by lia. destruct C as [C|[C|C]].
  - destruct (Z0 seed C) as (k & th & d & Hk & F). exists k, th, d. split; [lia|exact F].
  - destruct (A seed) as (d & H' & ->). destruct (Z6 (seed + 1)%Z (S2 seed C)) as (k & th & d' & Hk & F). exists (S k), th, d'. split; [lia|]. eapply miss; [exact H'| |exact F]. rewrite C. reflexivity.
  - destruct (Z6 seed C) as (k & th & d & Hk & F). exists k, th, d. split; [lia|exact F].
Qed.

(** C89: the other schemes draw their seeds from randint(0, 2^32 - 1): two of n seeds agree with a probability of at most
    n (n - 1) / (2 (2^32 - 1)), below 1/8000 up to 1000 seeds, but above one half from 100000 seeds on. *)
Definition wide : nat := Z.to_nat (2 ^ 32 - 1).
Lemma wide_INR : INR wide = 4294967295.
Proof. unfold wide. rewrite INR_IZR_INZ, Z2Nat.id by (vm_compute; discriminate). reflexivity. Qed.
Lemma wide_pos : (0 < wide)%nat.
Proof. apply INR_lt. rewrite wide_INR. cbn [INR]. lra. Qed.
Lemma wide_ints : randint_values uint32_range = ints 0 wide /\ alike (randint_values uint32_range) = even wide.
Proof. apply values_ints. unfold wide. rewrite Z2Nat.id by (vm_compute; discriminate). reflexivity. Qed.
Theorem C89_wide : forall n, let same := prob (randint_values uint32_range) (alike (randint_values uint32_range)) n (twice Z.eq_dec) in
  same <= INR n * (INR n - 1) / (2 * 4294967295)
  /\ ((Z.of_nat n <= 1000)%Z -> same < 1 / 8000) /\ ((100000 <= Z.of_nat n)%Z -> 1 / 2 < same).
Proof.
  intros n. destruct wide_ints as [-> ->]. intros same. destruct (C89_exact Z Z.eq_dec (ints 0 wide) (ints_NoDup _ _) wide (ints_length _ _) wide_pos n) as [_ [B U]]. fold same in B, U. rewrite wide_INR in B, U.
  split; [exact U|]. pose proof (pos_INR n) as P. split; intros H; apply IZR_le in H; rewrite <- INR_IZR_INZ in H.
  - nra.
  - assert (Y : 11 / 10 <= INR n * (INR n - 1) / (2 * 4294967295)) by nra. set (y := INR n * (INR n - 1) / (2 * 4294967295)) in *.
    assert (E : exp (- y) < 1 / 2); [|lra]. rewrite exp_Ropp. pose proof (exp_ineq1_le y). replace (1 / 2) with (/ 2) by lra. apply Rinv_lt_contravar; lra.
Qed.
Print Assumptions C89_wide.

(** C89: DrawFromPrior repairs duplicates (inferences.py:365-370).  The repair helps: of n seeds drawn from m values two agree after it
    with a probability of at most 2 n (n - 1) (n - 2) / (3 m^2), instead of about n^2 / (2 m). *)
Definition spoil (x a b : Z) : bool := ((a =? x) && (b =? x) || (a =? x) && (b =? x + 1) || ((a =? x + 1) && (b =? x) || (a =? x - 1) && (b =? x - 1)))%Z.
Fixpoint pair_spoils (x : Z) (l : list Z) : bool := match l with [] => false | a :: l' => existsb (spoil x a) l' || pair_spoils x l' end.
Fixpoint spoiled (l : list Z) : bool := match l with [] => false | x :: l' => pair_spoils x l' || spoiled l' end.
Lemma spoil_iff x a b : spoil x a b = true <-> (a = x /\ b = x \/ a = x /\ b = x + 1 \/ a = x + 1 /\ b = x \/ a = x - 1 /\ b = x - 1)%Z.
Proof. unfold spoil. rewrite !orb_true_iff, !andb_true_iff, !Z.eqb_eq. tauto. Qed.
Lemma existsb_not {X} (f : X -> bool) l : existsb f l = false -> forall x, In x l -> f x <> true.
Proof. intros H x Hx E. assert (existsb f l = true) by (apply existsb_exists; exists x; auto). congruence. Qed.
Lemma pair_clear x l : pair_spoils x l = false ->
  (count_occ Z.eq_dec l x <= 1)%nat /\ (In x l -> ~ In (x + 1)%Z l) /\ (count_occ Z.eq_dec l (x - 1)%Z <= 1)%nat.
Proof.
  induction l as [|a l IH]; cbn [pair_spoils]; intros H; [cbn; repeat split; [lia|tauto|lia]|]. apply orb_false_iff in H. destruct H as [H1 H2]. destruct (IH H2) as (A & B & C). pose proof (existsb_not _ _ H1) as N.
  assert (D : forall b, In b l -> ~ (a = x /\ b = x \/ a = x /\ b = x + 1 \/ a = x + 1 /\ b = x \/ a = x - 1 /\ b = x - 1)%Z) by (intros b Hb E; apply (N b Hb), spoil_iff, E).
  split; [|split].
  - cbn [count_occ]. destruct (Z.eq_dec a x) as [->|]; [|exact A]. rewrite (proj1 (count_occ_not_In Z.eq_dec l x)); [lia|]. intros Hx. apply (D x Hx). auto.
  - intros [E1|E1] [E2|E2].
    + lia.
    + apply (D _ E2). auto.
    + apply (D _ E1). auto.
    + exact (B E1 E2).
  - cbn [count_occ]. destruct (Z.eq_dec a (x - 1)) as [->|]; [|exact C]. rewrite (proj1 (count_occ_not_In Z.eq_dec l (x - 1)%Z)); [lia|]. intros Hx. apply (D _ Hx). auto.
Qed.
Lemma clear_distinct l : spoiled l = false -> (forall v, (count_occ Z.eq_dec l v <= 2)%nat) /\ (forall v, count_occ Z.eq_dec l v = 2%nat -> ~ In (v + 1)%Z l).
Proof.
  induction l as [|x l IH]; cbn [spoiled]; intros H; [cbn; split; [lia|tauto]|]. apply orb_false_iff in H. destruct H as [H1 H2]. destruct (IH H2) as [A B]. destruct (pair_clear x l H1) as (C & D & F).
  split; intros v; cbn [count_occ]; destruct (Z.eq_dec x v) as [<-|Hv].
  - lia.
  - apply A.
  - intros E [G|G]; [lia|]. apply D; [|exact G]. apply (count_occ_In Z.eq_dec). lia.
  - intros E [G|G]; [|exact (B v E G)]. replace (x - 1)%Z with v in F by lia. lia.
Qed.
Section Repair.
Variable m : nat.
Hypothesis m_pos : (0 < m)%nat.
Notation outs := (ints 0 m).
Notation prob := (prob outs (even m)).
Notation chance := (chance outs (even m)).
Notation expect := (expect outs (even m)).
Let law := even_law Z outs m (ints_length 0 m) m_pos.
Lemma one_value v : chance (fun a => (a =? v)%Z) <= / INR m.
Proof.
  rewrite (chance_count Z outs m). assert (L : (length (filter (fun a => (a =? v)%Z) outs) <= 1)%nat).
  { change 1%nat with (length [v]). apply NoDup_incl_length; [apply NoDup_filter, ints_NoDup|]. intros x Hx. apply filter_In in Hx. destruct Hx as [_ Hx]. apply Z.eqb_eq in Hx. left. auto. }
  apply le_INR in L. cbn [INR] in L. pose proof (Rinv_0_lt_compat _ (INR_m m m_pos)). unfold Rdiv. rewrite <- (Rmult_1_l (/ INR m)) at 2. apply Rmult_le_compat_r; lra.
Qed.
Lemma two_values v w : expect (fun a => chance (fun b => (a =? v) && (b =? w))%Z) <= / INR m * / INR m.
Proof.
  pose proof (Rinv_0_lt_compat _ (INR_m m m_pos)) as P.
  rewrite (expect_ext _ _ _ _ (fun a => chance (fun b => (b =? w)%Z) * (if (a =? v)%Z then 1 else 0))).
  - rewrite expect_scale. apply Rmult_le_compat; [apply chance_range, law|apply (chance_range _ outs (even m) (fun a => (a =? v)%Z)), law|apply one_value|apply (one_value v)].
  - intros a _. destruct (a =? v)%Z; cbn [andb]; [rewrite Rmult_1_r; reflexivity|]. rewrite Rmult_0_r. unfold S_Law.chance. apply expect_const, law.
Qed.
Lemma chance_or P Q : chance (fun b => P b || Q b) <= chance P + chance Q.
Proof. unfold S_Law.chance. rewrite <- expect_plus. apply expect_le; [exact law|]. intros a _. destruct (P a), (Q a); cbn [orb]; lra. Qed.
Lemma spoil_chance x : expect (fun a => chance (spoil x a)) <= 4 * (/ INR m * / INR m).
Proof.
  apply Rle_trans with (expect (fun a => (chance (fun b => (a =? x) && (b =? x))%Z + chance (fun b => (a =? x) && (b =? x + 1))%Z) + (chance (fun b => (a =? x + 1) && (b =? x))%Z + chance (fun b => (a =? x - 1) && (b =? x - 1))%Z))).
  - apply expect_le; [exact law|]. intros a _. unfold spoil. eapply Rle_trans; [apply chance_or|]. apply Rplus_le_compat; apply chance_or.
  - rewrite !expect_plus. pose proof (two_values x x). pose proof (two_values x (x + 1)). pose proof (two_values (x + 1) x). pose proof (two_values (x - 1) (x - 1)). lra.
Qed.
Lemma exists_chance P k : prob k (existsb P) <= INR k * chance P.
Proof.
  induction k as [|k IH]; [cbn; lra|]. rewrite S_INR. cbn [S_Law.prob existsb].
  apply Rle_trans with (expect (fun a => (if P a then 1 else 0) + INR k * chance P)).
  - apply expect_le; [exact law|]. intros a _. destruct (P a); cbn [orb].
    + rewrite (prob_const _ _ _ k true law). pose proof (chance_range _ outs (even m) P law). pose proof (pos_INR k). nra.
    + rewrite Rplus_0_l. exact IH.
  - rewrite expect_plus, (expect_const _ _ _ _ law). unfold S_Law.chance at 2. fold (chance P). right. unfold S_Law.chance. ring.
Qed.
Lemma pair_chance x k : prob k (pair_spoils x) <= INR k * (INR k - 1) * 2 * (/ INR m * / INR m).
Proof.
  induction k as [|k IH]; [cbn; lra|]. rewrite S_INR. cbn [S_Law.prob pair_spoils].
  apply Rle_trans with (expect (fun a => INR k * chance (spoil x a) + prob k (pair_spoils x))).
  - apply expect_le; [exact law|]. intros a _. eapply Rle_trans; [apply (prob_or _ _ _ law)|]. apply Rplus_le_compat_r. apply exists_chance.
  - rewrite expect_plus, expect_scale, (expect_const _ _ _ _ law). pose proof (spoil_chance x). pose proof (pos_INR k). set (q := / INR m * / INR m) in *. nra.
Qed.
Lemma spoiled_chance k : prob k spoiled <= INR k * (INR k - 1) * (INR k - 2) * (2 / 3) * (/ INR m * / INR m).
Proof.
  induction k as [|k IH]; [cbn; lra|]. rewrite S_INR. cbn [S_Law.prob spoiled].
  apply Rle_trans with (expect (fun a => INR k * (INR k - 1) * 2 * (/ INR m * / INR m) + prob k spoiled)).
  - apply expect_le; [exact law|]. intros a _. eapply Rle_trans; [apply (prob_or _ _ _ law)|]. apply Rplus_le_compat_r. apply pair_chance.
  - rewrite (expect_const _ _ _ _ law). set (q := / INR m * / INR m) in *. set (t := INR k) in *. replace ((t + 1) * (t + 1 - 1) * (t + 1 - 2) * (2 / 3) * q) with (t * (t - 1) * 2 * q + t * (t - 1) * (t - 2) * (2 / 3) * q) by field. lra.
Qed.
Theorem C89_repair : forall n, prob n (fun draws => twice Z.eq_dec (worker_seeds draws)) <= 2 * INR n * (INR n - 1) * (INR n - 2) / (3 * (INR m * INR m)).
Proof.
  intros n. pose proof (INR_m m m_pos) as P. eapply Rle_trans; [apply (prob_le _ _ _ law _ _ spoiled)|].
  - intros l T. destruct (spoiled l) eqn:E; [reflexivity|]. apply clear_distinct, C42_distinct in E. apply (twice_iff Z.eq_dec) in E. congruence.
  - eapply Rle_trans; [apply spoiled_chance|]. right. field. lra.
Qed.
End Repair.
Print Assumptions C89_repair.
(** a million work items, 2^32 - 1 values: less than 1 in 25, where the plain draws of the other schemes are almost sure to collide *)
Theorem C89_repair_million : forall n, (Z.of_nat n <= 1000000)%Z -> prob (randint_values uint32_range) (alike (randint_values uint32_range)) n (fun draws => twice Z.eq_dec (worker_seeds draws)) < 1 / 25.
Proof.
  intros n H. destruct wide_ints as [-> ->]. eapply Rle_lt_trans; [apply (C89_repair wide wide_pos)|]. rewrite wide_INR. apply IZR_le in H. rewrite <- INR_IZR_INZ in H. pose proof (pos_INR n) as P.
  assert (B : 2 * INR n * (INR n - 1) * (INR n - 2) <= 2 * 1000000 * 1000000 * 1000000).
  { destruct n as [|[|n]]; [cbn; lra|cbn; lra|]. rewrite !S_INR in *. pose proof (pos_INR n). set (t := INR n) in *. replace (2 * (t + 1 + 1) * (t + 1 + 1 - 1) * (t + 1 + 1 - 2)) with (2 * ((t + 2) * ((t + 1) * t))) by ring.
    replace (2 * 1000000 * 1000000 * 1000000) with (2 * (1000000 * (1000000 * 1000000))) by ring. apply Rmult_le_compat_l; [lra|]. apply Rmult_le_compat; [lra|nra|lra|]. apply Rmult_le_compat; lra. }
  lra.
Qed.
Print Assumptions C89_repair_million.
