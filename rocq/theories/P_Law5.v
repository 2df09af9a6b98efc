(** C78: what the r-hit kernels of SMCABC leave invariant. *)
From Coq Require Import Reals Lra Lia Qreals.
From Verif Require Import M_Base M_Num L_Num M_Infer L_Infer M_PMCABC M_RSMCABC M_SMCABC M_XReal M_Stats L_PMC S_Stats L_Stats L_Distance L_PosDef L_Histogram S_Law P_Law L_Law P_Law3 P_Law4 S_Gen L_Gen L_Series L_Hits L_Coin.
Open Scope R_scope.

Lemma map_removelast {X Z} (g : X -> Z) l : map g (removelast l) = removelast (map g l).
Proof. induction l as [|x [|y l] IH]; [reflexivity|reflexivity|]. change (g x :: map g (removelast (y :: l)) = g x :: removelast (map g (y :: l))). rewrite IH. reflexivity. Qed.
(** the trials at the positions of the hits are the hits *)
Lemma hits_nth {B Y} (dist : Y -> num) eps (tr : list (B * Y)) : map (nth_error tr) (hits_at Y dist eps tr) = map Some (filter (close B Y dist eps) tr).
Proof.
  unfold hits_at. assert (Gn : forall t pre, map (nth_error (pre ++ t)) (map fst (filter (fun ix => nlt (dist (snd (snd ix))) eps) (combine (seq (length pre) (length t)) t))) = map Some (filter (close B Y dist eps) t)); [|apply (Gn tr [])].
  induction t as [|x t IH]; intros pre; [reflexivity|]. cbn [length seq combine filter snd]. unfold close at 1.
  specialize (IH (pre ++ [x])). rewrite <- app_assoc in IH. cbn [app] in IH. rewrite app_length in IH. cbn [length] in IH. rewrite Nat.add_1_r in IH.
  destruct (nlt (dist (snd x)) eps); cbn [map fst]; [|exact IH]. rewrite IH. f_equal. rewrite nth_error_app2 by lia. rewrite Nat.sub_diag. reflexivity.
Qed.

Section Kernels.
Variables A Theta Y : Type.
Variable outs : list A.
Variable p : A -> R.
Hypothesis dlaw : Law outs p.
Variable setp : Theta -> Theta -> bool * Theta.
Variable pdfv : Theta -> Theta -> num.
Variable kupd : pop Theta -> nat -> list A -> list A * Theta.
Variable kupdL : pop Theta -> Theta -> list A -> list A * Theta.
Variable kpdf : pop Theta -> Theta -> Theta -> num.
Variable simc : Theta -> list A -> list A * option Y.
Variable dist : Y -> num.
Variable bern : num -> list A -> res (list A * bool).
Variable choiceL : list nat -> list A -> res (list A * nat).
Variable eps : num.
(** r - 2 *)
Variable w0 : nat.
Notation w := (S w0).
Notation r := (S (S w0)).
(** prior and kernel densities, on the finitely many parameters that occur; probabilities of the finitely many data sets *)
Variable pi : Theta -> Q.
Variable kern : Theta -> Theta -> Q.
Variable pts : list Theta.
Variable datas : list Y.
Variable lik : Theta -> Y -> R.
Hypothesis set_all : forall th cur, setp th cur = (true, th).
Hypothesis density : forall th cur, pdfv th cur = Fin (pi th).
Hypothesis density_nonneg : forall th, (0 <= pi th)%Q.
Notation Ts := (filter (inside Theta pi) pts).
Hypothesis kern_law : forall th, Law pts (fun x => Q2R (kern th x)).
Hypothesis data_law : forall th, Law datas (lik th).
Definition simulate (th : Theta) (_ : nat) (l : list A) : res (list A * Y) := match simc th l with (l', Some y) => Ok (l', y) | (_, None) => Err TypeError end.
Hypothesis sim_law : forall th, In th Ts -> Produces outs p (simulate th) datas (lik th).
Hypothesis coin : forall v, (0 <= v <= 1)%Q -> Produces outs p (fun _ l => bern (Fin v) l) [true; false] (fun b => if b then Q2R v else 1 - Q2R v).
Hypothesis pick : forall L, length L = w -> Produces outs p (fun _ l => choiceL L l) L (fun _ => / INR w).
Definition near (y : Y) : bool := nlt (dist y) eps.
(** chance of a close data set; chance that a perturbation is inside the prior *)
Definition h (th : Theta) : R := chance datas (lik th) near.
Definition inner (th : Theta) : R := total (map (fun x => Q2R (kern th x)) Ts).
Hypothesis h_pos : forall th, In th Ts -> 0 < h th.
Hypothesis inner_pos : forall th, In th Ts -> 0 < inner th.
(** [q] is a population whose sample number idx is th *)
Definition drawn (q : pop Theta) (idx : nat) (th : Theta) : Prop :=
  Produces outs p (fun _ l => Ok (kupd q idx l)) pts (fun x => Q2R (kern th x)) /\ (forall x y, kpdf q x y = Fin (kern x y)) /\
  (forall th', In th' Ts -> Produces outs p (fun _ l => Ok (kupdL q th' l)) pts (fun x => Q2R (kern th' x))).
(** sum over parameters and close data: prior density, factor c, probability of the data *)
Definition posterior (c : Theta -> R) (f : Theta -> Y -> R) : R :=
  total (map (fun th => Q2R (pi th) * c th * expect datas (lik th) (fun y => if near y then f th y else 0)) Ts).
(** mean of f over the close data of th *)
Definition close_mean (f : Theta -> Y -> R) (th : Theta) : R := expect datas (lik th) (fun y => if near y then f th y else 0) / h th.

Lemma inner_within th : within Theta pi pts (fun x => Q2R (kern th x)) = inner th.
Proof. unfold within, inner, chance, expect. clear. induction pts as [|x l IH]; [reflexivity|]. cbn [map filter]. rewrite total_cons, IH. destruct (inside Theta pi x); cbn [map]; [rewrite total_cons; ring|ring]. Qed.
Lemma Ts_in th : In th Ts -> In th pts /\ ~ (pi th == 0)%Q.
Proof. intros H. apply filter_In in H. destruct H as [H1 H2]. split; [exact H1|]. intros X. unfold inside in H2. apply Qeq_bool_iff in X. rewrite X in H2. discriminate. Qed.
Lemma prior_pos th : In th Ts -> 0 < Q2R (pi th).
Proof. intros H. apply Ts_in in H. destruct H as [_ H]. apply Q2R_pos. specialize (density_nonneg th). apply Qle_lteq in density_nonneg. destruct density_nonneg as [X|X]; [exact X|]. exfalso. apply H. symmetry. exact X. Qed.
Lemma kern_pos th th' : In th' Ts -> 0 <= Q2R (kern th th').
Proof. intros H. apply (proj1 (kern_law th)). apply Ts_in, H. Qed.
(** probability of acceptance: m trials from the one, n from the other parameters *)
Definition acc (m n : nat) (th th' : Theta) : R := Rmax 0 (Rmin 1 (INR m / INR (pred n) * (Q2R (pi th') / Q2R (pi th)) * (Q2R (kern th' th) / Q2R (kern th th')))).
Lemma acc_range m n th th' : 0 <= acc m n th th' <= 1.
Proof. unfold acc. split; [apply Rmax_l|]. apply Rmax_lub; [lra|apply Rmin_l]. Qed.
Lemma acc_value m n th th' : In th Ts -> In th' Ts -> ~ (kern th th' == 0)%Q -> (2 <= n)%nat ->
  exists v, min1 (nmul (nmul (ndiv (ofnat m) (Fin (inject_Z (Z.of_nat n - 1)))) (ndiv (Fin (pi th')) (Fin (pi th)))) (ndiv (Fin (kern th' th)) (Fin (kern th th')))) = Fin v /\ Q2R v = acc m n th th' /\ (0 <= v <= 1)%Q.
Proof.
  intros H H' Hk Hn. pose proof (prior_pos th H) as P1. pose proof (prior_pos th' H') as P2. pose proof (kern_pos th th' H') as K1. pose proof (kern_pos th' th H) as K2.
  assert (N : ~ (inject_Z (Z.of_nat n - 1) == 0)%Q) by (intros X; unfold Qeq, inject_Z in X; cbn [Qnum Qden] in X; lia).
  unfold ofnat. rewrite !ndiv_fin by (try assumption; apply Ts_in, H). cbn [nmul]. set (z := (inject_Z (Z.of_nat m) / inject_Z (Z.of_nat n - 1) * (pi th' / pi th) * (kern th' th / kern th th'))%Q).
  assert (Hz : Q2R z = INR m / INR (pred n) * (Q2R (pi th') / Q2R (pi th)) * (Q2R (kern th' th) / Q2R (kern th th'))).
  { unfold z. rewrite !Q2R_mult, !Q2R_div by (try assumption; apply Ts_in, H). rewrite Q2R_nat. replace (Z.of_nat n - 1)%Z with (Z.of_nat (pred n)) by lia. rewrite Q2R_nat. reflexivity. }
  assert (K1' : 0 < Q2R (kern th th')) by (destruct K1 as [K1|K1]; [exact K1|exfalso; apply Hk, Q2R_zero; symmetry; exact K1]).
  assert (N1 : 0 < INR (pred n)) by (apply lt_0_INR; lia).
  assert (Z0 : 0 <= Q2R z).
  { rewrite Hz. assert (D : forall a b, 0 <= a -> 0 < b -> 0 <= a / b) by (intros a b Ha Hb; apply Rmult_le_pos; [exact Ha|apply Rlt_le, Rinv_0_lt_compat, Hb]). apply Rmult_le_pos; [apply Rmult_le_pos|]; apply D; try assumption; try lra. apply pos_INR. }
  assert (O1 : Q2R 1 = 1) by (unfold Q2R; cbn; lra). assert (O0 : Q2R 0 = 0) by (unfold Q2R; cbn; lra).
  unfold min1. cbn [nlt]. unfold acc. rewrite <- Hz. destruct (Qle_bool 1 z) eqn:Ez; cbn [negb].
  - exists 1%Q. split; [reflexivity|]. split; [|split; discriminate]. apply Qle_bool_iff, Qle_Rle in Ez. rewrite O1 in *. rewrite Rmin_left by exact Ez. rewrite Rmax_right by lra. reflexivity.
  - assert (L : (z < 1)%Q) by (apply Qnot_le_lt; intros X; apply Qle_bool_iff in X; congruence). exists z. split; [reflexivity|]. split; [|split; [apply Rle_Qle; rewrite O0; exact Z0|apply Qlt_le_weak, L]].
    rewrite Rmin_right; [rewrite Rmax_right by exact Z0; reflexivity|]. apply Rlt_le. rewrite <- O1. apply Qlt_Rlt, L.
Qed.
Lemma acc_pos m n th th' : In th Ts -> In th' Ts -> 0 < Q2R (kern th th') -> 0 < Q2R (kern th' th) -> (1 <= m)%nat -> (2 <= n)%nat -> 0 < acc m n th th'.
Proof.
  intros H H' K K' Hm Hn. pose proof (prior_pos th H) as P1. pose proof (prior_pos th' H') as P2. assert (M : 0 < INR m) by (apply lt_0_INR; lia). assert (N : 0 < INR (pred n)) by (apply lt_0_INR; lia). unfold acc.
  assert (D : forall a b, 0 < a -> 0 < b -> 0 < a / b) by (intros a b Ha Hb; apply Rmult_lt_0_compat; [exact Ha|apply Rinv_0_lt_compat, Hb]).
  eapply Rlt_le_trans; [|apply Rmax_r]. apply Rmin_glb_lt; [lra|]. apply Rmult_lt_0_compat; [apply Rmult_lt_0_compat|]; apply D; assumption.
Qed.
(** the flow between two parameters *)
Lemma acc_flow m n th th' : In th Ts -> In th' Ts -> Q2R (pi th) * Q2R (kern th th') * INR n * acc m (S n) th th' = Rmin (Q2R (pi th) * Q2R (kern th th') * INR n) (Q2R (pi th') * Q2R (kern th' th) * INR m).
Proof.
  intros H H'. pose proof (prior_pos th H) as P1. pose proof (prior_pos th' H') as P2. pose proof (kern_pos th th' H') as K1. pose proof (kern_pos th' th H) as K2. unfold acc. cbn [pred].
  pose proof (pos_INR m) as M0. pose proof (pos_INR n) as N0. revert P1 P2 K1 K2 M0 N0. generalize (Q2R (pi th)), (Q2R (pi th')), (Q2R (kern th th')), (Q2R (kern th' th)), (INR m), (INR n). clear. intros x x' k k' m n P1 P2 K1 K2 M0 N0.
  assert (U : 0 <= x' * k' * m) by (apply Rmult_le_pos; [apply Rmult_le_pos; lra|exact M0]).
  destruct (Req_dec k 0) as [->|Hk]; [rewrite Rmult_0_r, !Rmult_0_l, Rmin_left by exact U; reflexivity|]. destruct (Req_dec n 0) as [->|Hn]; [rewrite Rmult_0_r, Rmult_0_l, Rmin_left by exact U; reflexivity|].
  set (g := x * k * n). assert (Hg : 0 < g) by (unfold g; apply Rmult_lt_0_compat; [apply Rmult_lt_0_compat; lra|lra]). replace (m / n * (x' / x) * (k' / k)) with (x' * k' * m / g) by (unfold g; field; lra).
  assert (Q0 : 0 <= x' * k' * m / g) by (apply Rmult_le_pos; [exact U|apply Rlt_le, Rinv_0_lt_compat, Hg]). rewrite Rmax_right by (apply Rmin_glb; lra). rewrite Rmin_scale by lra. f_equal; field. lra.
Qed.

(** ** Version 1: r - 1 hits from the old parameters, r hits from the proposed ones *)
Notation items1 := (map (pair tt) datas).
Definition wt1 (th : Theta) (x : unit * Y) : R := lik th (snd x).
Notation close1 := (close unit Y dist eps).
Lemma expect1 th G : expect items1 (wt1 th) G = expect datas (lik th) (fun y => G (tt, y)).
Proof. unfold expect. rewrite map_map. reflexivity. Qed.
Lemma law1 th : Law items1 (wt1 th).
Proof. destruct (data_law th) as [H1 H2]. split; [intros x Hx; apply in_map_iff in Hx; destruct Hx as (y & <- & Hy); apply H1, Hy|]. rewrite map_map. exact H2. Qed.
Lemma rate1 th : rate _ items1 (wt1 th) close1 = h th.
Proof. unfold rate, chance, h. rewrite expect1. reflexivity. Qed.
Notation w1 th := (waits _ items1 (wt1 th) close1).
Definition inner1 th th' m := dominated (fun n => w1 th' r n * acc m n th th') (w1 th' r)
  ltac:(intros n; pose proof (waits_nonneg _ _ _ (law1 th') close1 r n); pose proof (acc_range m n th th'); split; [apply Rmult_le_pos; lra|rewrite <- Rmult_1_r; apply Rmult_le_compat_l; lra])
  (fun N => sums_le _ _ _ (law1 th') close1 N r).
Definition acc1m th th' m : R := proj1_sig (inner1 th th' m).
Definition outer1 th th' := dominated (fun m => w1 th w m * acc1m th th' m) (w1 th w)
  ltac:(intros m; pose proof (waits_nonneg _ _ _ (law1 th) close1 w m); pose proof (proj2 (proj2_sig (inner1 th th' m))); unfold acc1m; split; [apply Rmult_le_pos; lra|rewrite <- Rmult_1_r; apply Rmult_le_compat_l; lra])
  (fun N => sums_le _ _ _ (law1 th) close1 N w).
(** overall probability of acceptance *)
Definition acc1 th th' : R := proj1_sig (outer1 th th').
Lemma acc1_range th th' : 0 <= acc1 th th' <= 1.
Proof. exact (proj2 (proj2_sig (outer1 th th'))). Qed.
Lemma acc1_balance th th' : In th Ts -> In th' Ts -> Q2R (pi th) * h th * Q2R (kern th th') * acc1 th th' = Q2R (pi th') * h th' * Q2R (kern th' th) * acc1 th' th.
Proof.
  intros H H'. assert (Hw : 0 < INR w) by (apply lt_0_INR; lia). apply Rmult_eq_reg_l with (INR w); [|lra].
  assert (Gn : forall th th', In th Ts -> In th' Ts ->
    let e := fun m n => h th * h th' * w1 th w m * w1 th' w n * Rmin (Q2R (pi th) * Q2R (kern th th') * INR n) (Q2R (pi th') * Q2R (kern th' th) * INR m) in
    (forall m, Un_cv (sum_f_R0 (e m)) (INR w * (Q2R (pi th) * h th * Q2R (kern th th')) * (w1 th w m * acc1m th th' m))) /\
    Un_cv (sum_f_R0 (fun m => INR w * (Q2R (pi th) * h th * Q2R (kern th th')) * (w1 th w m * acc1m th th' m))) (INR w * (Q2R (pi th) * h th * Q2R (kern th th')) * acc1 th th')).
  { clear H H' th th'. intros th th' H H' e. split; [|apply cv_scale_sum, (proj1 (proj2_sig (outer1 th th')))]. intros m.
    apply (cv_ext (sum_f_R0 (fun n => INR w * (Q2R (pi th) * h th * Q2R (kern th th')) * w1 th w m * (w1 th' r (S n) * acc m (S n) th th')))).
    - intros N. apply sum_eq. intros n _. transitivity (Q2R (pi th) * h th * Q2R (kern th th') * w1 th w m * acc m (S n) th th' * (INR w * w1 th' r (S n))); [ring|]. rewrite (waits_shift _ _ _ (law1 th') close1 n w), rate1. unfold e. rewrite <- acc_flow by assumption. ring.
    - rewrite <- (Rmult_assoc _ (w1 th w m)). apply cv_scale_sum. apply (cv_shift_sum (fun n => w1 th' r n * acc m n th th')); [rewrite waits_S0; ring|]. exact (proj1 (proj2_sig (inner1 th th' m))). }
  destruct (Gn th th' H H') as [G1 G2]. destruct (Gn th' th H' H) as [G3 G4]. cbv zeta in *.
  rewrite <- (Rmult_assoc (INR w) _ (acc1 th th')), <- (Rmult_assoc (INR w) _ (acc1 th' th)).
  refine (tonelli _ _ _ _ _ _ G1 G2 _ G4).
  - intros m n. apply Rmult_le_pos; [repeat apply Rmult_le_pos; try (apply Rlt_le, h_pos; assumption); apply waits_nonneg, law1|]. pose proof (prior_pos th H). pose proof (prior_pos th' H'). pose proof (kern_pos th th' H'). pose proof (kern_pos th' th H). pose proof (pos_INR m). pose proof (pos_INR n).
    apply Rmin_glb; apply Rmult_le_pos; try apply Rmult_le_pos; lra.
  - intros n. eapply cv_ext; [|apply (G3 n)]. intros N. apply sum_eq. intros m _. cbn beta. rewrite Rmin_comm. ring.
Qed.
Lemma acc1_pos th th' : In th Ts -> In th' Ts -> 0 < Q2R (kern th th') -> 0 < Q2R (kern th' th) -> 0 < acc1 th th'.
Proof.
  intros H H' K K'. assert (P : forall x n, In x Ts -> 0 < w1 x n n) by (intros x n Hx; rewrite (waits_least _ _ _ (law1 x)), rate1; apply pow_lt, h_pos, Hx).
  assert (T1 : w1 th' r r * acc w r th th' <= acc1m th th' w).
  { apply Rle_trans with (sum_f_R0 (fun n => w1 th' r n * acc w n th th') r); [|apply sum_below; [|exact (proj1 (proj2_sig (inner1 th th' w)))]].
    - cbn [sum_f_R0]. match goal with |- _ <= ?x + _ => assert (0 <= x); [|lra] end. repeat apply Rplus_le_le_0_compat; try (apply Rmult_le_pos; [apply waits_nonneg, law1|apply acc_range]). apply cond_pos_sum. intros n. apply Rmult_le_pos; [apply waits_nonneg, law1|apply acc_range].
    - intros n. apply Rmult_le_pos; [apply waits_nonneg, law1|apply acc_range]. }
  assert (R0 : forall m, 0 <= acc1m th th' m) by (intros m; exact (proj1 (proj2 (proj2_sig (inner1 th th' m))))).
  assert (T2 : w1 th w w * acc1m th th' w <= acc1 th th').
  { apply Rle_trans with (sum_f_R0 (fun m => w1 th w m * acc1m th th' m) w); [|apply sum_below; [|exact (proj1 (proj2_sig (outer1 th th')))]].
    - cbn [sum_f_R0]. match goal with |- _ <= ?x + _ => assert (0 <= x); [|lra] end. apply cond_pos_sum. intros n. apply Rmult_le_pos; [apply waits_nonneg, law1|apply R0].
    - intros m. apply Rmult_le_pos; [apply waits_nonneg, law1|apply R0]. }
  eapply Rlt_le_trans; [|exact T2]. apply Rmult_lt_0_compat; [apply P, H|]. eapply Rlt_le_trans; [|exact T1]. apply Rmult_lt_0_compat; [apply P, H'|]. apply acc_pos; try assumption; lia.
Qed.
Notation gen_sim := (fun (_ : nat) => @sim1 Theta (list A) Y simc unit tt).
Notation until th v := (until1 A Theta unit Y dist eps gen_sim v th).
Lemma until1_gives th v : In th Ts -> Gives outs p (until th (S v)) (fun z => fst z = th /\ ends _ close1 (S v) (snd z) = true /\ Forall (sup unit Y items1 (wt1 th)) (snd z))
  (fun G x => exists H, (forall c t, c = th -> G (c, t) = H t) /\ Un_cv (sum_f_R0 (fun n => at_trial _ items1 (wt1 th) close1 (S v) n H)) x).
Proof.
  intros H. apply (until_gives A Theta unit Y outs p dlaw dist eps items1 (wt1 th) (law1 th) gen_sim (fun _ => th) (fun c => c = th)); [reflexivity| |rewrite rate1; apply h_pos, H|reflexivity].
  intros c -> g G Bd x Hb Ht Hx. apply (Tends_ext _ outs p (after (simulate th) (fun y => g (th, (tt, y))))).
  - intros f l _. unfold after, gen1, sim1, simulate. destruct (simc th l) as [l' [y|]]; reflexivity.
  - rewrite expect1 in Hx. apply (sim_law th H _ (fun y => G (th, (tt, y))) Bd); [intros; apply Hb| |exact Hx].
    intros y (Hy & Hl). apply Ht. split; [reflexivity|]. split; [exact (in_map (pair tt) _ _ Hy)|exact Hl].
Qed.
Notation gn := (gain Theta Y).
Definition tail1 (q : pop Theta) (ys : list Y) (idx : nat) (theta : Theta) (m : nat) (cur3 th : Theta) (new : list (unit * Y)) (r3 : list A) : res (Theta * Y * nat * Theta) :=
  let counter := (m + length new)%nat in
  let '(rp, rk, cur4) := ratios Theta setp pdfv kpdf q th theta cur3 in
  if (length new =? 1)%nat then Err ZeroDivisionError else
  match bern (min1 (nmul (nmul (ndiv (ofnat m) (Fin (inject_Z (Z.of_nat (length new) - 1)))) rp) rk)) r3 with
  | Err e => Err e
  | Ok (r4, true) =>
      let c := snd (setp th cur4) in
      match choiceL (removelast (hits_at Y dist eps new)) r4 with
      | Err e => Err e
      | Ok (_, J) => match nth_error new J with None => Err IndexError | Some (_, y) => Ok (c, y, counter, c) end
      end
  | Ok (_, false) => keep Theta Y setp (Some ys) idx counter theta cur4
  end.
Definition earlier_mean (f : Theta -> Y -> R) (th : Theta) (new : list (unit * Y)) : R := / INR w * total (map (fun x => f th (snd x)) (earlier _ close1 new)).
Lemma tail1_tends q ys idx th y m c th' new f B : In th Ts -> In th' Ts -> Q2R (kern th th') <> 0 -> (forall x y, kpdf q x y = Fin (kern x y)) -> nth_error ys idx = Some y -> ends _ close1 r new = true ->
  (forall th y, Rabs (f th y) <= B) ->
  Tends outs p (fun _ l => gn f (tail1 q ys idx th m c th' new l)) (acc m (length new) th th' * earlier_mean f th' new + (1 - acc m (length new) th th') * f th y).
Proof.
  intros H H' Hk Hq Hy He Hf. assert (Hn : (2 <= length new)%nat) by (apply ends_length in He; lia).
  destruct (acc_value m (length new) th th' H H' ltac:(intros X; apply Hk, Q2R_zero, X) Hn) as (v & Ev & Hv & V01). rewrite <- Hv.
  set (L := removelast (hits_at Y dist eps new)).
  assert (EL : map (nth_error new) L = map Some (earlier _ close1 new)) by (unfold L, earlier; rewrite map_removelast, hits_nth, <- map_removelast; reflexivity).
  assert (HL : length L = w) by (rewrite <- (map_length (nth_error new)), EL, map_length, (earlier_length _ _ _ _ He); reflexivity).
  assert (Bpos : 0 <= B) by (apply Rle_trans with (Rabs (f th y)); [apply Rabs_pos|apply Hf]).
  set (look := fun J : nat => match nth_error new J with Some (_, y0) => f th' y0 | None => 0 end).
  assert (Bl : forall J, Rabs (look J) <= B) by (intros J; unfold look; destruct (nth_error new J) as [[u y0]|]; [apply Hf|rewrite Rabs_R0; exact Bpos]).
  set (cont := fun b : bool => if b then after (fun _ l => choiceL L l) (fun J (_ : nat) (_ : list A) => look J) else fun _ _ => f th y).
  apply (Tends_ext _ outs p (after (fun _ l => bern (Fin v) l) cont)).
  - intros k l _. unfold tail1, ratios, pdf_of_prior. rewrite !set_all, !density, !Hq. cbn [snd]. cbv zeta. assert ((length new =? 1)%nat = false) as -> by (apply Nat.eqb_neq; lia). rewrite Ev.
    unfold after. destruct (bern (Fin v) l) as [[l' [|]]|]; [| |reflexivity].
    + unfold cont, after. fold L. destruct (choiceL L l') as [[l'' J]|]; [|reflexivity]. unfold look. destruct (nth_error new J) as [[u y0]|]; reflexivity.
    + unfold cont, keep. rewrite Hy, set_all. reflexivity.
  - apply (coin v V01 cont (fun b => if b then earlier_mean f th' new else f th y) B).
    + intros [|] k l; unfold cont; [apply after_bound; [exact Bpos|intros; apply Bl]|apply Hf].
    + intros [|] _; unfold cont; [|apply Tends_const, dlaw]. apply (pick L HL _ look B); [intros; apply Bl|intros; apply Tends_const, dlaw|].
      unfold earlier_mean. rewrite total_scale. f_equal. f_equal. transitivity (map (fun o : option (unit * Y) => match o with Some (_, y0) => f th' y0 | None => 0 end) (map (nth_error new) L)); [rewrite EL, map_map; apply map_ext; intros [u y0]; reflexivity|]. rewrite map_map. reflexivity.
    + cbn [map]. rewrite !total_cons. change (total []) with 0. ring.
Qed.
Lemma move1_chain q ys idx th cur f fu l : gn f (move1 Theta (list A) Y setp pdfv kupd kpdf simc dist bern choiceL r eps q (Some ys) fu idx th cur l) =
  after (until th w) (fun z => after (propose1 A Theta (pop Theta) setp pdfv kupd q idx (fst z)) (fun z2 => after (until (fst z2) r) (fun z3 _ l => gn f (tail1 q ys idx th (length (snd z)) (fst z3) (snd z2) (snd z3) l)))) fu l.
Proof.
  unfold move1, after at 1, until1 at 1. rewrite set_all. cbn [snd Nat.sub]. destruct (until_hits _ _ _ _ _ _ _ _ _ _ _) as [[[c1 r1] old]|]; [|reflexivity].
  unfold after at 1, propose1. cbn [fst snd]. destruct (propose _ _ _ _ _ _ _ _ _ _) as [[[c2 r2] th']|]; [|reflexivity].
  unfold after, until1. cbn [fst snd]. destruct (until_hits _ _ _ _ _ _ _ _ _ _ _) as [[[c3 r3] new]|]; reflexivity.
Qed.
Lemma at_earlier1 f th n : at_trial _ items1 (wt1 th) close1 r n (earlier_mean f th) = w1 th r n * close_mean f th \/ h th = 0.
Proof.
  destruct (Req_dec (h th) 0) as [E|E]; [right; exact E|left]. unfold earlier_mean. rewrite at_scale, (at_earlier _ _ _ (law1 th)). 2: rewrite rate1; pose proof (chance_range _ datas (lik th) near (data_law th)); unfold h in *; lra.
  unfold close_mean. rewrite rate1, expect1. cbn [pred]. change (fun y : Y => if close1 (tt, y) then f th (snd (tt, y)) else 0) with (fun y : Y => if near y then f th y else 0). field. split; [exact E|]. apply not_0_INR. lia.
Qed.
(** C78 (version 1): one move accepts a proposal th' with some probability a th th' and then takes data from the close data of th'; a is in detailed balance *)
Lemma law_acc1 (a := acc1) :
  (forall th th', 0 <= a th th' <= 1) /\ (forall th th', In th Ts -> In th' Ts -> 0 < Q2R (kern th th') -> 0 < Q2R (kern th' th) -> 0 < a th th') /\
  (forall th th', In th Ts -> In th' Ts -> Q2R (pi th) * h th * Q2R (kern th th') * a th th' = Q2R (pi th') * h th' * Q2R (kern th' th) * a th' th) /\
  forall q ys idx th y cur f B, In th Ts -> drawn q idx th -> nth_error ys idx = Some y -> (forall th y, Rabs (f th y) <= B) ->
    Tends outs p (fun fuel l => match move1 Theta (list A) Y setp pdfv kupd kpdf simc dist bern choiceL r eps q (Some ys) fuel idx th cur l with Ok (th', y', _, _) => f th' y' | Err _ => 0 end)
      (total (map (fun th' => Q2R (kern th th') / inner th * (a th th' * close_mean f th' + (1 - a th th') * f th y)) Ts)).
Proof.
  unfold a. split; [apply acc1_range|]. split; [exact acc1_pos|]. split; [exact acc1_balance|]. intros q ys idx th y cur f B H (Hd & Hq & _) Hy Hf.
  assert (Bpos : 0 <= B) by (apply Rle_trans with (Rabs (f th y)); [apply Rabs_pos|apply Hf]).
  assert (Bg : forall o, Rabs (gn f o) <= B) by (intros [[[[t u] k] c]|]; cbn; [apply Hf|rewrite Rabs_R0; exact Bpos]).
  apply (Tends_ext _ outs p _ _ _ (fun fu l _ => eq_sym (move1_chain q ys idx th cur f fu l))).
  (* value after the trials from th' *)
  set (V3 := fun m th' => (close_mean f th' - f th y) * acc1m th th' m + f th y).
  set (V2 := fun m => total (map (fun th' => Q2R (kern th th') / inner th * V3 m th') Ts)).
  refine (until1_gives th w0 H _ (fun z => V2 (length (snd z))) B _ _ _ _).
  - intros z k l. apply after_bound; [exact Bpos|]. intros z2 k2 l2. apply after_bound; [exact Bpos|]. intros; apply Bg.
  - intros [c1 old] (-> & He & _). cbn [fst snd] in *. set (m := length old).
    pose proof (propose_gives A Theta (pop Theta) outs p dlaw setp pdfv kupd q idx pi pts (fun x => Q2R (kern th x)) (kern_law th) set_all density Hd) as PG. rewrite inner_within in PG. specialize (PG (inner_pos th H) th).
    refine (PG _ (fun z2 => V3 m (snd z2)) B _ _ _ _).
    + intros z2 k l. apply after_bound; [exact Bpos|]. intros; apply Bg.
    + intros [c2 th'] (E & H' & Hk). cbn [fst snd] in *. subst c2.
      refine (until1_gives th' (S w0) H' _ (fun z3 => acc m (length (snd z3)) th th' * earlier_mean f th' (snd z3) + (1 - acc m (length (snd z3)) th th') * f th y) B _ _ _ _).
      * intros; apply Bg.
      * intros [c3 new] (-> & He3 & _). cbn [fst snd] in *. apply tail1_tends with (B := B); assumption.
      * exists (fun new => acc m (length new) th th' * earlier_mean f th' new + (1 - acc m (length new) th th') * f th y). split; [reflexivity|].
        unfold V3. apply (cv_ext (sum_f_R0 (fun n => (close_mean f th' - f th y) * (w1 th' r n * acc m n th th') + f th y * w1 th' r n))).
        -- intros N. apply sum_eq. intros n _. rewrite at_plus. transitivity (acc m n th th' * at_trial _ items1 (wt1 th') close1 r n (earlier_mean f th') + ((1 - acc m n th th') * f th y) * w1 th' r n).
           ++ destruct (at_earlier1 f th' n) as [-> | E]; [ring|]. pose proof (h_pos th' H'). lra.
           ++ f_equal; [rewrite <- at_scale; apply at_ext; intros l Hl _; rewrite Hl; reflexivity|symmetry; apply (at_length _ _ _ (close1) r n (fun n => (1 - acc m n th th') * f th y))].
        -- apply cv_plus_sum; [apply cv_scale_sum; exact (proj1 (proj2_sig (inner1 th th' m)))|]. apply (cv_limit _ (f th y * 1)); [ring|]. apply cv_scale_sum, (sums_cv _ _ _ (law1 th')). rewrite rate1. apply h_pos, H'.
    + reflexivity.
  - exists (fun old => V2 (length old)). split; [reflexivity|].
    apply (cv_ext (fun N => total (map (fun th' => Q2R (kern th th') / inner th * (sum_f_R0 (fun m => (close_mean f th' - f th y) * (w1 th w m * acc1m th th' m) + f th y * w1 th w m) N)) Ts))).
    + intros N. transitivity (sum_f_R0 (fun m => V2 m * w1 th w m) N); [|apply sum_eq; intros m _; symmetry; apply (at_length _ items1 (wt1 th) close1 w m V2)].
      unfold V2, V3. induction N as [|N IH]; cbn [sum_f_R0].
      * rewrite (Rmult_comm (total _)), <- total_scale. apply total_ext. intros th' _. ring.
      * rewrite <- IH, (Rmult_comm (total _)), <- total_scale, <- total_plus. apply total_ext. intros th' _. ring.
    + apply (total_cv (fun N th' => Q2R (kern th th') / inner th * sum_f_R0 (fun m => (close_mean f th' - f th y) * (w1 th w m * acc1m th th' m) + f th y * w1 th w m) N)). intros th' Hth'. apply CV_mult; [apply cv_const|].
      replace (acc1 th th' * close_mean f th' + (1 - acc1 th th') * f th y) with ((close_mean f th' - f th y) * acc1 th th' + f th y * 1) by ring.
      apply cv_plus_sum; apply cv_scale_sum; [exact (proj1 (proj2_sig (outer1 th th')))|]. apply (sums_cv _ _ _ (law1 th)). rewrite rate1. apply h_pos, H.
Qed.
Theorem C78_first_law : exists a : Theta -> Theta -> R,
  (forall th th', 0 <= a th th' <= 1) /\ (forall th th', In th Ts -> In th' Ts -> 0 < Q2R (kern th th') -> 0 < Q2R (kern th' th) -> 0 < a th th') /\
  (forall th th', In th Ts -> In th' Ts -> Q2R (pi th) * h th * Q2R (kern th th') * a th th' = Q2R (pi th') * h th' * Q2R (kern th' th) * a th' th) /\
  forall q ys idx th y cur f B, In th Ts -> drawn q idx th -> nth_error ys idx = Some y -> (forall th y, Rabs (f th y) <= B) ->
    Tends outs p (fun fuel l => match move1 Theta (list A) Y setp pdfv kupd kpdf simc dist bern choiceL r eps q (Some ys) fuel idx th cur l with Ok (th', y', _, _) => f th' y' | Err _ => 0 end)
      (total (map (fun th' => Q2R (kern th th') / inner th * (a th th' * close_mean f th' + (1 - a th th') * f th y)) Ts)).
Proof. exists acc1. exact law_acc1. Qed.

(** ** Version 2: r hits from perturbations of the old parameters, r - 1 hits from perturbations of one of them *)
Notation items2 := (list_prod Ts datas).
Definition wt2 (th : Theta) (x : Theta * Y) : R := Q2R (kern th (fst x)) / inner th * lik (fst x) (snd x).
Notation close2 := (close Theta Y dist eps).
(** chance that a perturbation inside the prior gives close data *)
Definition reach (th : Theta) : R := total (map (fun x => Q2R (kern th x) / inner th * h x) Ts).
Lemma expect2 th G : expect items2 (wt2 th) G = total (map (fun x => Q2R (kern th x) / inner th * expect datas (lik x) (fun y => G (x, y))) Ts).
Proof. unfold expect at 1. rewrite total_prod. apply total_ext. intros x _. unfold expect. rewrite <- total_scale. apply total_ext. intros y _. unfold wt2. cbn [fst snd]. ring. Qed.
Lemma law2' th : 0 < inner th -> Law items2 (wt2 th).
Proof.
  intros Hi. split.
  - intros [x y] Hx. apply in_prod_iff in Hx. destruct Hx as [Hx Hy]. unfold wt2. cbn [fst snd]. apply Rmult_le_pos; [|apply (proj1 (data_law x)), Hy]. apply Rmult_le_pos; [apply kern_pos, Hx|apply Rlt_le, Rinv_0_lt_compat, Hi].
  - rewrite total_prod. rewrite (total_ext _ (fun x => / inner th * Q2R (kern th x))); [rewrite total_scale; fold (inner th); apply Rinv_l; lra|].
    intros x _. rewrite (total_ext _ (fun y => Q2R (kern th x) / inner th * lik x y)) by reflexivity. rewrite total_scale, (proj2 (data_law x)). unfold Rdiv. ring.
Qed.
Lemma law2 th : In th Ts -> Law items2 (wt2 th).
Proof. intros H. apply law2', inner_pos, H. Qed.
Lemma rate2 th : rate _ items2 (wt2 th) close2 = reach th.
Proof. unfold rate, chance. rewrite expect2. reflexivity. Qed.
Lemma reach_pos th : In th Ts -> 0 < reach th.
Proof.
  intros H. pose proof (inner_pos th H) as Hi. assert (T : forall x, In x Ts -> 0 <= Q2R (kern th x) / inner th * h x).
  { intros x Hx. apply Rmult_le_pos; [apply Rmult_le_pos; [apply kern_pos, Hx|apply Rlt_le, Rinv_0_lt_compat, Hi]|apply Rlt_le, h_pos, Hx]. }
  destruct (Req_dec (reach th) 0) as [E|E].
  - exfalso. assert (Z : inner th = 0); [|lra]. unfold inner. rewrite (total_ext _ (fun x => 0 * Q2R (kern th x))); [rewrite total_scale; ring|]. intros x Hx. rewrite Rmult_0_l.
    assert (Q2R (kern th x) / inner th * h x = 0).
    { unfold reach in E. apply total_zero in E; [|apply Forall_forall; intros v Hv; apply in_map_iff in Hv; destruct Hv as (t & <- & Ht); apply T, Ht]. rewrite Forall_forall in E. apply E. apply (in_map (fun x => Q2R (kern th x) / inner th * h x)), Hx. }
    pose proof (h_pos x Hx). apply Rmult_integral in H0. destruct H0 as [H0|H0]; [|lra]. unfold Rdiv in H0. apply Rmult_integral in H0. destruct H0 as [H0|H0]; [exact H0|]. exfalso. revert H0. apply Rinv_neq_0_compat. lra.
  - assert (0 <= reach th); [|lra]. unfold reach. apply total_nonneg, Forall_forall. intros v Hv. apply in_map_iff in Hv. destruct Hv as (x & <- & Hx). apply T, Hx.
Qed.
Section Pert.
Variable Pop : Type.
Variable up : Pop -> nat -> list A -> list A * Theta.
Variable q : Pop.
Variable idx : nat.
Variable th : Theta.
Hypothesis H : In th Ts.
Hypothesis Hup : Produces outs p (fun _ l => Ok (up q idx l)) pts (fun x => Q2R (kern th x)).
Notation gen_pert := (fun f => pert_sim Theta (list A) Y setp pdfv simc up f q idx).
Definition until2 (v : nat) (c : Theta) := until1 A Theta Theta Y dist eps gen_pert v c.
Lemma pert_gives c : Gives outs p (gen1 A Theta Theta Y gen_pert c) (fun z => fst z = fst (snd z) /\ sup Theta Y items2 (wt2 th) (snd z)) (fun G v => v = expect items2 (wt2 th) (fun x => G (fst x, x))).
Proof.
  intros g G Bd x Hb Ht Hx. pose proof (inner_pos th H) as Hi.
  assert (Bpos : 0 <= Rmax 0 Bd) by apply Rmax_l. assert (Hb' : forall x f l, Rabs (g x f l) <= Rmax 0 Bd) by (intros; eapply Rle_trans; [apply Hb|apply Rmax_r]).
  apply (Tends_ext _ outs p (after (propose1 A Theta Pop setp pdfv up q idx c) (fun z => after (simulate (fst z)) (fun y => g (fst z, (snd z, y)))))).
  - intros f l _. unfold after, propose1, gen1, pert_sim. destruct (propose _ _ _ _ _ _ _ _ _ _) as [[[c1 r1] th1]|]; [|reflexivity]. cbn [fst snd]. unfold sim1, simulate. destruct (simc c1 r1) as [l' [y|]]; reflexivity.
  - pose proof (propose_gives A Theta Pop outs p dlaw setp pdfv up q idx pi pts (fun x => Q2R (kern th x)) (kern_law th) set_all density Hup) as PG. rewrite inner_within in PG. specialize (PG Hi c).
    refine (PG _ (fun z => expect datas (lik (snd z)) (fun y => G (snd z, (snd z, y)))) (Rmax 0 Bd) _ _ _ _).
    + intros z k l. apply after_bound; [exact Bpos|]. intros; apply Hb'.
    + intros [c1 th1] (E & H1 & Hk). cbn [fst snd] in *. subst c1. apply (sim_law th1 H1 _ (fun y => G (th1, (th1, y))) Bd); [intros; apply Hb| |reflexivity].
      intros y (Hy & Hl). apply Ht. cbn [fst snd]. split; [reflexivity|]. split; [apply in_prod_iff; split; assumption|]. unfold wt2. cbn [fst snd].
      apply Rmult_integral_contrapositive_currified; [|exact Hl]. apply Rmult_integral_contrapositive_currified; [exact Hk|apply Rinv_neq_0_compat; lra].
    + cbn [snd]. rewrite Hx, expect2. reflexivity.
Qed.
Lemma until2_gives v c : Gives outs p (until2 (S v) c) (fun z => True /\ ends _ close2 (S v) (snd z) = true /\ Forall (sup Theta Y items2 (wt2 th)) (snd z))
  (fun G x => exists K, (forall c t, True -> G (c, t) = K t) /\ Un_cv (sum_f_R0 (fun n => at_trial _ items2 (wt2 th) close2 (S v) n K)) x).
Proof.
  apply (until_gives A Theta Theta Y outs p dlaw dist eps items2 (wt2 th) (law2 th H) gen_pert fst (fun _ => True)); [intros; exact I| |rewrite rate2; apply reach_pos, H|exact I]. intros c' _. apply pert_gives.
Qed.
End Pert.
Notation w2 th := (waits _ items2 (wt2 th) close2).
Lemma inner2 th th' n : 0 < inner th' -> {l | Un_cv (sum_f_R0 (fun m => w2 th' w m * acc m n th th')) l /\ 0 <= l <= 1}.
Proof.
  intros Hi. apply (dominated _ (w2 th' w)); [|intros N; apply sums_le, law2', Hi]. intros m. pose proof (waits_nonneg _ _ _ (law2' th' Hi) close2 w m). pose proof (acc_range m n th th').
  split; [apply Rmult_le_pos; lra|rewrite <- Rmult_1_r; apply Rmult_le_compat_l; lra].
Qed.
Definition acc2n th th' n : R := match Rlt_dec 0 (inner th') with left Hi => proj1_sig (inner2 th th' n Hi) | right _ => 0 end.
Lemma acc2n_range th th' n : 0 <= acc2n th th' n <= 1.
Proof. unfold acc2n. destruct (Rlt_dec 0 (inner th')) as [Hi|Hi]; [exact (proj2 (proj2_sig (inner2 th th' n Hi)))|lra]. Qed.
Lemma acc2n_cv th th' n : In th' Ts -> Un_cv (sum_f_R0 (fun m => w2 th' w m * acc m n th th')) (acc2n th th' n).
Proof. intros H'. unfold acc2n. destruct (Rlt_dec 0 (inner th')) as [Hi|Hi]; [exact (proj1 (proj2_sig (inner2 th th' n Hi)))|]. exfalso. apply Hi, inner_pos, H'. Qed.
Lemma outer2 th th' : 0 < inner th -> {l | Un_cv (sum_f_R0 (fun n => w2 th r n * acc2n th th' n)) l /\ 0 <= l <= 1}.
Proof.
  intros Hi. apply (dominated _ (w2 th r)); [|intros N; apply sums_le, law2', Hi]. intros n. pose proof (waits_nonneg _ _ _ (law2' th Hi) close2 r n). pose proof (acc2n_range th th' n).
  split; [apply Rmult_le_pos; lra|rewrite <- Rmult_1_r; apply Rmult_le_compat_l; lra].
Qed.
Definition acc2 th th' : R := match Rlt_dec 0 (inner th) with left Hi => proj1_sig (outer2 th th' Hi) | right _ => 0 end.
Lemma acc2_range th th' : 0 <= acc2 th th' <= 1.
Proof. unfold acc2. destruct (Rlt_dec 0 (inner th)) as [Hi|Hi]; [exact (proj2 (proj2_sig (outer2 th th' Hi)))|lra]. Qed.
Lemma acc2_cv th th' : In th Ts -> Un_cv (sum_f_R0 (fun n => w2 th r n * acc2n th th' n)) (acc2 th th').
Proof. intros H. unfold acc2. destruct (Rlt_dec 0 (inner th)) as [Hi|Hi]; [exact (proj1 (proj2_sig (outer2 th th' Hi)))|]. exfalso. apply Hi, inner_pos, H. Qed.
Lemma acc2_balance th th' : In th Ts -> In th' Ts -> Q2R (pi th) * h th * (Q2R (kern th th') * h th' / reach th) * acc2 th th' = Q2R (pi th') * h th' * (Q2R (kern th' th) * h th / reach th') * acc2 th' th.
Proof.
  intros H H'. assert (Hw : 0 < INR w) by (apply lt_0_INR; lia). apply Rmult_eq_reg_l with (INR w); [|lra].
  assert (Gn : forall th th', In th Ts -> In th' Ts ->
    let e := fun n m => h th * h th' * w2 th w n * w2 th' w m * Rmin (Q2R (pi th) * Q2R (kern th th') * INR n) (Q2R (pi th') * Q2R (kern th' th) * INR m) in
    (forall n, Un_cv (sum_f_R0 (e n)) (INR w * (Q2R (pi th) * h th * (Q2R (kern th th') * h th' / reach th)) * (w2 th r (S n) * acc2n th th' (S n)))) /\
    Un_cv (sum_f_R0 (fun n => INR w * (Q2R (pi th) * h th * (Q2R (kern th th') * h th' / reach th)) * (w2 th r (S n) * acc2n th th' (S n)))) (INR w * (Q2R (pi th) * h th * (Q2R (kern th th') * h th' / reach th)) * acc2 th th')).
  { clear H H' th th'. intros th th' H H' e. pose proof (reach_pos th H) as Hr. split; [|apply cv_scale_sum, (cv_shift_sum (fun n => w2 th r n * acc2n th th' n)); [rewrite waits_S0; ring|apply acc2_cv, H]]. intros n.
    apply (cv_ext (sum_f_R0 (fun m => INR w * (Q2R (pi th) * h th * (Q2R (kern th th') * h th' / reach th)) * w2 th r (S n) * (w2 th' w m * acc m (S n) th th')))).
    - intros N. apply sum_eq. intros m _. transitivity (Q2R (pi th) * h th * (Q2R (kern th th') * h th' / reach th) * w2 th' w m * acc m (S n) th th' * (INR w * w2 th r (S n))); [ring|]. rewrite (waits_shift _ _ _ (law2 th H) close2 n w), rate2. unfold e. rewrite <- acc_flow by assumption. field. lra.
    - rewrite <- (Rmult_assoc _ (w2 th r (S n))). apply cv_scale_sum. apply acc2n_cv, H'. }
  destruct (Gn th th' H H') as [G1 G2]. destruct (Gn th' th H' H) as [G3 G4]. cbv zeta in *.
  rewrite <- (Rmult_assoc (INR w) _ (acc2 th th')), <- (Rmult_assoc (INR w) _ (acc2 th' th)).
  refine (tonelli _ _ _ _ _ _ G1 G2 _ G4).
  - intros n m. apply Rmult_le_pos; [repeat apply Rmult_le_pos; try (apply Rlt_le, h_pos; assumption); apply waits_nonneg, law2; assumption|]. pose proof (prior_pos th H). pose proof (prior_pos th' H'). pose proof (kern_pos th th' H'). pose proof (kern_pos th' th H). pose proof (pos_INR m). pose proof (pos_INR n).
    apply Rmin_glb; apply Rmult_le_pos; try apply Rmult_le_pos; lra.
  - intros m. eapply cv_ext; [|apply (G3 m)]. intros N. apply sum_eq. intros n _. cbn beta. rewrite Rmin_comm. ring.
Qed.
Lemma acc2_pos th th' : In th Ts -> In th' Ts -> 0 < Q2R (kern th th') -> 0 < Q2R (kern th' th) -> 0 < acc2 th th'.
Proof.
  intros H H' K K'. assert (P : forall x n, In x Ts -> 0 < w2 x n n) by (intros x n Hx; rewrite (waits_least _ _ _ (law2 x Hx)), rate2; apply pow_lt, reach_pos, Hx).
  assert (T1 : w2 th' w w * acc w r th th' <= acc2n th th' r).
  { apply Rle_trans with (sum_f_R0 (fun m => w2 th' w m * acc m r th th') w); [|apply sum_below; [|apply acc2n_cv, H']].
    - cbn [sum_f_R0]. match goal with |- _ <= ?x + _ => assert (0 <= x); [|lra] end. apply cond_pos_sum. intros n. apply Rmult_le_pos; [apply waits_nonneg, law2, H'|apply acc_range].
    - intros n. apply Rmult_le_pos; [apply waits_nonneg, law2, H'|apply acc_range]. }
  assert (T2 : w2 th r r * acc2n th th' r <= acc2 th th').
  { apply Rle_trans with (sum_f_R0 (fun n => w2 th r n * acc2n th th' n) r); [|apply sum_below; [|apply acc2_cv, H]].
    - cbn [sum_f_R0]. match goal with |- _ <= ?x + _ => assert (0 <= x); [|lra] end. repeat apply Rplus_le_le_0_compat; try (apply Rmult_le_pos; [apply waits_nonneg, law2, H|apply acc2n_range]). apply cond_pos_sum. intros n. apply Rmult_le_pos; [apply waits_nonneg, law2, H|apply acc2n_range].
    - intros n. apply Rmult_le_pos; [apply waits_nonneg, law2, H|apply acc2n_range]. }
  eapply Rlt_le_trans; [|exact T2]. apply Rmult_lt_0_compat; [apply P, H|]. eapply Rlt_le_trans; [|exact T1]. apply Rmult_lt_0_compat; [apply P, H'|]. apply acc_pos; try assumption; lia.
Qed.
Definition tail2 (q : pop Theta) (ys : list Y) (idx : nat) (theta : Theta) (n : nat) (th : Theta) (y : Y) (cur2 : Theta) (back : list (Theta * Y)) (r3 : list A) : res (Theta * Y * nat * Theta) :=
  let counter := (n + length back)%nat in
  let '(rp, rk, cur3) := ratios Theta setp pdfv kpdf q th theta cur2 in
  if (n =? 1)%nat then Err ZeroDivisionError else
  match bern (min1 (nmul (nmul (ndiv (ofnat (length back)) (Fin (inject_Z (Z.of_nat n - 1)))) rp) rk)) r3 with
  | Err e => Err e
  | Ok (_, true) => let c := snd (setp th cur3) in Ok (c, y, counter, c)
  | Ok (_, false) => keep Theta Y setp (Some ys) idx counter theta cur3
  end.
Lemma tail2_tends q ys idx th y n c th' y' back f B : In th Ts -> In th' Ts -> Q2R (kern th th') <> 0 -> (forall x y, kpdf q x y = Fin (kern x y)) -> nth_error ys idx = Some y -> (2 <= n)%nat ->
  (forall th y, Rabs (f th y) <= B) ->
  Tends outs p (fun _ l => gn f (tail2 q ys idx th n th' y' c back l)) (acc (length back) n th th' * f th' y' + (1 - acc (length back) n th th') * f th y).
Proof.
  intros H H' Hk Hq Hy Hn Hf.
  destruct (acc_value (length back) n th th' H H' ltac:(intros X; apply Hk, Q2R_zero, X) Hn) as (v & Ev & Hv & V01). rewrite <- Hv.
  apply (Tends_ext _ outs p (after (fun _ l => bern (Fin v) l) (fun b _ _ => if b then f th' y' else f th y))).
  - intros k l _. unfold tail2, ratios, pdf_of_prior. rewrite !set_all, !density, !Hq. cbn [snd]. cbv zeta. assert ((n =? 1)%nat = false) as -> by (apply Nat.eqb_neq; lia). rewrite Ev.
    unfold after. destruct (bern (Fin v) l) as [[l' [|]]|]; [reflexivity| |reflexivity]. unfold keep. rewrite Hy, set_all. reflexivity.
  - apply (coin v V01 _ (fun b => if b then f th' y' else f th y) B); [intros [|] k l; apply Hf|intros b _; apply Tends_const, dlaw|]. cbn [map]. rewrite !total_cons. change (total []) with 0. ring.
Qed.
Notation up2 := (fun (q : pop Theta * Theta) (_ : nat) => kupdL (fst q) (snd q)).
Lemma move2_chain q ys idx th cur f fu l : gn f (move2 Theta (list A) Y setp pdfv kupd kupdL kpdf simc dist bern choiceL r eps q (Some ys) fu idx th cur l) =
  after (until2 (pop Theta) kupd q idx r cur) (fun z => after (fun _ l => choiceL (removelast (hits_at Y dist eps (snd z))) l) (fun J => match nth_error (snd z) J with
     | None => fun _ _ => 0
     | Some x => after (until2 (pop Theta * Theta) up2 (q, fst x) 0 w (fst z)) (fun z3 _ l => gn f (tail2 q ys idx th (length (snd z)) (fst x) (snd x) (fst z3) (snd z3) l)) end)) fu l.
Proof.
  unfold move2, after at 1, until2 at 1, until1 at 1. cbn [snd Nat.sub]. destruct (until_hits _ _ _ _ _ _ _ _ _ _ _) as [[[c1 r1] primes]|]; [|reflexivity].
  unfold after at 1. cbn [fst snd]. destruct (choiceL _ r1) as [[r2 J]|]; [|reflexivity]. destruct (nth_error primes J) as [[th' y']|]; [|reflexivity].
  unfold after, until2, until1. cbn [fst snd]. destruct (until_hits _ _ _ _ _ _ _ _ _ _ _) as [[[c3 r3] back]|]; reflexivity.
Qed.
(** C78 (version 2): one move chooses a perturbation th' inside the prior together with close data, accepts it with some probability a th th'; a is in detailed balance *)
Lemma law_acc2 (a := acc2) :
  (forall th th', 0 <= a th th' <= 1) /\ (forall th th', In th Ts -> In th' Ts -> 0 < Q2R (kern th th') -> 0 < Q2R (kern th' th) -> 0 < a th th') /\
  (forall th th', In th Ts -> In th' Ts -> Q2R (pi th) * h th * (Q2R (kern th th') * h th' / reach th) * a th th' = Q2R (pi th') * h th' * (Q2R (kern th' th) * h th / reach th') * a th' th) /\
  forall q ys idx th y cur f B, In th Ts -> drawn q idx th -> nth_error ys idx = Some y -> (forall th y, Rabs (f th y) <= B) ->
    Tends outs p (fun fuel l => match move2 Theta (list A) Y setp pdfv kupd kupdL kpdf simc dist bern choiceL r eps q (Some ys) fuel idx th cur l with Ok (th', y', _, _) => f th' y' | Err _ => 0 end)
      (total (map (fun th' => Q2R (kern th th') / inner th * h th' / reach th * (a th th' * close_mean f th' + (1 - a th th') * f th y)) Ts)).
Proof.
  unfold a. split; [apply acc2_range|]. split; [exact acc2_pos|]. split; [exact acc2_balance|]. intros q ys idx th y cur f B H (Hd & Hq & HL) Hy Hf.
  assert (Bpos : 0 <= B) by (apply Rle_trans with (Rabs (f th y)); [apply Rabs_pos|apply Hf]).
  assert (Bg : forall o, Rabs (gn f o) <= B) by (intros [[[[t u] k] c]|]; cbn; [apply Hf|rewrite Rabs_R0; exact Bpos]).
  apply (Tends_ext _ outs p _ _ _ (fun fu l _ => eq_sym (move2_chain q ys idx th cur f fu l))).
  set (V3 := fun n (x : Theta * Y) => (f (fst x) (snd x) - f th y) * acc2n th (fst x) n + f th y).
  set (V2 := fun primes => / INR w * total (map (V3 (length primes)) (earlier _ close2 primes))).
  assert (Bi : forall z J k l, Rabs (match nth_error (snd z) J with
     | None => fun _ _ => 0
     | Some x => after (until2 (pop Theta * Theta) up2 (q, fst x) 0 w (fst z)) (fun z3 _ l => gn f (tail2 q ys idx th (length (snd z)) (fst x) (snd x) (fst z3) (snd z3) l)) end k l) <= B).
  { intros z J k l. destruct (nth_error (snd z) J); [apply after_bound; [exact Bpos|intros; apply Bg]|rewrite Rabs_R0; exact Bpos]. }
  refine (until2_gives (pop Theta) kupd q idx th H Hd (S w0) cur _ (fun z => V2 (snd z)) B _ _ _ _).
  - intros z k l. apply after_bound; [exact Bpos|]. intros J k2 l2. apply Bi.
  - intros [c1 primes] (_ & He & Hsup). cbn [fst snd] in *. set (n := length primes). assert (Hn : (2 <= n)%nat) by (apply ends_length in He; unfold n; lia).
    set (L := removelast (hits_at Y dist eps primes)).
    assert (EL : map (nth_error primes) L = map Some (earlier _ close2 primes)) by (unfold L, earlier; rewrite map_removelast, hits_nth, <- map_removelast; reflexivity).
    assert (HLl : length L = w) by (rewrite <- (map_length (nth_error primes)), EL, map_length, (earlier_length _ _ _ _ He); reflexivity).
    refine (pick L HLl _ (fun J => match nth_error primes J with None => 0 | Some x => V3 n x end) B _ (Bi (c1, primes)) _ _).
    + intros J _. cbn [fst snd]. destruct (nth_error primes J) as [[th' y']|] eqn:EJ; [|apply Tends_const, dlaw]. cbn [fst snd].
      apply nth_error_In in EJ. rewrite Forall_forall in Hsup. destruct (Hsup _ EJ) as [Hin Hwt]. apply in_prod_iff in Hin. destruct Hin as [H' _].
      assert (Hk : Q2R (kern th th') <> 0) by (intros X; apply Hwt; unfold wt2; cbn [fst snd]; rewrite X; unfold Rdiv; ring).
      refine (until2_gives (pop Theta * Theta) up2 (q, th') 0%nat th' H' (HL th' H') w0 c1 _ (fun z3 => acc (length (snd z3)) n th th' * f th' y' + (1 - acc (length (snd z3)) n th th') * f th y) B _ _ _ _).
      * intros; apply Bg.
      * intros [c3 back] _. cbn [fst snd]. apply tail2_tends with (B := B); assumption.
      * exists (fun back => acc (length back) n th th' * f th' y' + (1 - acc (length back) n th th') * f th y). split; [reflexivity|]. unfold V3. cbn [fst snd].
        apply (cv_ext (sum_f_R0 (fun m => (f th' y' - f th y) * (w2 th' w m * acc m n th th') + f th y * w2 th' w m))).
        -- intros N. apply sum_eq. intros m _. rewrite (at_length _ items2 (wt2 th') close2 w m (fun m => acc m n th th' * f th' y' + (1 - acc m n th th') * f th y)). ring.
        -- apply cv_plus_sum; [apply cv_scale_sum, acc2n_cv, H'|]. apply (cv_limit _ (f th y * 1)); [ring|]. apply cv_scale_sum, (sums_cv _ _ _ (law2 th' H')). rewrite rate2. apply reach_pos, H'.
    + unfold V2. fold n. rewrite total_scale. f_equal. f_equal. transitivity (map (fun o : option (Theta * Y) => match o with Some x => V3 n x | None => 0 end) (map (nth_error primes) L)); [rewrite EL, map_map; reflexivity|]. rewrite map_map. apply map_ext. intros J. destruct (nth_error primes J); reflexivity.
  - exists V2. split; [reflexivity|]. pose proof (inner_pos th H) as Hi. pose proof (reach_pos th H) as Hr.
    apply (cv_ext (fun N => total (map (fun th' => Q2R (kern th th') / inner th * h th' / reach th * (sum_f_R0 (fun n => (close_mean f th' - f th y) * (w2 th r n * acc2n th th' n) + f th y * w2 th r n) N)) Ts))).
    + intros N. transitivity (sum_f_R0 (fun n => total (map (fun th' => Q2R (kern th th') / inner th * h th' / reach th * ((close_mean f th' - f th y) * (w2 th r n * acc2n th th' n) + f th y * w2 th r n)) Ts)) N).
      * induction N as [|N IH]; cbn [sum_f_R0]; [reflexivity|]. rewrite <- IH, <- total_plus. apply total_ext. intros th' _. ring.
      * apply sum_eq. intros n _. symmetry. transitivity (/ INR w * at_trial _ items2 (wt2 th) close2 r n (fun l => total (map (V3 n) (earlier _ close2 l)))).
        -- rewrite <- at_scale. apply at_ext. intros l Hl _. unfold V2. rewrite Hl. reflexivity.
        -- rewrite (at_earlier _ _ _ (law2 th H)) by (rewrite rate2; exact Hr). rewrite rate2, expect2. cbn [pred]. match goal with |- _ * (_ * _ * (?T / _)) = _ => transitivity (w2 th r n / reach th * T) end; [field; split; [lra|apply not_0_INR; lia]|]. rewrite <- total_scale. apply total_ext. intros th' Hth'.
           assert (Hh : 0 < h th') by (apply h_pos, Hth'). change (fun y0 : Y => if close2 (th', y0) then V3 n (th', y0) else 0) with (fun y0 : Y => if near y0 then V3 n (th', y0) else 0).
           assert (EE : expect datas (lik th') (fun y0 => if near y0 then V3 n (th', y0) else 0) = h th' * ((close_mean f th' - f th y) * acc2n th th' n + f th y)).
           { unfold V3. cbn [fst snd]. transitivity (expect datas (lik th') (fun y0 => acc2n th th' n * (if near y0 then f th' y0 else 0) + (f th y - f th y * acc2n th th' n) * (if near y0 then 1 else 0))); [apply expect_ext; intros y0 _; destruct (near y0); ring|].
             rewrite expect_plus, !expect_scale. fold (chance datas (lik th') near). fold (h th'). unfold close_mean. field. lra. }
           rewrite EE. field. lra.
    + apply (total_cv (fun N th' => Q2R (kern th th') / inner th * h th' / reach th * sum_f_R0 (fun n => (close_mean f th' - f th y) * (w2 th r n * acc2n th th' n) + f th y * w2 th r n) N)). intros th' Hth'. apply CV_mult; [apply cv_const|].
      replace (acc2 th th' * close_mean f th' + (1 - acc2 th th') * f th y) with ((close_mean f th' - f th y) * acc2 th th' + f th y * 1) by ring.
      apply cv_plus_sum; apply cv_scale_sum; [apply acc2_cv, H|]. apply (sums_cv _ _ _ (law2 th H)). rewrite rate2. exact Hr.
Qed.
Theorem C78_second_law : exists a : Theta -> Theta -> R,
  (forall th th', 0 <= a th th' <= 1) /\ (forall th th', In th Ts -> In th' Ts -> 0 < Q2R (kern th th') -> 0 < Q2R (kern th' th) -> 0 < a th th') /\
  (forall th th', In th Ts -> In th' Ts -> Q2R (pi th) * h th * (Q2R (kern th th') * h th' / reach th) * a th th' = Q2R (pi th') * h th' * (Q2R (kern th' th) * h th / reach th') * a th' th) /\
  forall q ys idx th y cur f B, In th Ts -> drawn q idx th -> nth_error ys idx = Some y -> (forall th y, Rabs (f th y) <= B) ->
    Tends outs p (fun fuel l => match move2 Theta (list A) Y setp pdfv kupd kupdL kpdf simc dist bern choiceL r eps q (Some ys) fuel idx th cur l with Ok (th', y', _, _) => f th' y' | Err _ => 0 end)
      (total (map (fun th' => Q2R (kern th th') / inner th * h th' / reach th * (a th th' * close_mean f th' + (1 - a th th') * f th y)) Ts)).
Proof. exists acc2. exact law_acc2. Qed.

Lemma inner_sum th : In th Ts -> total (map (fun th' => Q2R (kern th th') / inner th) Ts) = 1.
Proof. intros H. pose proof (inner_pos th H). rewrite (total_ext _ (fun x => / inner th * Q2R (kern th x))) by (intros; unfold Rdiv; ring). rewrite total_scale. fold (inner th). apply Rinv_l. lra. Qed.
Lemma reach_sum th : In th Ts -> total (map (fun th' => Q2R (kern th th') / inner th * h th' / reach th) Ts) = 1.
Proof. intros H. pose proof (reach_pos th H). rewrite (total_ext _ (fun x => / reach th * (Q2R (kern th x) / inner th * h x))) by (intros; unfold Rdiv; ring). rewrite total_scale. fold (reach th). apply Rinv_l. lra. Qed.
(** moves with weights u and acceptance a in detailed balance with respect to c *)
Lemma kept (c : Theta -> R) (u a : Theta -> Theta -> R) f : (forall th, In th Ts -> total (map (u th) Ts) = 1) ->
  (forall th th', In th Ts -> In th' Ts -> Q2R (pi th) * c th * h th * u th th' * a th th' = Q2R (pi th') * c th' * h th' * u th' th * a th' th) ->
  posterior c (fun th y => total (map (fun th' => u th th' * (a th th' * close_mean f th' + (1 - a th th') * f th y)) Ts)) = posterior c f.
Proof.
  intros H1 H2. apply Rminus_diag_uniq. rewrite <- (balanced Ts (fun th th' => Q2R (pi th) * c th * h th * u th th' * a th th') (close_mean f) H2).
  unfold posterior. match goal with |- total (map ?s Ts) - total (map ?t Ts) = _ => transitivity (total (map (fun th => s th + -1 * t th) Ts)); [rewrite total_plus, total_scale; ring|] end.
  apply total_ext. intros th H. pose proof (h_pos th H) as Hh.
  assert (EC : expect datas (lik th) (fun y => if near y then f th y else 0) = h th * close_mean f th) by (unfold close_mean; field; lra).
  assert (EM : expect datas (lik th) (fun y => if near y then total (map (fun th' => u th th' * (a th th' * close_mean f th' + (1 - a th th') * f th y)) Ts) else 0) = h th * total (map (fun th' => u th th' * (a th th' * close_mean f th' + (1 - a th th') * close_mean f th)) Ts)).
  { transitivity (expect datas (lik th) (fun y => total (map (fun th' => u th th' * a th th' * close_mean f th') Ts) * (if near y then 1 else 0) + total (map (fun th' => u th th' * (1 - a th th')) Ts) * (if near y then f th y else 0))).
    - apply expect_ext. intros y _. destruct (near y); [|ring]. rewrite Rmult_1_r, (Rmult_comm _ (f th y)), <- total_scale, <- total_plus. apply total_ext. intros th' _. ring.
    - rewrite expect_plus, !expect_scale, EC. fold (chance datas (lik th) near). fold (h th). rewrite (Rmult_comm _ (h th)). transitivity (h th * (total (map (fun th' => u th th' * a th th' * close_mean f th') Ts) + close_mean f th * total (map (fun th' => u th th' * (1 - a th th')) Ts))); [ring|]. f_equal.
      rewrite <- total_scale, <- total_plus. apply total_ext. intros th' _. ring. }
  rewrite EC, EM. transitivity (Q2R (pi th) * c th * h th * (total (map (fun th' => u th th' * (a th th' * close_mean f th' + (1 - a th th') * close_mean f th)) Ts) + -1 * (total (map (u th) Ts) * close_mean f th))); [rewrite (H1 th H); ring|].
  rewrite (Rmult_comm (total (map (u th) Ts))), <- (total_scale (u th)), <- total_scale, <- total_plus, <- total_scale. apply total_ext. intros th' _. ring.
Qed.
Lemma same_inner m moved f : (forall th, In th Ts -> inner th = m) -> posterior inner moved = posterior inner f -> posterior (fun _ => 1) moved = posterior (fun _ => 1) f.
Proof.
  intros Hm X. assert (E : forall g, posterior inner g = m * posterior (fun _ => 1) g) by (intros g; unfold posterior; rewrite <- total_scale; apply total_ext; intros th Hth; rewrite (Hm th Hth); ring).
  assert (C : Ts = [] \/ exists t, In t Ts) by (clear; destruct Ts as [|t l]; [left; reflexivity|right; exists t; left; reflexivity]).
  destruct C as [C|(t & Ht)]; [unfold posterior; rewrite C; reflexivity|]. assert (Hp : 0 < m) by (rewrite <- (Hm t Ht); apply inner_pos, Ht). rewrite !E in X. apply Rmult_eq_reg_l in X; lra.
Qed.
(** C78 (invariance): both r-hit kernels leave invariant the law with density proportional to prior density times probability of close data times the chance that a
    perturbation stays inside the prior; if that chance is the same everywhere, the ABC posterior. *)
Theorem C78_first : forall f B, (forall th y, Rabs (f th y) <= B) -> exists moved : Theta -> Y -> R,
  (forall q ys idx th y cur, In th Ts -> drawn q idx th -> nth_error ys idx = Some y ->
    Tends outs p (fun fuel l => match move1 Theta (list A) Y setp pdfv kupd kpdf simc dist bern choiceL r eps q (Some ys) fuel idx th cur l with Ok (th', y', _, _) => f th' y' | Err _ => 0 end) (moved th y)) /\
  posterior inner moved = posterior inner f /\
  (forall m, (forall th, In th Ts -> inner th = m) -> posterior (fun _ => 1) moved = posterior (fun _ => 1) f).
Proof.
  intros f B Hf. destruct C78_first_law as (a & _ & _ & Hb & Ht). exists (fun th y => total (map (fun th' => Q2R (kern th th') / inner th * (a th th' * close_mean f th' + (1 - a th th') * f th y)) Ts)).
  split; [intros; apply Ht with (B := B); assumption|]. assert (I : posterior inner (fun th y => total (map (fun th' => Q2R (kern th th') / inner th * (a th th' * close_mean f th' + (1 - a th th') * f th y)) Ts)) = posterior inner f).
  { apply (kept inner (fun th th' => Q2R (kern th th') / inner th) a f inner_sum). intros th th' H H'. specialize (Hb th th' H H'). pose proof (inner_pos th H). pose proof (inner_pos th' H').
    transitivity (Q2R (pi th) * h th * Q2R (kern th th') * a th th'); [field; lra|]. rewrite Hb. field. lra. }
  split; [exact I|]. intros m Hm. apply (same_inner m); assumption.
Qed.
Theorem C78_second : forall f B, (forall th y, Rabs (f th y) <= B) -> exists moved : Theta -> Y -> R,
  (forall q ys idx th y cur, In th Ts -> drawn q idx th -> nth_error ys idx = Some y ->
    Tends outs p (fun fuel l => match move2 Theta (list A) Y setp pdfv kupd kupdL kpdf simc dist bern choiceL r eps q (Some ys) fuel idx th cur l with Ok (th', y', _, _) => f th' y' | Err _ => 0 end) (moved th y)) /\
  posterior inner moved = posterior inner f /\
  (forall m, (forall th, In th Ts -> inner th = m) -> posterior (fun _ => 1) moved = posterior (fun _ => 1) f).
Proof.
  intros f B Hf. destruct C78_second_law as (a & _ & _ & Hb & Ht). exists (fun th y => total (map (fun th' => Q2R (kern th th') / inner th * h th' / reach th * (a th th' * close_mean f th' + (1 - a th th') * f th y)) Ts)).
  split; [intros; apply Ht with (B := B); assumption|]. assert (I : posterior inner (fun th y => total (map (fun th' => Q2R (kern th th') / inner th * h th' / reach th * (a th th' * close_mean f th' + (1 - a th th') * f th y)) Ts)) = posterior inner f).
  { apply (kept inner (fun th th' => Q2R (kern th th') / inner th * h th' / reach th) a f reach_sum). intros th th' H H'. specialize (Hb th th' H H'). pose proof (inner_pos th H). pose proof (inner_pos th' H'). pose proof (reach_pos th H). pose proof (reach_pos th' H').
    transitivity (Q2R (pi th) * h th * (Q2R (kern th th') * h th' / reach th) * a th th'); [field; lra|]. rewrite Hb. field. lra. }
  split; [exact I|]. intros m Hm. apply (same_inner m); assumption.
Qed.
End Kernels.
Print Assumptions C78_first_law.
Print Assumptions C78_second_law.
Print Assumptions C78_first.
Print Assumptions C78_second.

(** Cases: a uniform prior on 0, 1, 2; steps of -1, 0, 0, 1 (equally likely), after which the position is mapped by [fold]; the data set is the parameter plus
    such a step and close if at most 1, so that the hit probabilities are 1, 3/4, 1/4; r = 3; the coins are tossed with fair bits. *)
Module Hits.
Notation outs := Moves.outs.
Notation p := Moves.p.
Notation pi := Steps.pi.
Definition bit (a : Z) : bool := (a =? 0)%Z.
Definition c (th : Z) : Z := if (0 <=? th)%Z && (th <=? 2)%Z then th else 0%Z.
Definition dat (th a : Z) : Z := (c th + a)%Z.
Definition simc (th : Z) (l : list Z) : list Z * option Z := match l with [] => ([], None) | a :: l' => (l', Some (dat th a)) end.
Definition dist (y : Z) : num := Fin (inject_Z y).
Definition eps : num := Fin (3 # 2).
Definition bern (v : num) (l : list Z) : res (list Z * bool) := match v with Fin x => flip Z bit x l | _ => Err ValueError end.
Definition choiceL (L : list nat) (l : list Z) : res (list Z * nat) := match l with [] => Err OutOfFuel | a :: l' => Ok (l', if bit a then nth 0 L 0%nat else nth 1 L 0%nat) end.
Definition pts : list Z := [-1; 0; 1; 2; 3]%Z.
Definition lik (th y : Z) : R := chance outs p (fun a => if Z.eq_dec (dat th a) y then true else false).
Definition sample (th : Z) : pop Z := mkpop [th] [Fin 1].
Section Fold.
Variable fold : Z -> Z.
Definition prop (th a : Z) : Z := fold (c th + a)%Z.
Definition kupd (q : pop Z) (i : nat) (l : list Z) : list Z * Z := match l with [] => ([], 99%Z) | a :: l' => (l', prop (nth i (p_rows q) 0%Z) a) end.
Definition kupdL (_ : pop Z) (th : Z) (l : list Z) : list Z * Z := match l with [] => ([], 99%Z) | a :: l' => (l', prop th a) end.
Definition kern (th x : Z) : Q := Steps.kern_at fold (c th) x.
Definition kpdf (_ : pop Z) (x y : Z) : num := Fin (kern x y).
Definition run1 (th y : Z) (k : nat) (l : list Z) := move1 Z (list Z) Z Moves.setp (fun th _ => Fin (pi th)) kupd kpdf simc dist bern choiceL 3 eps (sample th) (Some [y]) k 0 th th l.
Definition run2 (th y : Z) (k : nat) (l : list Z) := move2 Z (list Z) Z Moves.setp (fun th _ => Fin (pi th)) kupd kupdL kpdf simc dist bern choiceL 3 eps (sample th) (Some [y]) k 0 th th l.
End Fold.
Lemma fair : chance outs p bit = 1 / 2.
Proof. unfold chance, expect, Moves.outs, Moves.p, bit, total. cbn. lra. Qed.
Lemma grouped (xs : list Z) (g : Z -> Z) : NoDup xs -> (forall a, In a outs -> In (g a) xs) -> Law xs (fun x => chance outs p (fun a => if Z.eq_dec (g a) x then true else false)).
Proof.
  intros Hn Hi. split; [intros x _; apply chance_range, Moves.law|]. pose proof (group outs p Z.eq_dec xs g (fun _ => 1) Hn (fun a Ha => or_introl (Hi a Ha))) as G.
  cbn beta in G. rewrite expect_const in G by apply Moves.law. rewrite (total_ext _ (fun x => chance outs p (fun a => if Z.eq_dec (g a) x then true else false) * 1)) by (intros; ring). symmetry. exact G.
Qed.
Lemma c_range th : (c th = 0 \/ c th = 1 \/ c th = 2)%Z.
Proof. unfold c. destruct ((0 <=? th)%Z && (th <=? 2)%Z) eqn:E; [|auto]. apply andb_true_iff in E. destruct E as [E1 E2]. apply Z.leb_le in E1, E2. lia. Qed.
Lemma outs_in a : In a outs -> (a = -1 \/ a = 0 \/ a = 1)%Z.
Proof. unfold Moves.outs. cbn. intuition lia. Qed.
Lemma pts_nodup : NoDup pts.
Proof. unfold pts. repeat constructor; cbn; intuition discriminate. Qed.
Lemma pts_in z : (-1 <= z <= 3)%Z -> In z pts.
Proof. intros H. unfold pts. cbn. lia. Qed.
Lemma dat_in th a : In a outs -> In (dat th a) pts.
Proof. intros H. apply outs_in in H. pose proof (c_range th). apply pts_in. unfold dat. lia. Qed.
Lemma Ts_eq : filter (inside Z pi) pts = [0; 1; 2]%Z.
Proof. reflexivity. Qed.
Lemma produces_ext {X} (P : nat -> list Z -> res (list Z * X)) xs (u v : X -> R) : (forall x, In x xs -> u x = v x) -> Produces outs p P xs u -> Produces outs p P xs v.
Proof.
  intros H. apply Gives_weak.
  - intros x [Hx Hv]. split; [exact Hx|]. rewrite <- (H x Hx). exact Hv.
  - intros G w ->. apply total_ext. intros x Hx. rewrite (H x Hx). reflexivity.
Qed.
Lemma kern_chance fold th x : Q2R (kern fold th x) = chance outs p (fun a => if Z.eq_dec (prop fold th a) x then true else false).
Proof. symmetry. exact (Moves.prop_law fold (c th) x). Qed.
Lemma lik_law th : Law pts (lik th).
Proof. exact (grouped pts (dat th) pts_nodup (dat_in th)). Qed.
Lemma sims th : Produces outs p (simulate Z Z Z simc th) pts (lik th).
Proof. exact (draw_produces Z outs p Moves.law Z.eq_dec (simulate Z Z Z simc th) (dat th) pts (fun f a l => eq_refl) pts_nodup (dat_in th)). Qed.
Lemma coins v : (0 <= v <= 1)%Q -> Produces outs p (fun _ l => bern (Fin v) l) [true; false] (fun b => if b then Q2R v else 1 - Q2R v).
Proof. exact (flip_gives Z outs p Moves.law bit fair v). Qed.
Lemma picks L : length L = 2%nat -> Produces outs p (fun _ l => choiceL L l) L (fun _ => / INR 2).
Proof. destruct L as [|i [|j [|? ?]]]; try discriminate. intros _. exact (pair_produces Z outs p Moves.law bit fair (fun _ l => choiceL [i; j] l) i j (fun f a l => eq_refl)). Qed.
Lemma h_eq th : h Z Z dist eps pts lik th = chance outs p (fun a => near Z dist eps (dat th a)).
Proof. symmetry. exact (group outs p Z.eq_dec pts (dat th) (fun y => if near Z dist eps y then 1 else 0) pts_nodup (fun a Ha => or_introl (dat_in th a Ha))). Qed.
Lemma h_values : h Z Z dist eps pts lik 0%Z = 1 /\ h Z Z dist eps pts lik 1%Z = 3 / 4 /\ h Z Z dist eps pts lik 2%Z = 1 / 4.
Proof.
  rewrite !h_eq. unfold chance, expect, Moves.outs, Moves.p. cbn [map]. rewrite !total_cons. change (total []) with 0.
  repeat match goal with |- context [near Z dist eps ?y] => let v := eval vm_compute in (near Z dist eps y) in change (near Z dist eps y) with v end. split; [lra|]. split; lra.
Qed.
Lemma h_positive th : In th [0; 1; 2]%Z -> 0 < h Z Z dist eps pts lik th.
Proof. destruct h_values as (H0 & H1 & H2). intros [<-|[<-|[<-|[]]]]; lra. Qed.
Notation inner_ fold := (inner Z pi (kern fold) pts).
Lemma inner_eq fold th : inner_ fold th = Q2R (kern fold th 0%Z + kern fold th 1%Z + kern fold th 2%Z)%Q.
Proof. unfold inner. rewrite Ts_eq, (Steps.three _ tt), !Q2R_plus. reflexivity. Qed.
Lemma inner_id : inner_ (fun x => x) 0%Z = 3 / 4 /\ inner_ (fun x => x) 1%Z = 1 /\ inner_ (fun x => x) 2%Z = 3 / 4.
Proof. rewrite !inner_eq. split; [apply (Steps.Q2R_eq 3 4); reflexivity|]. split; [rewrite (Steps.Q2R_eq 1 1) by reflexivity; lra|apply (Steps.Q2R_eq 3 4); reflexivity]. Qed.
Lemma inner_clamp th : In th [0; 1; 2]%Z -> inner_ Steps.clamp th = 1.
Proof. intros H. rewrite inner_eq. rewrite (Steps.Q2R_eq 1 1); [lra|]. destruct H as [<-|[<-|[<-|[]]]]; reflexivity. Qed.
Section Any.
Variable fold : Z -> Z.
Hypothesis fold_in : forall z, (-1 <= z <= 3)%Z -> In (fold z) pts.
Hypothesis inner_pos : forall th, In th [0; 1; 2]%Z -> 0 < inner_ fold th.
Lemma prop_in th a : In a outs -> In (prop fold th a) pts.
Proof. intros H. apply outs_in in H. pose proof (c_range th). apply fold_in. lia. Qed.
Lemma kern_law th : Law pts (fun x => Q2R (kern fold th x)).
Proof.
  destruct (grouped pts (prop fold th) pts_nodup (prop_in th)) as [H1 H2]. split; [intros x Hx; rewrite kern_chance; apply H1, Hx|]. rewrite (total_ext _ _ _ (fun x _ => kern_chance fold th x)). exact H2.
Qed.
Lemma moved_law (P : nat -> list Z -> res (list Z * Z)) th : (forall f a l, P f (a :: l) = Ok (l, prop fold th a)) -> Produces outs p P pts (fun x => Q2R (kern fold th x)).
Proof. intros H. apply (produces_ext _ _ _ _ (fun x _ => eq_sym (kern_chance fold th x))). exact (draw_produces Z outs p Moves.law Z.eq_dec P (prop fold th) pts H pts_nodup (prop_in th)). Qed.
Lemma sampled th : drawn Z Z outs p (kupd fold) (kupdL fold) (kpdf fold) pi (kern fold) pts (sample th) 0 th.
Proof. split; [apply moved_law; reflexivity|]. split; [reflexivity|]. intros th' _. apply moved_law. reflexivity. Qed.
Notation post := (posterior Z Z dist eps pi pts pts lik).
Lemma pi_nonneg th : (0 <= pi th)%Q.
Proof. unfold Steps.pi. destruct (_ && _); discriminate. Qed.
Definition law1 := C78_first_law Z Z Z outs p Moves.law Moves.setp (fun th _ => Fin (pi th)) (kupd fold) (kupdL fold) (kpdf fold) simc dist bern choiceL eps 1 pi (kern fold) pts pts lik
  (fun _ _ => eq_refl) (fun _ _ => eq_refl) pi_nonneg kern_law lik_law (fun th _ => sims th) coins picks h_positive inner_pos.
Definition law2 := C78_second_law Z Z Z outs p Moves.law Moves.setp (fun th _ => Fin (pi th)) (kupd fold) (kupdL fold) (kpdf fold) simc dist bern choiceL eps 1 pi (kern fold) pts pts lik
  (fun _ _ => eq_refl) (fun _ _ => eq_refl) pi_nonneg kern_law lik_law (fun th _ => sims th) coins picks h_positive inner_pos.
Definition kept1 := C78_first Z Z Z outs p Moves.law Moves.setp (fun th _ => Fin (pi th)) (kupd fold) (kupdL fold) (kpdf fold) simc dist bern choiceL eps 1 pi (kern fold) pts pts lik
  (fun _ _ => eq_refl) (fun _ _ => eq_refl) pi_nonneg kern_law lik_law (fun th _ => sims th) coins picks h_positive inner_pos.
Definition kept2 := C78_second Z Z Z outs p Moves.law Moves.setp (fun th _ => Fin (pi th)) (kupd fold) (kupdL fold) (kpdf fold) simc dist bern choiceL eps 1 pi (kern fold) pts pts lik
  (fun _ _ => eq_refl) (fun _ _ => eq_refl) pi_nonneg kern_law lik_law (fun th _ => sims th) coins picks h_positive inner_pos.
End Any.
Lemma clamp_in z : (-1 <= z <= 3)%Z -> In (Steps.clamp z) pts.
Proof. intros H. assert (z = -1 \/ z = 0 \/ z = 1 \/ z = 2 \/ z = 3)%Z as [-> |[-> |[-> |[-> | ->]]]] by lia; cbn; auto. Qed.
Lemma clamp_pos th : In th [0; 1; 2]%Z -> 0 < inner_ Steps.clamp th.
Proof. intros H. rewrite (inner_clamp th H). lra. Qed.
Lemma id_pos th : In th [0; 1; 2]%Z -> 0 < inner_ (fun x => x) th.
Proof. destruct inner_id as (H0 & H1 & H2). intros [<-|[<-|[<-|[]]]]; lra. Qed.
Notation post := (posterior Z Z dist eps pi pts pts lik (fun _ => 1)).
(** on a circle both kernels leave the posterior invariant *)
Lemma circle : forall f B, (forall th y, Rabs (f th y) <= B) ->
  (exists moved, (forall th y, In th [0; 1; 2]%Z -> Tends outs p (fun k l => match run1 Steps.clamp th y k l with Ok (th', y', _, _) => f th' y' | Err _ => 0 end) (moved th y)) /\ post moved = post f) /\
  (exists moved, (forall th y, In th [0; 1; 2]%Z -> Tends outs p (fun k l => match run2 Steps.clamp th y k l with Ok (th', y', _, _) => f th' y' | Err _ => 0 end) (moved th y)) /\ post moved = post f).
Proof.
  intros f B Hf. split.
  - destruct (kept1 Steps.clamp clamp_in clamp_pos f B Hf) as (moved & Ht & _ & He). exists moved. split; [|apply (He 1 inner_clamp)]. intros th y H. apply Ht; [exact H|apply sampled; exact clamp_in|reflexivity].
  - destruct (kept2 Steps.clamp clamp_in clamp_pos f B Hf) as (moved & Ht & _ & He). exists moved. split; [|apply (He 1 inner_clamp)]. intros th y H. apply Ht; [exact H|apply sampled; exact clamp_in|reflexivity].
Qed.
(** without the mapping the parameter 1 gains probability *)
Notation hit := (h Z Z dist eps pts lik).
Definition one (th _ : Z) : R := if (th =? 1)%Z then 1 else 0.
Lemma post_const g : post (fun th _ => g th) = 1 / 3 * (hit 0%Z * g 0%Z + hit 1%Z * g 1%Z + hit 2%Z * g 2%Z).
Proof.
  unfold posterior. rewrite Ts_eq, (Steps.three _ tt). rewrite (Steps.Q2R_eq 1 3 (pi 0)), (Steps.Q2R_eq 1 3 (pi 1)), (Steps.Q2R_eq 1 3 (pi 2)) by reflexivity.
  assert (E : forall th, expect pts (lik th) (fun y => if near Z dist eps y then g th else 0) = g th * hit th) by (intros th; unfold h, chance; rewrite <- expect_scale; apply expect_ext; intros y _; destruct (near Z dist eps y); ring).
  rewrite !E. lra.
Qed.
Lemma one_mean th : In th [0; 1; 2]%Z -> close_mean Z Z dist eps pts lik one th = one th 0%Z.
Proof.
  intros H. pose proof (h_positive th H) as Hp. unfold close_mean, one. assert (E : forall v, expect pts (lik th) (fun y => if near Z dist eps y then v else 0) = v * hit th) by (intros v; unfold h, chance; rewrite <- expect_scale; apply expect_ext; intros y _; destruct (near Z dist eps y); ring).
  rewrite E. field. lra.
Qed.
Lemma pushed (u a : Z -> Z -> R) : total (map (u 1%Z) [0; 1; 2]%Z) = 1 -> hit 1%Z * u 1%Z 0%Z * a 1%Z 0%Z < hit 0%Z * u 0%Z 1%Z * a 0%Z 1%Z -> hit 1%Z * u 1%Z 2%Z * a 1%Z 2%Z < hit 2%Z * u 2%Z 1%Z * a 2%Z 1%Z ->
  post one < post (fun th y => total (map (fun th' => u th th' * (a th th' * close_mean Z Z dist eps pts lik one th' + (1 - a th th') * one th y)) (filter (inside Z pi) pts))).
Proof.
  intros Hu H0 H2. change (post (fun th _ => one th 0%Z) < post (fun th _ => total (map (fun th' => u th th' * (a th th' * close_mean Z Z dist eps pts lik one th' + (1 - a th th') * one th 0%Z)) (filter (inside Z pi) pts)))). rewrite (post_const (fun th => one th 0%Z)), post_const.
  rewrite Ts_eq, !(Steps.three _ tt), !one_mean by (cbn; auto). rewrite (Steps.three _ tt) in Hu. unfold one. cbn [Z.eqb Pos.eqb].
  assert (E : u 1%Z 1%Z = 1 - u 1%Z 0%Z - u 1%Z 2%Z) by lra. rewrite E. nra.
Qed.
Lemma id_in z : (-1 <= z <= 3)%Z -> In z pts.
Proof. exact (pts_in z). Qed.
Notation id_ := (fun x : Z => x).
Lemma kern_id : Q2R (kern id_ 0 1) = 1 / 4 /\ Q2R (kern id_ 1 0) = 1 / 4 /\ Q2R (kern id_ 1 2) = 1 / 4 /\ Q2R (kern id_ 2 1) = 1 / 4.
Proof. split; [apply (Steps.Q2R_eq 1 4); reflexivity|]. split; [apply (Steps.Q2R_eq 1 4); reflexivity|]. split; apply (Steps.Q2R_eq 1 4); reflexivity. Qed.
Lemma pi_third : Q2R (pi 0) = 1 / 3 /\ Q2R (pi 1) = 1 / 3 /\ Q2R (pi 2) = 1 / 3.
Proof. split; [apply (Steps.Q2R_eq 1 3); reflexivity|]. split; apply (Steps.Q2R_eq 1 3); reflexivity. Qed.
Lemma one_bound : forall th y, Rabs (one th y) <= 1.
Proof. intros th y. unfold one. destruct (th =? 1)%Z; [rewrite Rabs_R1|rewrite Rabs_R0]; lra. Qed.
Lemma three_in : In 0%Z [0; 1; 2]%Z /\ In 1%Z [0; 1; 2]%Z /\ In 2%Z [0; 1; 2]%Z.
Proof. split; [left; reflexivity|]. split; [right; left; reflexivity|right; right; left; reflexivity]. Qed.
Lemma line :
  (exists moved, (forall th y, In th [0; 1; 2]%Z -> Tends outs p (fun k l => match run1 id_ th y k l with Ok (th', y', _, _) => one th' y' | Err _ => 0 end) (moved th y)) /\ post one < post moved) /\
  (exists moved, (forall th y, In th [0; 1; 2]%Z -> Tends outs p (fun k l => match run2 id_ th y k l with Ok (th', y', _, _) => one th' y' | Err _ => 0 end) (moved th y)) /\ post one < post moved).
Proof.
  destruct three_in as (I0 & I1 & I2). destruct kern_id as (K01 & K10 & K12 & K21). destruct pi_third as (P0 & P1 & P2). destruct inner_id as (N0 & N1 & N2). destruct h_values as (V0 & V1 & V2). split.
  - destruct (law1 id_ id_in id_pos) as (a & _ & Ha & Hb & Ht). eexists. split; [intros th y H; refine (Ht (sample th) [y] 0%nat th y th one 1 H _ eq_refl one_bound); apply sampled; exact id_in|].
    pose proof (Ha 1%Z 0%Z I1 I0 ltac:(lra) ltac:(lra)) as A10. pose proof (Ha 1%Z 2%Z I1 I2 ltac:(lra) ltac:(lra)) as A12. pose proof (Hb 0%Z 1%Z I0 I1) as B0. pose proof (Hb 2%Z 1%Z I2 I1) as B2.
    rewrite P0, P1, V0, V1, K01, K10 in B0. rewrite P2, P1, V2, V1, K21, K12 in B2. apply (pushed (fun th th' => Q2R (kern id_ th th') / inner_ id_ th) a).
    + exact (inner_sum Z pi (kern id_) pts id_pos 1%Z I1).
    + rewrite K10, K01, N0, N1, V0, V1. lra.
    + rewrite K12, K21, N2, N1, V2, V1. lra.
  - destruct (law2 id_ id_in id_pos) as (a & _ & Ha & Hb & Ht). eexists. split; [intros th y H; refine (Ht (sample th) [y] 0%nat th y th one 1 H _ eq_refl one_bound); apply sampled; exact id_in|].
    pose proof (Ha 1%Z 0%Z I1 I0 ltac:(lra) ltac:(lra)) as A10. pose proof (Ha 1%Z 2%Z I1 I2 ltac:(lra) ltac:(lra)) as A12. pose proof (Hb 0%Z 1%Z I0 I1) as B0. pose proof (Hb 2%Z 1%Z I2 I1) as B2.
    rewrite P0, P1, V0, V1, K01, K10 in B0. rewrite P2, P1, V2, V1, K21, K12 in B2.
    set (rc := reach Z Z dist eps pi (kern id_) pts pts lik) in *.
    assert (R1 : 0 < / rc 1%Z) by (apply Rinv_0_lt_compat; exact (reach_pos Z Z dist eps pi (kern id_) pts pts lik (kern_law id_ id_in) h_positive id_pos 1%Z I1)).
    assert (M10 : 0 < / rc 1%Z * a 1%Z 0%Z) by (apply Rmult_lt_0_compat; assumption). assert (M12 : 0 < / rc 1%Z * a 1%Z 2%Z) by (apply Rmult_lt_0_compat; assumption).
    apply (pushed (fun th th' => Q2R (kern id_ th th') / inner_ id_ th * hit th' / rc th) a).
    + exact (reach_sum Z Z dist eps pi (kern id_) pts pts lik (kern_law id_ id_in) h_positive id_pos 1%Z I1).
    + rewrite K10, K01, N0, N1, V0, V1. unfold Rdiv in *. lra.
    + rewrite K12, K21, N2, N1, V2, V1. unfold Rdiv in *. lra.
Qed.
End Hits.
(** C78 (refuted): at the bounds of a uniform prior one move with either kernel, started from the posterior, does not return the posterior: the middle one of three
    parameters gains probability. *)
Theorem C78_truncated_refuted :
  (exists moved, (forall th y, In th [0; 1; 2]%Z -> Tends Moves.outs Moves.p (fun k l => match Hits.run1 (fun x => x) th y k l with Ok (th', y', _, _) => Hits.one th' y' | Err _ => 0 end) (moved th y)) /\
    posterior Z Z Hits.dist Hits.eps Steps.pi Hits.pts Hits.pts Hits.lik (fun _ => 1) Hits.one < posterior Z Z Hits.dist Hits.eps Steps.pi Hits.pts Hits.pts Hits.lik (fun _ => 1) moved) /\
  (exists moved, (forall th y, In th [0; 1; 2]%Z -> Tends Moves.outs Moves.p (fun k l => match Hits.run2 (fun x => x) th y k l with Ok (th', y', _, _) => Hits.one th' y' | Err _ => 0 end) (moved th y)) /\
    posterior Z Z Hits.dist Hits.eps Steps.pi Hits.pts Hits.pts Hits.lik (fun _ => 1) Hits.one < posterior Z Z Hits.dist Hits.eps Steps.pi Hits.pts Hits.pts Hits.lik (fun _ => 1) moved).
Proof. exact Hits.line. Qed.
Print Assumptions C78_truncated_refuted.
(** the same parameters on a circle: every hypothesis of the theorems is met and the posterior is invariant *)
Example C78_circle := Hits.circle.
(** one run of each: from parameter 0 with data 7 to parameter 1 with new data *)
Example C78_run1 : Hits.run1 (fun x => x) 0%Z 7%Z 40 [0; 1; 1; 1; 0; 0; 0; 1; 0; 0; 0; 0; 1; 0; -1; 0; 0; 1; 0]%Z = Ok (1%Z, 1%Z, 6%nat, 1%Z).
Proof. vm_compute. reflexivity. Qed.
Example C78_run2 : Hits.run2 (fun x => x) 0%Z 7%Z 40 [1; -1; 1; 0; 0; 0; 0; 0; 0; -1; 0; 0; 0; 0; 1; 0; -1; 0; 0; 1; 0]%Z = Ok (1%Z, 0%Z, 5%nat, 1%Z).
Proof. vm_compute. reflexivity. Qed.
