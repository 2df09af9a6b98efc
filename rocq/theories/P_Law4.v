(** C77: what a Markov move of SMCABC leaves invariant. *)
From Coq Require Import Reals Lra Lia Qreals.
From Verif Require Import M_Base M_Num L_Num M_Infer L_Infer M_PMCABC M_RSMCABC M_SMCABC M_XReal M_Stats L_PMC S_Stats L_Stats L_Distance L_PosDef L_Histogram S_Law P_Law L_Law P_Law3.
Open Scope R_scope.

(** a symmetric flow between states balances *)
Lemma balanced {S} (l : list S) (D : S -> S -> R) (f : S -> R) : (forall s s', In s l -> In s' l -> D s s' = D s' s) ->
  total (map (fun s => total (map (fun s' => D s s' * (f s' - f s)) l)) l) = 0.
Proof.
  intros H. set (V := total (map (fun s => total (map (fun s' => D s s' * f s') l)) l)).
  assert (E : V = total (map (fun s => total (map (fun s' => D s s' * f s) l)) l)).
  { unfold V. rewrite total_swap. apply total_ext. intros s Hs. apply total_ext. intros s' Hs'. rewrite (H s' s Hs' Hs). reflexivity. }
  rewrite (total_ext _ (fun s => total (map (fun s' => D s s' * f s') l) + -1 * total (map (fun s' => D s s' * f s) l))).
  - rewrite total_plus, total_scale. fold V. rewrite <- E. ring.
  - intros s _. rewrite <- total_scale, <- total_plus. apply total_ext. intros s' _. ring.
Qed.
Lemma total_prod {X B} (g : X * B -> R) xs bs : total (map g (list_prod xs bs)) = total (map (fun x => total (map (fun b => g (x, b)) bs)) xs).
Proof. induction xs as [|x l IH]; [reflexivity|]. cbn [list_prod map]. rewrite map_app, total_app, total_cons, IH, map_map. reflexivity. Qed.
Lemma Q2R_zero q : Q2R q = 0 <-> (q == 0)%Q.
Proof. split; intros H; [apply eqR_Qeq; rewrite H; unfold Q2R; cbn; lra|rewrite (Qeq_eqR _ _ H); unfold Q2R; cbn; lra]. Qed.
Lemma Q2R_nat k : Q2R (inject_Z (Z.of_nat k)) = INR k.
Proof. unfold Q2R, inject_Z. cbn [Qnum Qden]. rewrite INR_IZR_INZ. lra. Qed.
Lemma Rmin_scale g a b : 0 <= g -> g * Rmin a b = Rmin (g * a) (g * b).
Proof.
  intros H. unfold Rmin. destruct (Rle_dec a b) as [L|L], (Rle_dec (g * a) (g * b)) as [L'|L']; try reflexivity.
  - exfalso. apply L', Rmult_le_compat_l; assumption.
  - apply Rle_antisym; [apply Rmult_le_compat_l; lra|exact L'].
Qed.

Section Move.
Variables A Theta Y : Type.
Variable teq : forall x y : Theta, {x = y} + {x <> y}.
Variable outs : list A.
Variable p : A -> R.
Hypothesis law : Law outs p.
Hypothesis p_pos : forall a, In a outs -> 0 < p a.
Variable setp : Theta -> Theta -> bool * Theta.
Variable pdfv : Theta -> Theta -> num.
Variable kupd : pop Theta -> nat -> list A -> list A * Theta.
Variable kpdf : pop Theta -> Theta -> Theta -> num.
Variable simc : Theta -> list A -> list A * option Y.
Variable dist1 : Y -> list num.
Variable bern : num -> list A -> res (list A * bool).
Variable eps : num.
(** prior and kernel densities; what a draw gives: a perturbation of th, data for th, the outcome of a coin of the given probability *)
Variable pi : Theta -> Q.
Variable kern : Theta -> Theta -> Q.
Variable prop : Theta -> A -> Theta.
Variable dat : Theta -> A -> Y.
Variable heads : num -> A -> bool.
Variable Ts : list Theta.
Hypothesis set_all : forall th cur, setp th cur = (true, th).
Hypothesis density : forall th cur, pdfv th cur = Fin (pi th).
Hypothesis density_nonneg : forall th, (0 <= pi th)%Q.
Hypothesis sim_draw : forall th a l, simc th (a :: l) = (l, Some (dat th a)).
Hypothesis bern_draw : forall v a l, bern v (a :: l) = Ok (l, heads v a).
Hypothesis prop_law : forall th th', In th Ts -> chance outs p (fun a => if teq (prop th a) th' then true else false) = Q2R (kern th th').
Hypothesis Ts_distinct : NoDup Ts.
Hypothesis Ts_density : forall th, In th Ts <-> ~ (pi th == 0)%Q.
(** [q] is a population whose sample number idx is th: perturbations of it are drawn and evaluated with the kernel *)
Definition holds (q : pop Theta) (idx : nat) (th : Theta) : Prop :=
  (forall a l, kupd q idx (a :: l) = (l, prop th a)) /\ (exists off, kupd q idx [] = ([], off) /\ pi off = 0%Q) /\ (forall x y, kpdf q x y = Fin (kern x y)).
Definition hits (y : Y) : nat := length (filter (fun d => nlt d eps) (dist1 y)).
(** probability of acceptance of a proposal: as the code computes it, and its value *)
Definition acceptance (th : Theta) (y : Y) (th' : Theta) (y' : Y) : num :=
  min1 (nmul (nmul (if (hits y =? 0)%nat then Fin 1 else ndiv (ofnat (hits y')) (ofnat (hits y))) (ndiv (Fin (pi th')) (Fin (pi th)))) (ndiv (Fin (kern th' th)) (Fin (kern th th')))).
Definition accept (th : Theta) (y : Y) (th' : Theta) (y' : Y) : R :=
  Rmin 1 ((if (hits y =? 0)%nat then 1 else INR (hits y') / INR (hits y)) * (Q2R (pi th') / Q2R (pi th)) * (Q2R (kern th' th) / Q2R (kern th th'))).
Hypothesis coin : forall th b th' b' v, In th Ts -> In th' Ts -> In b outs -> In b' outs -> acceptance th (dat th b) th' (dat th' b') = Fin v -> chance outs p (heads (Fin v)) = Q2R v.
(** chance that a perturbation of th is inside the prior *)
Definition stays (th : Theta) : R := total (map (fun th' => Q2R (kern th th')) Ts).
Hypothesis stays_pos : forall th, In th Ts -> 0 < stays th.
(** expectation of f after one move from th with data y *)
Definition moved (f : Theta -> Y -> R) (th : Theta) (y : Y) : R :=
  total (map (fun th' => Q2R (kern th th') / stays th * expect outs p (fun b => accept th y th' (dat th' b) * f th' (dat th' b) + (1 - accept th y th' (dat th' b)) * f th y)) Ts).
(** sum over parameters and simulations: prior density, factor c, number of hits *)
Definition average (c : Theta -> R) (f : Theta -> Y -> R) : R :=
  total (map (fun th => Q2R (pi th) * c th * expect outs p (fun b => INR (hits (dat th b)) * f th (dat th b))) Ts).

Lemma kern_nonneg th th' : In th Ts -> 0 <= Q2R (kern th th').
Proof. intros H. rewrite <- (prop_law th th' H). apply chance_range, law. Qed.
Lemma pi_pos th : In th Ts -> 0 < Q2R (pi th).
Proof. intros H. apply Ts_density in H. apply Q2R_pos. specialize (density_nonneg th). apply Qle_lteq in density_nonneg. destruct density_nonneg as [X|X]; [exact X|]. exfalso. apply H. symmetry. exact X. Qed.
Lemma acceptance_value th y th' y' : In th Ts -> ~ (kern th th' == 0)%Q -> exists v, acceptance th y th' y' = Fin v /\ Q2R v = accept th y th' y'.
Proof.
  intros Hth Hk. apply Ts_density in Hth. unfold acceptance. rewrite !ndiv_fin by assumption.
  assert (E : exists u, (if (hits y =? 0)%nat then Fin 1 else ndiv (ofnat (hits y')) (ofnat (hits y))) = Fin u /\ Q2R u = (if (hits y =? 0)%nat then 1 else INR (hits y') / INR (hits y))).
  { destruct (Nat.eqb_spec (hits y) 0) as [E|E]; [exists 1%Q; split; [reflexivity|unfold Q2R; cbn; lra]|]. assert (N : ~ (inject_Z (Z.of_nat (hits y)) == 0)%Q) by (intros X; unfold Qeq, inject_Z in X; cbn [Qnum Qden] in X; lia).
    unfold ofnat. rewrite ndiv_fin by exact N. eexists. split; [reflexivity|]. rewrite Q2R_div by exact N. rewrite !Q2R_nat. reflexivity. }
  destruct E as (u & -> & Hu). cbn [nmul]. unfold min1. cbn [nlt]. unfold accept. rewrite <- Hu, <- !Q2R_div, <- !Q2R_mult by assumption.
  set (z := (u * (pi th' / pi th) * (kern th' th / kern th th'))%Q). assert (O1 : Q2R 1 = 1) by (unfold Q2R; cbn; lra). destruct (Qle_bool 1 z) eqn:Ez; cbn [negb].
  - exists 1%Q. split; [reflexivity|]. apply Qle_bool_iff, Qle_Rle in Ez. rewrite O1 in *. rewrite Rmin_left by exact Ez. reflexivity.
  - exists z. split; [reflexivity|]. rewrite Rmin_right; [reflexivity|]. apply Rlt_le. rewrite <- O1. apply Qlt_Rlt. apply Qnot_le_lt. intros X. apply Qle_bool_iff in X. congruence.
Qed.
Notation move := (move0 Theta (list A) Y setp pdfv kupd kpdf simc dist1 bern eps).
Notation propose := (propose Theta (list A) (pop Theta) setp kupd pdfv).
Definition gain (f : Theta -> Y -> R) (r : res (Theta * Y * nat * Theta)) : R := match r with Ok (th, y, _, _) => f th y | Err _ => 0 end.

(** after a proposal th' *)
Definition rest (q : pop Theta) (ys : list Y) (idx : nat) (theta th' : Theta) (r1 : list A) : res (Theta * Y * nat * Theta) :=
  match sim1 Theta (list A) Y simc tt th' r1 with
  | Err e => Err e
  | Ok (_, r2, (_, y)) =>
      match nth_error ys idx with None => Err IndexError | Some y_old =>
        let numerator := length (filter (fun d => nlt d eps) (dist1 y)) in
        let denominator := length (filter (fun d => nlt d eps) (dist1 y_old)) in
        let ratio_data := if (denominator =? 0)%nat then Fin 1 else ndiv (ofnat numerator) (ofnat denominator) in
        let '(rp, rk, cur2) := ratios Theta setp pdfv kpdf q th' theta th' in
        match bern (min1 (nmul (nmul ratio_data rp) rk)) r2 with
        | Err e => Err e
        | Ok (_, true) => let c := snd (setp th' cur2) in Ok (c, y, 1%nat, c)
        | Ok (_, false) => let c := snd (setp theta cur2) in Ok (c, y_old, 1%nat, c)
        end
      end
  end.
Lemma perturb_once q idx th cur a l : holds q idx th -> perturb Theta (list A) (pop Theta) setp kupd 100 q idx cur (a :: l) = Ok (prop th a, l, Some (prop th a)).
Proof. intros (H & _). unfold perturb. change 100%nat with (Datatypes.S 99). cbn [perturb_loop]. rewrite H, set_all. reflexivity. Qed.
Lemma move_draw q ys idx th f cur a l : holds q idx th -> move q (Some ys) (Datatypes.S f) idx th cur (a :: l) =
  if Qeq_bool (pi (prop th a)) 0 then move q (Some ys) f idx th (prop th a) l else rest q ys idx th (prop th a) l.
Proof.
  intros H. unfold move0, rest. cbn [M_Infer.propose]. rewrite (perturb_once _ _ _ _ _ _ H). unfold pdf_of_prior at 1. rewrite set_all, density. cbn [snd neqb]. destruct (Qeq_bool (pi (prop th a)) 0); reflexivity.
Qed.
Lemma move_end q ys idx th f cur : holds q idx th -> exists e, move q (Some ys) f idx th cur [] = Err e.
Proof.
  intros (_ & (off & H & E) & _). unfold move0. assert (X : forall f cur, exists e, propose f q idx cur [] = Err e).
  { clear f cur. induction f as [|f IH]; intros cur; cbn [M_Infer.propose]; [eexists; reflexivity|]. unfold perturb. change 100%nat with (Datatypes.S 99). cbn [perturb_loop]. rewrite H, set_all. cbn [Nat.eqb].
    unfold pdf_of_prior. rewrite set_all, density, E. cbn [snd neqb]. change (Qeq_bool 0 0) with true. cbn iota. apply IH. }
  destruct (X f cur) as (e & ->). exists e. reflexivity.
Qed.
(** value of the rest of the move, with two draws or more *)
Definition after (f : Theta -> Y -> R) (th : Theta) (y : Y) (th' : Theta) : R :=
  expect outs p (fun b => accept th y th' (dat th' b) * f th' (dat th' b) + (1 - accept th y th' (dat th' b)) * f th y).
Lemma rest_mean q ys idx th b f th' k : In th Ts -> In b outs -> In th' Ts -> ~ (kern th th' == 0)%Q -> holds q idx th -> nth_error ys idx = Some (dat th b) ->
  mean outs p (Datatypes.S (Datatypes.S k)) (fun l => gain f (rest q ys idx th th' l)) = after f th (dat th b) th'.
Proof.
  intros Hth Hb Hth' Hk (_ & _ & Hq) Hy. cbn [mean]. unfold after. apply expect_ext. intros b' Hb'.
  destruct (acceptance_value th (dat th b) th' (dat th' b') Hth Hk) as (v & Ev & Hv). rewrite <- Hv, <- (coin th b th' b' v Hth Hth' Hb Hb' Ev).
  rewrite (expect_ext _ _ _ _ (fun a => (if heads (Fin v) a then 1 else 0) * f th' (dat th' b') + (1 - (if heads (Fin v) a then 1 else 0)) * f th (dat th b))).
  - rewrite (expect_ext _ _ _ _ (fun a => (f th' (dat th' b') - f th (dat th b)) * (if heads (Fin v) a then 1 else 0) + f th (dat th b))) by (intros; ring).
    rewrite expect_plus, expect_scale, (expect_const _ _ _ _ law). fold (chance outs p (heads (Fin v))). ring.
  - intros a _. transitivity (if heads (Fin v) a then f th' (dat th' b') else f th (dat th b)); [|destruct (heads (Fin v) a); ring].
    rewrite (mean_ext _ _ _ k _ (fun _ => if heads (Fin v) a then f th' (dat th' b') else f th (dat th b))); [apply mean_const, law|]. intros l _.
    unfold rest, sim1. rewrite sim_draw, Hy. cbv zeta. unfold ratios, pdf_of_prior. rewrite !set_all, !density, !Hq. cbn [snd].
    unfold acceptance, hits in Ev. rewrite Ev, bern_draw. destruct (heads (Fin v) a); reflexivity.
Qed.
Lemma pow_cv r : 0 <= r < 1 -> Un_cv (fun k => r ^ k) 0.
Proof. intros H e He. destruct (pow_lt_1_zero r ltac:(rewrite Rabs_right; lra) e He) as (N & HN). exists N. intros n Hn. unfold R_dist. rewrite Rminus_0_r. apply HN, Hn. Qed.

(** C77 (one move): as the number of available draws grows, the expectation of any quantity of the new parameters and data tends to [moved]: the kernel is
    restricted to the prior and normalised there, and the proposal is accepted with probability [accept]. *)
Theorem C77_move : forall q ys idx th b f cur, In th Ts -> In b outs -> holds q idx th -> nth_error ys idx = Some (dat th b) ->
  Un_cv (fun k => mean outs p k (fun l => match move q (Some ys) (k + 1) idx th cur l with Ok (th', y', _, _) => f th' y' | Err _ => 0 end)) (moved f th (dat th b)).
Proof.
  intros q ys idx th b f cur Hth Hb Hq Hy.
  set (u := fun k => mean outs p k (fun l => gain f (move q (Some ys) (k + 1) idx th cur l))).
  assert (Hm : stays th = chance outs p (fun a => negb (Qeq_bool (pi (prop th a)) 0))).
  { unfold stays, chance. symmetry. pose (G := fun th' => if negb (Qeq_bool (pi th') 0) then 1 else 0). change (expect outs p (fun a => G (prop th a)) = total (map (fun th' => Q2R (kern th th')) Ts)).
    rewrite (group outs p teq Ts (prop th) G Ts_distinct).
    - apply total_ext. intros th' Hth'. rewrite (prop_law th th' Hth). unfold G. apply Ts_density in Hth'. destruct (Qeq_bool (pi th') 0) eqn:E; [apply Qeq_bool_iff in E; contradiction|]. cbn [negb]. ring.
    - intros a _. unfold G. destruct (Qeq_bool (pi (prop th a)) 0) eqn:E; [right; reflexivity|]. left. apply Ts_density. intros X. apply Qeq_bool_iff in X. congruence. }
  assert (Hc : expect outs p (fun a => if Qeq_bool (pi (prop th a)) 0 then 0 else after f th (dat th b) (prop th a)) = stays th * moved f th (dat th b)).
  { pose (G := fun th' => if Qeq_bool (pi th') 0 then 0 else after f th (dat th b) th'). change (expect outs p (fun a => G (prop th a)) = stays th * moved f th (dat th b)).
    rewrite (group outs p teq Ts (prop th) G Ts_distinct).
    - unfold moved. rewrite <- total_scale. apply total_ext. intros th' Hth'. rewrite (prop_law th th' Hth). unfold G. apply Ts_density in Hth'. destruct (Qeq_bool (pi th') 0) eqn:E; [apply Qeq_bool_iff in E; contradiction|].
      unfold after. specialize (stays_pos th Hth). field. lra.
    - intros a _. unfold G. destruct (Qeq_bool (pi (prop th a)) 0) eqn:E; [right; reflexivity|]. left. apply Ts_density. intros X. apply Qeq_bool_iff in X. congruence. }
  assert (Rec : forall k c, mean outs p (Datatypes.S (Datatypes.S (Datatypes.S k))) (fun l => gain f (move q (Some ys) (Datatypes.S (Datatypes.S (Datatypes.S k)) + 1) idx th c l)) =
     expect outs p (fun a => if Qeq_bool (pi (prop th a)) 0 then mean outs p (Datatypes.S (Datatypes.S k)) (fun l => gain f (move q (Some ys) (Datatypes.S (Datatypes.S k) + 1) idx th (prop th a) l)) else after f th (dat th b) (prop th a))).
  { intros k c. cbn [mean]. apply expect_ext. intros a Ha. destruct (Qeq_bool (pi (prop th a)) 0) eqn:E.
    - change (mean outs p (Datatypes.S (Datatypes.S k)) (fun l => gain f (move q (Some ys) (Datatypes.S (Datatypes.S (Datatypes.S k)) + 1) idx th c (a :: l))) = mean outs p (Datatypes.S (Datatypes.S k)) (fun l => gain f (move q (Some ys) (Datatypes.S (Datatypes.S k) + 1) idx th (prop th a) l))).
      apply mean_ext. intros l _. change (Datatypes.S (Datatypes.S (Datatypes.S k)) + 1)%nat with (Datatypes.S (Datatypes.S (Datatypes.S k) + 1))%nat. rewrite (move_draw _ _ _ _ _ _ _ _ Hq), E. reflexivity.
    - assert (Hin : In (prop th a) Ts) by (apply Ts_density; intros X; apply Qeq_bool_iff in X; congruence).
      rewrite <- (rest_mean q ys idx th b f (prop th a) k Hth Hb Hin); [| |exact Hq|exact Hy].
      + change (mean outs p (Datatypes.S (Datatypes.S k)) (fun l => gain f (move q (Some ys) (Datatypes.S (Datatypes.S (Datatypes.S k)) + 1) idx th c (a :: l))) = mean outs p (Datatypes.S (Datatypes.S k)) (fun l => gain f (rest q ys idx th (prop th a) l))).
        apply mean_ext. intros l _. change (Datatypes.S (Datatypes.S (Datatypes.S k)) + 1)%nat with (Datatypes.S (Datatypes.S (Datatypes.S k) + 1))%nat. rewrite (move_draw _ _ _ _ _ _ _ _ Hq), E. reflexivity.
      + intros X. apply Q2R_zero in X. rewrite <- (prop_law th (prop th a) Hth) in X. specialize (p_pos a Ha).
        assert (Y1 : p a <= chance outs p (fun a0 => if teq (prop th a0) (prop th a) then true else false)); [|lra].
        unfold chance, expect. clear - Ha law. destruct law as [H1 _]. clear law. induction outs as [|x l IH]; [destruct Ha|]. cbn [map]. rewrite total_cons.
        assert (N : forall y, In y (x :: l) -> 0 <= p y * (if if teq (prop th y) (prop th a) then true else false then 1 else 0)) by (intros y Hy; specialize (H1 y Hy); destruct (teq _ _); lra).
        destruct Ha as [->|Ha].
        * destruct (teq (prop th a) (prop th a)); [|congruence]. assert (0 <= total (map (fun a0 => p a0 * (if if teq (prop th a0) (prop th a) then true else false then 1 else 0)) l)); [|lra].
          apply total_nonneg, Forall_forall. intros z Hz. apply in_map_iff in Hz. destruct Hz as (y & <- & Hy). apply N. right. exact Hy.
        * specialize (IH Ha (fun y Hy => H1 y (or_intror Hy))). pose proof (N x (or_introl eq_refl)). lra. }
  (* the graph does not matter *)
  assert (Cur : forall k c c', mean outs p k (fun l => gain f (move q (Some ys) (k + 1) idx th c l)) = mean outs p k (fun l => gain f (move q (Some ys) (k + 1) idx th c' l))).
  { intros k c c'. destruct k as [|k]; cbn [mean].
    - destruct (move_end q ys idx th (0 + 1) c Hq) as (e & ->). destruct (move_end q ys idx th (0 + 1) c' Hq) as (e' & ->). reflexivity.
    - apply expect_ext. intros a _. apply mean_ext. intros l _. change (Datatypes.S k + 1)%nat with (Datatypes.S (k + 1)). rewrite !(move_draw _ _ _ _ _ _ _ _ Hq). reflexivity. }
  assert (Step : forall k, u (Datatypes.S (Datatypes.S (Datatypes.S k))) = (1 - stays th) * u (Datatypes.S (Datatypes.S k)) + stays th * moved f th (dat th b)).
  { intros k. unfold u at 1. rewrite Rec. rewrite <- Hc, Hm, <- (chance_neg _ _ _ _ law). unfold chance. rewrite (Rmult_comm _ (u _)), <- expect_scale, <- expect_plus. apply expect_ext. intros a _.
    destruct (Qeq_bool (pi (prop th a)) 0); cbn [negb]; [|ring]. rewrite (Cur _ (prop th a) cur). fold (u (Datatypes.S (Datatypes.S k))). ring. }
  assert (Closed : forall k, u (Datatypes.S (Datatypes.S k)) = moved f th (dat th b) + (1 - stays th) ^ k * (u 2%nat - moved f th (dat th b))).
  { induction k as [|k IH]; [cbn [pow]; ring|]. rewrite Step, IH. cbn [pow]. ring. }
  apply (cv_ext u); [intros k; unfold u; apply mean_ext; intros l _; unfold gain; destruct (move0 _ _ _ _ _ _ _ _ _ _ _ _ _ _ _ _ _ _) as [[[[t y] c] cu]|]; reflexivity|].
  apply cv_unshift, cv_unshift. apply (cv_ext (fun k => moved f th (dat th b) + (1 - stays th) ^ k * (u 2%nat - moved f th (dat th b)))); [intros k; symmetry; apply Closed|].
  assert (R01 : 0 <= 1 - stays th < 1) by (pose proof (stays_pos th Hth); pose proof (chance_range _ outs p (fun a => negb (Qeq_bool (pi (prop th a)) 0)) law); lra).
  replace (moved f th (dat th b)) with (moved f th (dat th b) + 0 * (u 2%nat - moved f th (dat th b))) at 1 by ring.
  apply CV_plus; [apply cv_const|]. apply CV_mult; [apply pow_cv, R01|apply cv_const].
Qed.

Lemma flow th y th' y' : In th Ts -> In th' Ts ->
  Q2R (pi th) * INR (hits y) * Q2R (kern th th') * accept th y th' y' = Rmin (Q2R (pi th) * INR (hits y) * Q2R (kern th th')) (Q2R (pi th') * INR (hits y') * Q2R (kern th' th)).
Proof.
  intros H H'. pose proof (pi_pos th H) as P1. pose proof (pi_pos th' H') as P2. pose proof (kern_nonneg th th' H) as K1. pose proof (kern_nonneg th' th H') as K2. pose proof (pos_INR (hits y)) as N1. pose proof (pos_INR (hits y')) as N2.
  unfold accept. destruct (Nat.eqb_spec (hits y) 0) as [E|E].
  - rewrite E. cbn [INR]. rewrite Rmult_0_r, !Rmult_0_l. rewrite Rmin_left; [reflexivity|]. apply Rmult_le_pos; [apply Rmult_le_pos; lra|exact K2].
  - assert (E0 : 0 < INR (hits y)) by (apply lt_0_INR; lia). clear E. revert P1 P2 K1 K2 N1 N2 E0. generalize (Q2R (pi th)), (Q2R (pi th')), (Q2R (kern th th')), (Q2R (kern th' th)), (INR (hits y)), (INR (hits y')). clear. intros x x' k k' h h' P1 P2 K1 K2 N1 N2 E0.
    destruct (Req_dec k 0) as [->|Hk].
    + rewrite Rmult_0_r, Rmult_0_l. rewrite Rmin_left; [reflexivity|]. apply Rmult_le_pos; [apply Rmult_le_pos; lra|exact K2].
    + set (g := x * h * k). assert (Hg : 0 < g) by (unfold g; apply Rmult_lt_0_compat; [apply Rmult_lt_0_compat; lra|lra]). replace (h' / h * (x' / x) * (k' / k)) with (x' * h' * k' / g) by (unfold g; field; lra).
      rewrite Rmin_scale by lra. f_equal; field. lra.
Qed.
Lemma drift f th y : In th Ts -> moved f th y - f th y =
  total (map (fun th' => Q2R (kern th th') / stays th * expect outs p (fun b => accept th y th' (dat th' b) * (f th' (dat th' b) - f th y))) Ts).
Proof.
  intros Hth. specialize (stays_pos th Hth).
  assert (One : f th y = total (map (fun th' => Q2R (kern th th') / stays th * f th y) Ts)).
  { rewrite (total_ext _ (fun th' => f th y / stays th * Q2R (kern th th'))) by (intros; unfold Rdiv; ring). rewrite total_scale. fold (stays th). field. lra. }
  transitivity (moved f th y + -1 * total (map (fun th' => Q2R (kern th th') / stays th * f th y) Ts)); [rewrite <- One; ring|].
  unfold moved. rewrite <- total_scale, <- total_plus. apply total_ext. intros th' _.
  rewrite (expect_ext _ _ _ (fun b => accept th y th' (dat th' b) * f th' (dat th' b) + (1 - accept th y th' (dat th' b)) * f th y) (fun b => accept th y th' (dat th' b) * (f th' (dat th' b) - f th y) + f th y)) by (intros; ring).
  rewrite expect_plus, (expect_const _ _ _ _ law). ring.
Qed.
(** C77 (invariance): the move leaves invariant the law with density proportional to prior density times number of hits times the chance that a perturbation
    stays inside the prior; the kernel need not be symmetric. *)
Theorem C77_invariant : forall f, average stays (moved f) = average stays f.
Proof.
  intros f. apply Rminus_diag_uniq.
  set (D := fun s s' : Theta * A => p (snd s) * p (snd s') * (Q2R (pi (fst s)) * INR (hits (dat (fst s) (snd s))) * Q2R (kern (fst s) (fst s')) * accept (fst s) (dat (fst s) (snd s)) (fst s') (dat (fst s') (snd s')))).
  rewrite <- (balanced (list_prod Ts outs) D (fun s => f (fst s) (dat (fst s) (snd s)))).
  - rewrite total_prod. unfold average.
    transitivity (total (map (fun th => Q2R (pi th) * stays th * expect outs p (fun b => INR (hits (dat th b)) * (moved f th (dat th b) - f th (dat th b)))) Ts)).
    { match goal with |- total (map ?u Ts) - total (map ?v Ts) = _ => transitivity (total (map (fun th => u th + -1 * v th) Ts)); [rewrite total_plus, total_scale; ring|] end.
      apply total_ext. intros th _. transitivity (Q2R (pi th) * stays th * (expect outs p (fun b => INR (hits (dat th b)) * moved f th (dat th b)) + -1 * expect outs p (fun b => INR (hits (dat th b)) * f th (dat th b)))); [ring|].
      rewrite <- expect_scale, <- expect_plus. f_equal. apply expect_ext. intros b _. ring. }
    apply total_ext. intros th Hth. unfold expect at 1. rewrite <- total_scale. apply total_ext. intros b _. rewrite (drift f th (dat th b) Hth), total_prod. cbn [fst snd].
    rewrite <- total_scale, <- total_scale, <- total_scale. apply total_ext. intros th' _. unfold expect. rewrite <- total_scale, <- total_scale, <- total_scale, <- total_scale. apply total_ext. intros b' _.
    unfold D. cbn [fst snd]. specialize (stays_pos th Hth). field. lra.
  - intros [th b] [th' b'] H H'. apply in_prod_iff in H, H'. unfold D. cbn [fst snd]. rewrite (flow th (dat th b) th' (dat th' b')) by tauto. rewrite (flow th' (dat th' b') th (dat th b)) by tauto. rewrite Rmin_comm. ring.
Qed.
(** C77 (when the ABC posterior is invariant): if perturbations stay inside the prior with the same chance everywhere. *)
Theorem C77_exact : forall m f, (forall th, In th Ts -> stays th = m) -> average (fun _ => 1) (moved f) = average (fun _ => 1) f.
Proof.
  intros m f Hm. assert (E : forall g, average stays g = m * average (fun _ => 1) g) by (intros g; unfold average; rewrite <- total_scale; apply total_ext; intros th Hth; rewrite (Hm th Hth); ring).
  assert (C : Ts = [] \/ exists t, In t Ts) by (clear; destruct Ts as [|t l]; [left; reflexivity|right; exists t; left; reflexivity]).
  destruct C as [C|(t & Ht)]; [unfold average; rewrite C; reflexivity|]. assert (Hp : 0 < m) by (rewrite <- (Hm t Ht); apply stays_pos, Ht).
  pose proof (C77_invariant f) as X. rewrite !E in X. apply Rmult_eq_reg_l in X; lra.
Qed.
End Move.
Print Assumptions C77_move.
Print Assumptions C77_invariant.
Print Assumptions C77_exact.

(** Cases: parameters 0, 1, 2 with a uniform prior; steps of -1, 0, 0, 1 (equally likely) mapped by [fold]; all data are hits. *)
Module Moves.
Definition outs : list Z := [-1; 0; 0; 1]%Z.
Definition p : Z -> R := fun _ => 1 / 4.
Definition setp (th cur : Z) : bool * Z := (true, th).
Definition simc (th : Z) (l : list Z) : list Z * option Z := match l with [] => ([], None) | _ :: l' => (l', Some 0%Z) end.
Definition dist1 (_ : Z) : list num := [Fin 0].
Definition heads (v : num) (_ : Z) : bool := negb (nlt v (Fin 1)).
Definition bern (v : num) (l : list Z) : res (list Z * bool) := match l with [] => Err OutOfFuel | a :: l' => Ok (l', heads v a) end.
Notation pi := Steps.pi.
Section Fold.
Variable fold : Z -> Z.
Definition prop (th a : Z) : Z := fold (th + a)%Z.
Definition kupd (q : pop Z) (i : nat) (l : list Z) : list Z * Z := match l with [] => ([], 99%Z) | a :: l' => (l', prop (nth i (p_rows q) 0%Z) a) end.
Definition kern := Steps.kern_at fold.
Definition kpdf (_ : pop Z) (x th : Z) : num := Fin (kern x th).
Definition run (th : Z) (k : nat) (l : list Z) := move0 Z (list Z) Z setp (fun th _ => Fin (pi th)) kupd kpdf simc dist1 bern (Fin 1) (mkpop [th] [Fin 1]) (Some [0%Z]) (k + 1) 0 th th l.
End Fold.
Lemma law : Law outs p.
Proof. split; [intros; unfold p; lra|]. unfold outs, p, total. cbn. lra. Qed.
Lemma prop_law fold : forall th th', chance outs p (fun a => if Z.eq_dec (prop fold th a) th' then true else false) = Q2R (kern fold th th').
Proof.
  intros x th. unfold kern, Steps.kern_at. rewrite !Q2R_plus, !Q2R_mult. replace (Q2R (1 # 4)) with (1 / 4) by (unfold Q2R; cbn; lra). replace (Q2R (1 # 2)) with (1 / 2) by (unfold Q2R; cbn; lra).
  assert (I : forall x, Q2R (Steps.ind (x =? th)%Z) = if (if Z.eq_dec x th then true else false) then 1 else 0) by (intros y; destruct (Z.eq_dec y th) as [->|N]; [rewrite Z.eqb_refl|rewrite (proj2 (Z.eqb_neq _ _) N)]; unfold Q2R; cbn; lra).
  rewrite !I. unfold chance, expect, outs, p. cbn [map]. unfold prop. rewrite !total_cons. change (total []) with 0. rewrite !Z.add_0_r. replace (x - 1)%Z with (x + -1)%Z by lia. lra.
Qed.
(** every proposal is accepted: the kernel is symmetric *)
Lemma always fold th th' y y' : In th [0; 1; 2]%Z -> In th' [0; 1; 2]%Z -> fold = (fun x => x) \/ fold = Steps.clamp -> acceptance Z Z dist1 (Fin 1) pi (kern fold) th y th' y' = Fin 1.
Proof. intros H H' [-> | ->]; unfold acceptance, hits; destruct H as [<-|[<-|[<-|[]]]], H' as [<-|[<-|[<-|[]]]]; vm_compute; reflexivity. Qed.
Lemma coin fold : fold = (fun x => x) \/ fold = Steps.clamp -> forall th b th' b' v, In th [0; 1; 2]%Z -> In th' [0; 1; 2]%Z -> In b outs -> In b' outs ->
  acceptance Z Z dist1 (Fin 1) pi (kern fold) th ((fun _ _ => 0%Z) th b) th' ((fun _ _ => 0%Z) th' b') = Fin v -> chance outs p (heads (Fin v)) = Q2R v.
Proof.
  intros HF th b th' b' v H H' _ _ E. rewrite always in E by assumption. injection E as <-. unfold chance. rewrite (expect_ext _ _ _ _ (fun _ => 1)) by reflexivity. rewrite (expect_const _ _ _ _ law). unfold Q2R. cbn. lra.
Qed.
Definition dat (th a : Z) : Z := 0%Z.
Definition st fold := stays Z (kern fold) [0; 1; 2]%Z.
Lemma st_eq fold th : st fold th = Q2R (kern fold th 0 + kern fold th 1 + kern fold th 2).
Proof. unfold st, stays. rewrite (Steps.three _ tt), !Q2R_plus. reflexivity. Qed.
Lemma st_id0 : st (fun x => x) 0 = 3 / 4. Proof. rewrite st_eq. apply (Steps.Q2R_eq 3 4). reflexivity. Qed.
Lemma st_id1 : st (fun x => x) 1 = 1. Proof. rewrite st_eq, (Steps.Q2R_eq 1 1) by reflexivity. lra. Qed.
Lemma st_id2 : st (fun x => x) 2 = 3 / 4. Proof. rewrite st_eq. apply (Steps.Q2R_eq 3 4). reflexivity. Qed.
Lemma st_pos fold : fold = (fun x => x) \/ fold = Steps.clamp -> forall th, In th [0; 1; 2]%Z -> 0 < st fold th.
Proof.
  intros [-> | ->] th [<-|[<-|[<-|[]]]].
  - rewrite st_id0; lra. - rewrite st_id1; lra. - rewrite st_id2; lra.
  - rewrite st_eq, (Steps.Q2R_eq 1 1) by reflexivity; lra.
  - rewrite st_eq, (Steps.Q2R_eq 1 1) by reflexivity; lra.
  - rewrite st_eq, (Steps.Q2R_eq 1 1) by reflexivity; lra.
Qed.
Lemma moves fold th f : fold = (fun x => x) \/ fold = Steps.clamp -> In th [0; 1; 2]%Z ->
  Un_cv (fun k => mean outs p k (fun l => match run fold th k l with Ok (th', y', _, _) => f th' y' | Err _ => 0 end))
        (moved Z Z Z outs p dist1 (Fin 1) pi (kern fold) dat [0; 1; 2]%Z f th 0%Z).
Proof.
  intros HF Hth. apply (C77_move Z Z Z Z.eq_dec outs p law ltac:(intros; unfold p; lra) setp (fun th _ => Fin (pi th)) (kupd fold) (kpdf fold) simc dist1 bern (Fin 1) pi (kern fold) (prop fold) dat heads [0; 1; 2]%Z
    (fun _ _ => eq_refl) (fun _ _ => eq_refl) (fun _ _ _ => eq_refl) (fun _ _ _ => eq_refl)
    (fun th th' _ => prop_law fold th th') ltac:(repeat (constructor; [cbn; lia|]); constructor) Steps.inside (coin fold HF) (st_pos fold HF)
    (mkpop [th] [Fin 1]) [0%Z] 0%nat th 0%Z f th Hth ltac:(cbn; auto)); [|reflexivity].
  split; [intros; reflexivity|]. split; [exists 99%Z; split; reflexivity|]. intros; reflexivity.
Qed.
Lemma accept_one fold th th' : fold = (fun x => x) -> In th [0; 1; 2]%Z -> In th' [0; 1; 2]%Z -> (kern fold th th' == 0)%Q \/ accept Z Z dist1 (Fin 1) pi (kern fold) th 0%Z th' 0%Z = 1.
Proof.
  intros HF H H'. destruct (Qeq_dec (kern fold th th') 0) as [E|E]; [left; exact E|right].
  destruct (acceptance_value Z Z dist1 (Fin 1) pi (kern fold) [0; 1; 2]%Z Steps.inside th 0%Z th' 0%Z H E) as (v & Ev & Hv).
  rewrite always in Ev by auto. injection Ev as <-. rewrite <- Hv. unfold Q2R. cbn. lra.
Qed.
Lemma moved_one th : In th [0; 1; 2]%Z -> moved Z Z Z outs p dist1 (Fin 1) pi (kern (fun x => x)) dat [0; 1; 2]%Z (fun th' _ => if (th' =? 1)%Z then 1 else 0) th 0%Z = Q2R (kern (fun x => x) th 1) / st (fun x => x) th.
Proof.
  intros H. unfold moved. fold (st (fun x => x)). pose proof (st_pos _ (or_introl eq_refl) th H) as Hp.
  rewrite (total_ext _ (fun th' => Q2R (kern (fun x => x) th th') / st (fun x => x) th * (if (th' =? 1)%Z then 1 else 0))).
  - rewrite (Steps.three _ tt). cbn [Z.eqb Pos.eqb]. lra.
  - intros th' H'. destruct (accept_one (fun x => x) th th' eq_refl H H') as [E|E].
    + apply Q2R_zero in E. rewrite E. unfold Rdiv. rewrite !Rmult_0_l. reflexivity.
    + f_equal. unfold dat. rewrite (expect_ext _ _ _ _ (fun _ => if (th' =? 1)%Z then 1 else 0)); [apply expect_const, law|]. intros b _. rewrite E. ring.
Qed.
End Moves.
(** C77, the general claim fails: prior and likelihood are constant on 0, 1, 2, but from the uniform law a move leads to 1 with probability 7/18 instead of 1/3: perturbations
    of 0 and 2 are pushed back inside, and the acceptance probability ignores it. *)
Theorem C77_truncated_refuted : exists v : Z -> R,
  (forall th, In th [0; 1; 2]%Z -> Q2R (Steps.pi th) = 1 / 3 /\
     Un_cv (fun k => mean Moves.outs Moves.p k (fun l => match Moves.run (fun x => x) th k l with Ok (th', _, _, _) => if (th' =? 1)%Z then 1 else 0 | Err _ => 0 end)) (v th)) /\
  1 / 3 * v 0%Z + 1 / 3 * v 1%Z + 1 / 3 * v 2%Z = 7 / 18.
Proof.
  exists (fun th => Q2R (Moves.kern (fun x => x) th 1) / Moves.st (fun x => x) th). split.
  - intros th H. split; [destruct H as [<-|[<-|[<-|[]]]]; rewrite (Steps.Q2R_eq 1 3) by reflexivity; lra|].
    rewrite <- (Moves.moved_one th H). exact (Moves.moves (fun x => x) th (fun th' _ => if (th' =? 1)%Z then 1 else 0) (or_introl eq_refl) H).
  - rewrite Moves.st_id0, Moves.st_id1, Moves.st_id2. rewrite (Steps.Q2R_eq 1 4 (Moves.kern _ 0 1)) by reflexivity. rewrite (Steps.Q2R_eq 1 2 (Moves.kern _ 1 1)) by reflexivity. rewrite (Steps.Q2R_eq 1 4 (Moves.kern _ 2 1)) by reflexivity. lra.
Qed.
Print Assumptions C77_truncated_refuted.
(** with the wrapped kernel the posterior is invariant *)
Example C77_wrapped : forall f, average Z Z Z Moves.outs Moves.p Moves.dist1 (Fin 1) Steps.pi Moves.dat [0; 1; 2]%Z (fun _ => 1) (moved Z Z Z Moves.outs Moves.p Moves.dist1 (Fin 1) Steps.pi (Moves.kern Steps.clamp) Moves.dat [0; 1; 2]%Z f)
  = average Z Z Z Moves.outs Moves.p Moves.dist1 (Fin 1) Steps.pi Moves.dat [0; 1; 2]%Z (fun _ => 1) f.
Proof.
  intros f. apply (C77_exact Z Z Z Z.eq_dec Moves.outs Moves.p Moves.law Moves.dist1 (Fin 1) Steps.pi (Moves.kern Steps.clamp) (Moves.prop Steps.clamp) Moves.dat [0; 1; 2]%Z
    ltac:(intros th; unfold Steps.pi; destruct (_ && _); discriminate) (fun th th' _ => Moves.prop_law Steps.clamp th th') Steps.inside (Moves.st_pos Steps.clamp (or_intror eq_refl)) 1).
  intros th [<-|[<-|[<-|[]]]]; change (Moves.st Steps.clamp 0 = 1) || change (Moves.st Steps.clamp 1 = 1) || change (Moves.st Steps.clamp 2 = 1); rewrite Moves.st_eq, (Steps.Q2R_eq 1 1) by reflexivity; lra.
Qed.
