(** C75: a step of the Metropolis-Hastings sampler leaves the posterior invariant. *)
From Coq Require Import Reals Lra Lia.
From Verif Require Import M_Base M_Num M_MCMC S_MCMC M_XReal P_MCMC M_Stats L_PMC S_Stats L_Stats L_Distance L_PosDef L_Histogram S_Law P_Law.
Open Scope R_scope.

Section Invariance.
Variables Theta Rng Y Cov A B : Type.
Variable teq : forall x y : Theta, {x = y} + {x <> y}.
Variable fzero : xr -> bool.
Variable setp : Theta -> Theta -> bool * Theta.
Variable pdfv : Theta -> Theta -> xr.
Variable kupd : Theta -> Cov -> Rng -> Rng * Theta.
Variable simc : Theta -> Rng -> Rng * option Y.
Variable loglik : Y -> xr.
Variable inv : Theta -> Theta.
Variable ldj : Theta -> res xr.
Variable unif : Rng -> Rng * xr.
Variable adapt : list Theta -> Cov.
Notation mh_step := (mh_step Theta Rng Y xr Cov xadd xsub xmul xdiv xexp xlt fzero setp pdfv kupd simc loglik inv ldj unif adapt).

(** positions in the transformed space; prior density and log Jacobian determinant of parameters; outcomes of a proposal and of a simulation,
    with their probabilities: [move y a] is proposed from y, [ll th b] is the log likelihood estimated at th *)
Variable Ys : list Theta.
Variable pi aj : Theta -> R.
Variable move : Theta -> A -> Theta.
Variable ll : Theta -> B -> R.
Variables (outsA : list A) (outsB : list B).
Variables (pa : A -> R) (pb : B -> R).
Hypothesis fzero_ok : forall x, fzero (XR x) = true <-> x = 0.
Hypothesis density : forall th cur, pdfv th (snd (setp th cur)) = XR (pi th).
Hypothesis assigned : forall th cur, pi th <> 0 -> snd (setp th cur) = th.
Hypothesis jacobian : forall th, ldj th = Ok (XR (aj th)).
Hypothesis Ys_distinct : NoDup Ys.
Hypothesis Ys_density : forall y, In y Ys -> 0 < pi (inv y).
Hypothesis stays : forall y a, In y Ys -> In (move y a) Ys \/ pi (inv (move y a)) = 0.
Hypothesis lawA : Law outsA pa.
Hypothesis lawB : Law outsB pb.
Definition leads (y y' : Theta) : R := chance outsA pa (fun a => if teq (move y a) y' then true else false).
Hypothesis symmetric : forall y y', In y Ys -> In y' Ys -> leads y y' = leads y' y.

(** a state of the chain: a position and the outcome of the simulation that gave its log likelihood *)
Definition state := (Theta * B)%type.
Definition point (s : state) : pt Theta xr := mkpt Theta xr (inv (fst s)) (fst s) (XR (ll (inv (fst s)) (snd s))) (XR (pi (inv (fst s)))) (XR (aj (inv (fst s)))).
(** posterior density of a position in the transformed space, with the estimated likelihood *)
Definition density_at (s : state) : R := target (pi (inv (fst s))) (ll (inv (fst s)) (snd s)) (aj (inv (fst s))).
Definition accept (s s' : state) : R := Rmin 1 (density_at s' / density_at s).

(** C75 (one step of the code): after burn-in, the proposal with outcome a and simulation with outcome b is taken when the uniform number is below [accept]. *)
Theorem C75_step : forall burnin interval aStep c s a r1, In (fst s) Ys -> (burnin <= aStep)%nat -> c_pt _ _ _ _ c = point s ->
  kupd (fst s) (c_cov _ _ _ _ c) (c_rng _ _ _ _ c) = (r1, move (fst s) a) ->
  (pi (inv (move (fst s) a)) = 0 -> exists c', mh_step burnin interval aStep c = Ok c' /\ c_pt _ _ _ _ c' = point s /\ c_cov _ _ _ _ c' = c_cov _ _ _ _ c
     /\ c_trace _ _ _ _ c' = c_trace _ _ _ _ c ++ [inv (fst s)] /\ c_rng _ _ _ _ c' = r1) /\
  (pi (inv (move (fst s) a)) <> 0 -> forall b r2 d r3 u, simc (inv (move (fst s) a)) r1 = (r2, Some d) -> loglik d = XR (ll (inv (move (fst s) a)) b) -> unif r2 = (r3, XR u) -> 0 <= u < 1 ->
     exists c', mh_step burnin interval aStep c = Ok c' /\ c_cov _ _ _ _ c' = c_cov _ _ _ _ c /\ c_rng _ _ _ _ c' = r3 /\
     let s' := if Rlt_dec u (accept s (move (fst s) a, b)) then (move (fst s) a, b) else s in
     c_pt _ _ _ _ c' = point s' /\ c_trace _ _ _ _ c' = c_trace _ _ _ _ c ++ [inv (fst s')]).
Proof.
  intros burnin interval aStep c s a r1 Hy Hb Hc Hk. apply Nat.leb_le in Hb. split.
  - intros E. unfold M_MCMC.mh_step; rewrite Hc; change (q_tr Theta xr (point s)) with (fst s); rewrite Hk; cbv zeta; rewrite density, Hb; cbv iota beta. rewrite (proj2 (fzero_ok _) E). eexists. split; [reflexivity|]. cbn [c_pt c_cov c_trace c_rng]. split; [reflexivity|]. split; [reflexivity|]. split; reflexivity.
  - intros Hp b r2 d r3 u Hs Hl Hu Hu1. unfold M_MCMC.mh_step; rewrite Hc; change (q_tr Theta xr (point s)) with (fst s); rewrite Hk; cbv zeta; rewrite density, Hb; cbv iota beta. destruct (fzero (XR (pi (inv (move (fst s) a))))) eqn:Ez; [apply fzero_ok in Ez; contradiction|].
    unfold sim_ll. rewrite !(assigned _ _ Hp), Hs, Hl, jacobian, Hu.
    set (s1 := mkpt Theta xr (inv (move (fst s) a)) (move (fst s) a) (XR (ll (inv (move (fst s) a)) b)) (XR (pi (inv (move (fst s) a)))) (XR (aj (inv (move (fst s) a))))).
    assert (Hin : In (move (fst s) a) Ys) by (destruct (stays _ a Hy) as [H|H]; [exact H|contradiction]).
    destruct (C28_balance Theta (point s) s1 (pi (inv (fst s))) (ll (inv (fst s)) (snd s)) (aj (inv (fst s))) (pi (inv (move (fst s) a))) (ll (inv (move (fst s) a)) b) (aj (inv (move (fst s) a))))
      as (pr & pr' & _ & _ & H1 & _ & _ & H4); [split; [reflexivity|split; reflexivity]|split; [reflexivity|split; reflexivity]|apply Ys_density; exact Hy|apply Ys_density; exact Hin|].
    specialize (H1 u Hu1). change (S_MCMC.accepts xadd xsub xmul xdiv xexp xlt (point s) s1 (XR u)) with (xlt (XR u) (alpha Theta xr xadd xsub xmul xdiv xexp (point s) s1)) in H1.
    change (accept s (move (fst s) a, b)) with (Rmin 1 (target (pi (inv (move (fst s) a))) (ll (inv (move (fst s) a)) b) (aj (inv (move (fst s) a))) / target (pi (inv (fst s))) (ll (inv (fst s)) (snd s)) (aj (inv (fst s))))). rewrite <- H4.
    cbv zeta. destruct (xlt (XR u) (alpha Theta xr xadd xsub xmul xdiv xexp (point s) s1)) eqn:Ea; destruct (Rlt_dec u pr) as [Hlt|Hge].
    + eexists. split; [reflexivity|]. cbn [c_pt c_cov c_trace c_rng]. split; [reflexivity|]. split; [reflexivity|]. split; reflexivity.
    + exfalso. apply Hge, H1. reflexivity.
    + exfalso. apply H1 in Hlt. discriminate.
    + eexists. split; [reflexivity|]. cbn [c_pt c_cov c_trace c_rng]. split; [reflexivity|]. split; [reflexivity|]. split; reflexivity.
Qed.

(** expectation of f after one step from s, over the proposal, the simulation and the uniform number *)
Definition after_step (f : state -> R) (s : state) : R :=
  expect outsA pa (fun a => if Req_EM_T (pi (inv (move (fst s) a))) 0 then f s
    else expect outsB pb (fun b => accept s (move (fst s) a, b) * f (move (fst s) a, b) + (1 - accept s (move (fst s) a, b)) * f s)).
Fixpoint after_steps (n : nat) (f : state -> R) (s : state) : R := match n with O => f s | S k => after_step (after_steps k f) s end.
(** expectation of f when the state has the posterior law (up to the normalising constant): the position has the posterior density with the
    estimated likelihood of an independent simulation *)
Definition posterior (f : state -> R) : R := total (map (fun y => expect outsB pb (fun b => density_at (y, b) * f (y, b))) Ys).

Lemma density_pos s : In (fst s) Ys -> 0 < density_at s.
Proof. intros H. unfold density_at, target. apply Rmult_lt_0_compat; [apply Rmult_lt_0_compat; [apply Ys_density; exact H|apply exp_pos]|apply exp_pos]. Qed.
Lemma flow s s' : In (fst s) Ys -> In (fst s') Ys -> density_at s * accept s s' = density_at s' * accept s' s.
Proof.
  intros H H'. apply density_pos in H, H'. unfold accept. revert H H'. generalize (density_at s), (density_at s'). clear. intros g g' Hg Hg'. unfold Rmin.
  assert (Hd : forall x y, 0 < y -> (1 <= x / y <-> y <= x)).
  { intros x y Hy. split; intros H; [apply Rmult_le_reg_r with (/ y); [apply Rinv_0_lt_compat, Hy | rewrite Rinv_r by lra; exact H] | apply Rmult_le_reg_r with y; [exact Hy|]; unfold Rdiv; rewrite Rmult_assoc, Rinv_l by lra; lra]. }
  destruct (Rle_dec 1 (g' / g)) as [H|H], (Rle_dec 1 (g / g')) as [H'|H']; try (apply (proj1 (Hd _ _ Hg)) in H); try (apply (proj1 (Hd _ _ Hg')) in H').
  - lra.
  - field. lra.
  - field. lra.
  - exfalso. assert (~ g <= g') by (intros E; apply H, Hd; assumption). assert (~ g' <= g) by (intros E; apply H', Hd; assumption). lra.
Qed.
Lemma grouped y (G : Theta -> R) : In y Ys -> (forall y', pi (inv y') = 0 -> G y' = 0) ->
  expect outsA pa (fun a => G (move y a)) = total (map (fun y' => leads y y' * G y') Ys).
Proof.
  intros Hy HG. unfold leads, chance, expect.
  rewrite (total_ext (fun y' => total (map (fun a => pa a * (if if teq (move y a) y' then true else false then 1 else 0)) outsA) * G y') (fun y' => total (map (fun a => pa a * (if teq (move y a) y' then G y' else 0)) outsA))).
  - rewrite total_swap. apply total_ext. intros a _. rewrite total_scale. f_equal. destruct (stays y a Hy) as [Hin|Hz].
    + rewrite (total_ext _ (fun y' => if (if teq (move y a) y' then true else false) then G (move y a) else 0)).
      * symmetry. apply (total_single Ys (fun y' => if teq (move y a) y' then true else false) (move y a)); [exact Ys_distinct|exact Hin|]. intros x _. destruct (teq (move y a) x) as [E|E]; split; intros X; congruence.
      * intros y' _. destruct (teq (move y a) y') as [E|E]; [rewrite E|]; reflexivity.
    + rewrite (HG _ Hz). symmetry. rewrite (total_ext _ (fun _ => 0)); [rewrite total_const; ring|]. intros y' Hy'. destruct (teq (move y a) y') as [E|E]; [|reflexivity]. subst y'. apply HG, Hz.
  - intros y' _. rewrite Rmult_comm, <- total_scale. apply total_ext. intros a _. destruct (teq (move y a) y'); ring.
Qed.
Lemma drift f s : In (fst s) Ys -> after_step f s - f s = total (map (fun y' => leads (fst s) y' * expect outsB pb (fun b => accept s (y', b) * (f (y', b) - f s))) Ys).
Proof.
  intros Hy.
  set (G := fun y' => if Req_EM_T (pi (inv y')) 0 then 0 else expect outsB pb (fun b => accept s (y', b) * (f (y', b) - f s))).
  transitivity (total (map (fun y' => leads (fst s) y' * G y') Ys)).
  - rewrite <- grouped; [|exact Hy|intros y' E; unfold G; destruct (Req_EM_T (pi (inv y')) 0); [reflexivity|contradiction]].
    assert (C : f s = expect outsA pa (fun _ => f s)) by (symmetry; apply expect_const; exact lawA).
    transitivity (after_step f s + (-1) * expect outsA pa (fun _ => f s)); [rewrite <- C; ring|]. unfold after_step.
    rewrite <- expect_scale, <- expect_plus. apply expect_ext. intros a _. unfold G. destruct (Req_EM_T (pi (inv (move (fst s) a))) 0); [ring|].
    replace (-1 * f s) with (expect outsB pb (fun _ => -1 * f s)) by (apply expect_const; exact lawB). rewrite <- expect_plus. apply expect_ext. intros b _. ring.
  - apply total_ext. intros y' Hy'. unfold G. destruct (Req_EM_T (pi (inv y')) 0) as [E|E]; [|reflexivity]. specialize (Ys_density _ Hy'). lra.
Qed.
Lemma drop_outer (l : list Theta) (g h : Theta -> R) : total (map g l) - total (map h l) = total (map (fun y => g y - h y) l).
Proof. rewrite (total_ext (fun y => g y - h y) (fun y => g y + (-1) * h y)) by (intros; ring). rewrite total_plus, total_scale. ring. Qed.
Lemma posterior_ext f g : (forall s, In (fst s) Ys -> f s = g s) -> posterior f = posterior g.
Proof. intros H. unfold posterior. apply total_ext. intros y Hy. apply expect_ext. intros b _. rewrite (H (y, b) Hy). reflexivity. Qed.

(** C75 (invariance): a state with the posterior law has the posterior law after one step, and after any number of steps. *)
Theorem C75_invariant : forall f n, posterior (after_steps n f) = posterior f.
Proof.
  assert (One : forall f, posterior (after_step f) = posterior f).
  { intros f. apply Rminus_diag_uniq.
    set (D := fun y b y' b' => leads y y' * pb b * pb b' * (density_at (y, b) * accept (y, b) (y', b'))).
    set (four := fun F : Theta -> B -> Theta -> B -> R => total (map (fun y => total (map (fun b => total (map (fun y' => total (map (fun b' => F y b y' b') outsB)) Ys)) outsB)) Ys)).
    assert (E : posterior (after_step f) - posterior f = four (fun y b y' b' => D y b y' b' * f (y', b')) - four (fun y b y' b' => D y b y' b' * f (y, b))).
    { unfold posterior, four. rewrite !drop_outer. apply total_ext. intros y Hy. unfold expect at 1 2.
      match goal with |- total (map ?u outsB) - total (map ?v outsB) = total (map ?w outsB) - total (map ?z outsB) =>
        transitivity (total (map (fun b => u b + (-1) * v b) outsB)); [rewrite total_plus, total_scale; ring|]; transitivity (total (map (fun b => w b + (-1) * z b) outsB)); [|rewrite total_plus, total_scale; ring] end.
      apply total_ext. intros b _.
      transitivity (pb b * density_at (y, b) * (after_step f (y, b) - f (y, b))); [ring|]. rewrite (drift f (y, b) Hy). cbn [fst].
      rewrite <- total_scale, <- (total_scale _ (-1)), <- total_plus. apply total_ext. intros y' _. unfold expect. rewrite <- (total_scale _ (-1)), <- total_plus.
      transitivity (total (map (fun b' => pb b * density_at (y, b) * leads y y' * (pb b' * (accept (y, b) (y', b') * (f (y', b') - f (y, b))))) outsB)); [rewrite total_scale; ring|].
      apply total_ext. intros b' _. unfold D. ring. }
    rewrite E. apply Rminus_diag_eq.
    (* exchange the two states *)
    transitivity (four (fun y' b' y b => D y b y' b' * f (y', b'))).
    2:{ unfold four. apply total_ext. intros y Hy. apply total_ext. intros b _. apply total_ext. intros y' Hy'. apply total_ext. intros b' _. f_equal. unfold D.
        rewrite (symmetric y' y Hy' Hy), (flow (y', b') (y, b) Hy' Hy). ring. }
    unfold four.
    transitivity (total (map (fun s => total (map (fun s' => D (fst s) (snd s) (fst s') (snd s') * f s') (list_prod Ys outsB))) (list_prod Ys outsB))).
    2: rewrite total_swap.
    all: assert (P : forall (g : Theta * B -> R), total (map g (list_prod Ys outsB)) = total (map (fun y => total (map (fun b => g (y, b)) outsB)) Ys))
      by (intros g; clear; induction Ys as [|y l IH]; [reflexivity|]; cbn [list_prod map]; rewrite map_app, total_app, total_cons, IH, map_map; reflexivity).
    all: rewrite !P; apply total_ext; intros y Hy; apply total_ext; intros b _; rewrite P; apply total_ext; intros y' _; apply total_ext; intros b' _; reflexivity. }
  intros f n. induction n as [|n IH]; [reflexivity|]. cbn [after_steps]. rewrite One. exact IH.
Qed.
(** C75 (marginal): the expectation of a function of the parameters is taken with prior times the expected likelihood estimate, in the transformed
    space; simulated likelihoods cost nothing but the expectation. *)
Theorem C75_marginal : forall g n,
  posterior (after_steps n (fun s => g (inv (fst s)))) =
  total (map (fun y => pi (inv y) * expect outsB pb (fun b => exp (ll (inv y) b)) * exp (- aj (inv y)) * g (inv y)) Ys).
Proof.
  intros g n. rewrite C75_invariant. unfold posterior. apply total_ext. intros y _. unfold density_at, target. cbn [fst snd].
  rewrite (expect_ext _ _ _ _ (fun b => (pi (inv y) * exp (- aj (inv y)) * g (inv y)) * exp (ll (inv y) b))) by (intros; ring). rewrite expect_scale. ring.
Qed.
(** the acceptance probability is a probability *)
Theorem C75_accept : forall s s', In (fst s) Ys -> In (fst s') Ys -> 0 < accept s s' <= 1.
Proof.
  intros s s' H H'. apply density_pos in H, H'. unfold accept. split; [|apply Rmin_l]. unfold Rmin. destruct (Rle_dec 1 (density_at s' / density_at s)); [lra|]. apply Rdiv_lt_0_compat; assumption.
Qed.
End Invariance.
Print Assumptions C75_step.
Print Assumptions C75_invariant.
Print Assumptions C75_marginal.
Print Assumptions C75_accept.

(** A case: positions 0, 1, 2 with a uniform prior, steps of -1 or +1, two equally likely simulations whose log likelihoods differ by the parameter. *)
Module Walk3.
Open Scope Z_scope.
Definition Ys : list Z := [0; 1; 2].
Definition inside (th : Z) : bool := (0 <=? th) && (th <=? 2).
Definition pi (th : Z) : R := if inside th then (1 / 3)%R else 0%R.
Definition outsA : list bool := [false; true].
Definition move (y : Z) (a : bool) : Z := if a then y + 1 else y - 1.
Definition ll (th : Z) (b : bool) : R := if b then IZR th else 0%R.
Definition half : bool -> R := fun _ => (1 / 2)%R.
(** generator: outcomes of proposal and simulation, and uniform numbers *)
Definition Rng := list (bool * bool * R).
Definition hd0 (r : Rng) := hd (false, false, 0%R) r.
Definition kupd (y : Z) (_ : unit) (r : Rng) : Rng * Z := (r, move y (fst (fst (hd0 r)))).
Definition simc (th : Z) (r : Rng) : Rng * option R := (r, Some (ll th (snd (fst (hd0 r))))).
Definition unif (r : Rng) : Rng * xr := (tl r, XR (snd (hd0 r))).
Definition setp (th cur : Z) : bool * Z := if inside th then (true, th) else (false, cur).
Definition fzero (x : xr) : bool := match x with XR v => if Req_EM_T v 0 then true else false | _ => false end.
Open Scope R_scope.
Lemma fzero_ok : forall x, fzero (XR x) = true <-> x = 0.
Proof. intros x. unfold fzero. destruct (Req_EM_T x 0); split; congruence. Qed.
Lemma law : Law outsA half.
Proof. split; [intros; unfold half; lra|]. unfold outsA, half, total. cbn. lra. Qed.
Lemma stays : forall y a, In y Ys -> In (move y a) Ys \/ pi (move y a) = 0.
Proof. intros y a [<-|[<-|[<-|[]]]]; destruct a; cbn; auto. Qed.
Lemma pos : forall y, In y Ys -> 0 < pi y.
Proof. intros y [<-|[<-|[<-|[]]]]; cbn; lra. Qed.
Lemma symmetric : forall y y', In y Ys -> In y' Ys -> leads Z bool Z.eq_dec move outsA half y y' = leads Z bool Z.eq_dec move outsA half y' y.
Proof. intros y y' [<-|[<-|[<-|[]]]] [<-|[<-|[<-|[]]]]; unfold leads, chance, expect, outsA, half, total; cbn; lra. Qed.
Lemma distinct : NoDup Ys.
Proof. unfold Ys. repeat (constructor; [cbn; lia|]). constructor. Qed.
(** expected parameter after any number of steps from the posterior: weights of 0, 1, 2 are 1/3, (1+e)/6, (1+e^2)/6 *)
Example expected : forall n, posterior Z bool (fun y => y) Ys pi (fun _ => 0) ll outsA half
    (after_steps Z bool bool (fun y => y) pi (fun _ => 0) move ll outsA outsA half half n (fun s => IZR (fst s))) = (1 + exp 1) / 6 + (1 + exp 2) / 3.
Proof.
  intros n. rewrite (C75_marginal Z bool bool Z.eq_dec (fun y => y) Ys pi (fun _ => 0) move ll outsA outsA half half distinct pos stays law law symmetric IZR n).
  unfold expect, Ys, outsA, half, total, pi, ll. cbn. rewrite Ropp_0, !exp_0. change (IZR 1) with 1. change (IZR 2) with 2. lra.
Qed.
(** a step of the code from 1: proposal 2 with the second simulation; accepted with probability 1 *)
Example step : exists c', mh_step Z Rng R xr unit xadd xsub xmul xdiv xexp xlt fzero setp (fun th _ => XR (pi th)) kupd simc XR (fun y => y) (fun _ => Ok (XR 0)) unif (fun _ => tt) 0 None 5
    (mkch Z Rng xr unit (point Z bool (fun y => y) pi (fun _ => 0) ll (1%Z, false)) 0 1 tt [] [] 1%Z [(true, true, 1 / 2)]) = Ok c' /\ c_trace Z Rng xr unit c' = [2%Z] /\ c_rng Z Rng xr unit c' = [].
Proof.
  destruct (C75_step Z Rng R unit bool bool fzero setp (fun th _ => XR (pi th)) kupd simc XR (fun y => y) (fun _ => Ok (XR 0)) unif (fun _ => tt) Ys pi (fun _ => 0) move ll fzero_ok (fun _ _ => eq_refl)
    ltac:(intros th cur H; unfold setp, pi in *; destruct (inside th); [reflexivity|lra]) (fun _ => eq_refl) pos stays
    0%nat None 5%nat (mkch Z Rng xr unit (point Z bool (fun y => y) pi (fun _ => 0) ll (1%Z, false)) 0 1 tt [] [] 1%Z [(true, true, 1 / 2)]) (1%Z, false) true [(true, true, 1 / 2)]
    ltac:(cbn; auto) ltac:(lia) eq_refl eq_refl) as [_ H].
  destruct (H ltac:(cbn; lra) true [(true, true, 1 / 2)] 2 [] (1 / 2) eq_refl eq_refl eq_refl ltac:(lra)) as (c' & E & _ & Er & _ & Et). exists c'. split; [exact E|]. split; [|exact Er].
  rewrite Et. destruct (Rlt_dec _ _) as [Hl|Hl]; [reflexivity|]. exfalso. apply Hl. unfold accept, density_at, target. cbn. rewrite !Ropp_0, !exp_0.
  apply Rmin_glb_lt; [lra|]. pose proof (exp_ineq1_le 2). replace (1 / 3 * exp 2 * 1 / (1 / 3 * 1 * 1)) with (exp 2) by field. lra.
Qed.
End Walk3.
