(** What a Metropolis-Hastings run is. *)
From Verif Require Import M_Base M_MCMC.
Open Scope nat_scope.

(** a proposal is outside the prior, rejected, or accepted *)
Inductive verdict := Outside | Rejected | Accepted.
Definition veqb (a b : verdict) : bool := match a, b with Outside, Outside | Rejected, Rejected | Accepted, Accepted => true | _, _ => false end.
(** number of entries with the given verdict *)
Definition tally (v : verdict) (l : list verdict) : nat := length (filter (veqb v) l).

Section Spec.
Variables Theta Rng Y F Cov : Type.
Variables fadd fsub fmul fdiv : F -> F -> F.
Variable fexp : F -> F.
Variable flt : F -> F -> bool.
Variable fzero : F -> bool.
Variable setp : Theta -> Theta -> bool * Theta.
Variable pdfv : Theta -> Theta -> F.
Variable kupd : Theta -> Cov -> Rng -> Rng * Theta.
Variable simc : Theta -> Rng -> Rng * option Y.
Variable loglik : Y -> F.
Variable inv : Theta -> Theta.
Variable ldj : Theta -> res F.
Variable unif : Rng -> Rng * F.
Variable adapt : list Theta -> Cov.
Notation pt := (pt Theta F).
Notation th := (q_th Theta F).
Notation y := (q_tr Theta F).
Notation ll := (q_ll Theta F).
Notation pdf := (q_pdf Theta F).
Notation jac := (q_ldj Theta F).

(** l is the log likelihood of data simulated from th0 (or from what a refused assignment of it left) *)
Definition LogLik (th0 : Theta) (l : F) : Prop := exists c r r' d, simc c r = (r', Some d) /\ l = loglik d /\ (c = th0 \/ exists c0, setp th0 c0 = (false, c)).
(** s' is a possible proposal from s: perturbed in the transformed space, mapped back, with non-zero prior density *)
Definition Candidate (cov : Cov) (s s' : pt) : Prop :=
  exists r r' c, kupd (y s) cov r = (r', y s') /\ th s' = inv (y s') /\ pdf s' = pdfv (th s') c /\ fzero (pdf s') = false /\ LogLik (th s') (ll s') /\ ldj (th s') = Ok (jac s').
(** accepted when a uniform number is below  exp(jac s - jac s' + ll s' - ll s) * pdf s' / pdf s *)
Definition accepts (s s' : pt) (u : F) : bool := flt u (fdiv (fmul (fexp (fsub (fadd (fsub (jac s) (jac s')) (ll s')) (ll s))) (pdf s')) (pdf s)).
Inductive Move (cov : Cov) : pt -> verdict -> pt -> Prop :=
| mv_out s r r' y' c : kupd (y s) cov r = (r', y') -> fzero (pdfv (inv y') c) = true -> Move cov s Outside s
| mv_rej s s' r r' u : Candidate cov s s' -> unif r = (r', u) -> accepts s s' u = false -> Move cov s Rejected s
| mv_acc s s' r r' u : Candidate cov s s' -> unif r = (r', u) -> accepts s s' u = true -> Move cov s Accepted s'.
(** steps t, t+1, ... of a run; the covariance is adapted to the burn-in states so far, as they are in the original space, at every
    interval-th burn-in step unless the proposal was outside the prior *)
Inductive Walk (burnin : nat) (interval : option nat) : nat -> pt -> Cov -> list Theta -> list (verdict * pt) -> Cov -> Prop :=
| wk_nil t s cov burn : Walk burnin interval t s cov burn [] cov
| wk_cons t s cov burn v s' cov' l covN : Move cov s v s' ->
    cov' = (if (t <? burnin) && negb (veqb v Outside) && match interval with None => false | Some k => (t + 1) mod k =? 0 end then adapt (burn ++ [th s']) else cov) ->
    Walk burnin interval (S t) s' cov' (if t <? burnin then burn ++ [th s'] else burn) l covN ->
    Walk burnin interval t s cov burn ((v, s') :: l) covN.
End Spec.
Arguments LogLik {Theta Rng Y F} setp simc loglik th0 l.
Arguments Candidate {Theta Rng Y F Cov} fzero setp pdfv kupd simc loglik inv ldj cov s s'.
Arguments accepts {Theta F} fadd fsub fmul fdiv fexp flt s s' u.
Arguments Move {Theta Rng Y F Cov} fadd fsub fmul fdiv fexp flt fzero setp pdfv kupd simc loglik inv ldj unif cov _ _ _.
Arguments Walk {Theta Rng Y F Cov} fadd fsub fmul fdiv fexp flt fzero setp pdfv kupd simc loglik inv ldj unif adapt burnin interval _ _ _ _ _ _.
