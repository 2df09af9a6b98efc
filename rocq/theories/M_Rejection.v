(** Model of abcpy/inferences.py, class RejectionABC (427-707). *)
From Verif Require Import M_Base M_Num M_Journal.

Section Rejection.
(** random generators, simulated data, entries of a parameter vector, parameter names *)
Variables Rng Y E Name : Type.
Variable neqb : Name -> Name -> bool.
(** sample_from_prior followed by get_parameters; simulate (None when the simulator fails); RandomState(seed) *)
Variable prior : Rng -> Rng * list E.
Variable sim : list E -> Rng -> Rng * option Y.
Variable mkrng : Z -> Rng.
(** distance to the observations; dist_max() *)
Variable dist : Y -> num.
Variable dist_max : num.
(** name and column of every parameter, see C50 *)
Variable cols : list (Name * (list E -> E)).

(* inferences.py:692-703  one pass of the loop: new generator state, parameters, distance *)
Definition attempt (r : Rng) : Rng * list E * num :=
  let '(r1, theta) := prior r in
  let '(r2, y) := sim theta r1 in
  (r2, theta, match y with Some y => dist y | None => dist_max end).
(* inferences.py:690-707  while distance > epsilon; theta is unbound if the loop is never entered *)
Fixpoint sp_loop (eps : num) (fuel : nat) (r : Rng) (theta : option (list E)) (d : num) (counter : nat) : res (list E * num * nat) :=
  if nlt eps d then
    match fuel with
    | 0 => Err OutOfFuel
    | S f => let '(r', theta', d') := attempt r in sp_loop eps f r' (Some theta') d' (S counter)
    end
  else match theta with Some th => Ok (th, d, counter) | None => Err UnboundLocalError end.
(* inferences.py:667-707 *)
Definition sample_parameter (eps : num) (fuel : nat) (r : Rng) : res (list E * num * nat) := sp_loop eps fuel r None dist_max 0.

Definition jrn := journal Name E unit unit (list num).
(** fields of the journal set directly by the schemes *)
Definition with_conf (j : jrn) (nsim : list nat) (nsamples : option nat) (hasmodel : bool) : jrn :=
  mkj (jtype j) (j_acc j) (j_names j) (j_sims j) (j_covs j) (j_weights j) (j_ess j) (j_dists j) nsim nsamples hasmodel.
Definition ones (n : nat) : arr := Col (repeat 1%Q n).
Definition named (rows : list (list E)) : list (Name * list (list E)) := map (fun c => (fst c, map (fun row => [snd c row]) rows)) cols.

(* inferences.py:566-603.  [seeds] is what randint(1, n*n, size=n, dtype=int32) returned; it raises ValueError when the range is empty
   or does not fit.  The backend maps _sample_parameter (C09).  [counter0] is self.simulation_counter. *)
Definition sample_n_samples_epsilon (eps : num) (n : nat) (seeds : list Z) (fuel counter0 : nat) (j : jrn) : res jrn :=
  if ((Z.of_nat n * Z.of_nat n <=? 1) || (2 ^ 31 <? Z.of_nat n * Z.of_nat n))%Z then Err ValueError
  else match mapR (fun seed => sample_parameter eps fuel (mkrng seed)) seeds with
       | Err e => Err e
       | Ok results =>
           let rows := map (fun r => fst (fst r)) results in
           let ds := map (fun r => snd (fst r)) results in
           let total := fold_left (fun a r => a + snd r) results counter0 in
           let j1 := adds neqb j [AddAcc rows; AddW (ones n); AddEss (ones n); AddDist ds; AddUser (named rows)] in
           Ok (with_conf j1 (j_nsim j ++ [total]) (j_nsamples j) (j_hasmodel j))
       end.

(* inferences.py:605-665; [threshold] is only read when [q] is None *)
Definition journal_cleanup (j : jrn) (q : option Q) (threshold : num) : res jrn :=
  match pyget (j_dists j) (-1) with Err e => Err e | Ok ds =>
  match (match q with Some q => quantile ds q | None => Ok threshold end) with Err e => Err e | Ok cutoff =>
  let picked := filter (fun i => nlt (nth i ds NaN) cutoff) (seq 0 (length ds)) in
  if Nat.eqb (length picked) 0 then Err RuntimeError
  else match new (jtype j) with Err e => Err e | Ok j0 =>
  match get_accepted_parameters j None with Err e => Err e | Ok acc =>
  match get_parameters j None with Err e => Err e | Ok params =>
  match mapR (fun i => pyget acc (Z.of_nat i)) picked with Err e => Err e | Ok rows =>
  match mapR (fun kc => match mapR (fun i => pyget (snd kc) (Z.of_nat i)) picked with Ok c => Ok (fst kc, c) | Err e => Err e end) params with Err e => Err e | Ok nd =>
  let k := length picked in
  let j1 := adds neqb j0 [AddAcc rows; AddW (ones k); AddEss (ones k); AddDist (map (fun i => nth i ds NaN) picked); AddUser nd] in
  match pyget (j_nsim j) (-1) with Err e => Err e | Ok ns => Ok (with_conf j1 [ns] (Some k) false) end
  end end end end end end end.

(* 1.7976931348623157e+308, the largest double: (2^53 - 1) * 2^971 *)
Definition max_double : Q := inject_Z ((2 ^ 53 - 1) * 2 ^ 971).
(* inferences.py:465-564  sample; [seeds] has n_samples (or simulation_budget) entries *)
Definition sample (n_samples budget : option nat) (epsilon : option num) (q : option Q) (full_output : nat)
    (seeds : list Z) (fuel counter0 : nat) : res jrn :=
  let is_none {A} (o : option A) := match o with None => true | Some _ => false end in
  if Bool.eqb (is_none n_samples) (is_none budget) then Err RuntimeError
  else if negb (is_none n_samples) && negb (is_none q) then Err RuntimeError
  else if negb (is_none n_samples) && is_none epsilon then Err RuntimeError
  else if negb (is_none budget) && Bool.eqb (is_none q) (is_none epsilon) then Err RuntimeError
  else match new full_output with Err e => Err e | Ok j0 =>
       let j := with_conf j0 (j_nsim j0) n_samples true in
       let eps := match epsilon with Some e => e | None => NaN end in
       match n_samples, budget with
       | _, Some b => match sample_n_samples_epsilon (Fin max_double) b seeds fuel counter0 j with
                      | Err e => Err e
                      | Ok j1 => journal_cleanup j1 q eps
                      end
       | Some n, None => sample_n_samples_epsilon eps n seeds fuel counter0 j
       | None, None => Err RuntimeError
       end
  end.
End Rejection.
