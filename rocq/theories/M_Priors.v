(** Prior distributions: abcpy/discretemodels.py (all classes) and Uniform (8-119), Normal (122-215), StudentT (218-312), LogNormal (587-681), Exponential
    (684-773) of abcpy/continuousmodels.py.  Floats are extended reals without rounding.  Library contracts: scipy.special.comb is n!/(k!(n-k)!), and 0 for a
    negative or too large k; the scipy densities are 0 off the support and NaN for refused parameters; Generator.uniform(a,b) is a+(b-a)u with u in [0,1),
    randint(a,b) is a+d with d below b-a, binomial(n,p) counts the successes among n uniform numbers below p (numpy draws from the same law by other
    algorithms), exponential(s) is -s log(1-u), normal(m,s) is m+s g and lognormal its exponential. *)
From Coq Require Import Reals Binomial Rtrigo1.
From Verif Require Import M_Base M_Num M_XReal M_Transform M_MMD M_Stats.
Open Scope R_scope.

(** a number: Python int, numpy integer of a width, Python float or numpy float *)
Inductive pyv := PyInt (z : Z) | NpInt (w : nat) (z : Z) | PyFlt (x : xr) | NpFlt (x : xr).
Definition val (v : pyv) : xr := match v with PyInt z | NpInt _ z => XR (IZR z) | PyFlt x | NpFlt x => x end.
(** isinstance(v, (int, np.int32, np.int64)); isinstance(v, (int, np.int64, np.int32, np.int16)) *)
Definition is_int (v : pyv) : bool := match v with PyInt _ | NpInt 32 _ | NpInt 64 _ => true | _ => false end.
Definition is_int16 (v : pyv) : bool := match v with NpInt 16 _ => true | _ => is_int v end.
Definition x0 : xr := XR 0.
Definition x1 : xr := XR 1.
(** the integer an extended real is equal to, if any *)
Definition as_int (x : xr) : option Z := match x with XR r => if Req_EM_T r (IZR (Int_part r)) then Some (Int_part r) else None | _ => None end.
(** int(x): towards zero; ValueError for NaN, and for an infinity (Python: OverflowError) *)
Definition to_int (v : pyv) : res Z :=
  match v with
  | PyInt z | NpInt _ z => Ok z
  | PyFlt (XR r) | NpFlt (XR r) => Ok (if Rlt_dec r 0 then (- Int_part (- r))%Z else Int_part r)
  | _ => Err ValueError
  end.
(** [isinstance(parameters[0], (int, np.int32, np.int64))]: _check_output of the four discrete models (44-50, 151-154, 241-244, 325-331) *)
Definition discrete_check_output (ps : list pyv) : res bool := match ps with [] => Err IndexError | v :: _ => Ok (is_int v) end.

(** ** Bernoulli (discretemodels.py 8-95) *)
(* 31-42 *)
Definition bern_check_input (vs : list pyv) : res bool :=
  if (1 <? length vs)%nat then Ok false
  else match vs with [] => Err IndexError | p :: _ => Ok (negb (xlt (val p) x0 || xlt x1 (val p))) end.
(* 75-95  scipy.stats.bernoulli(p).pmf(x) *)
Definition bern_pmf (p x : pyv) : xr :=
  if negb (xle x0 (val p) && xle (val p) x1) then XNaN
  else match as_int (val x) with
       | Some 0%Z => xsub x1 (val p)
       | Some 1%Z => val p
       | _ => x0
       end.

(** ** Binomial (98-204) *)
(* 127-149 *)
Definition binom_check_input (vs : list pyv) : res bool :=
  match vs with
  | [n; p] => if negb (is_int n) then Err TypeError
              else if xlt (val p) x0 || xlt x1 (val p) then Ok false
              else if xlt (val n) x0 then Ok false else Ok true
  | _ => Err TypeError
  end.
(** pow(p, k) for an integer k: a zero Python number to a negative power raises, a numpy float gives infinity, a numpy integer refuses negative powers *)
Definition pypowz (p : pyv) (k : Z) : res xr :=
  if (0 <=? k)%Z then Ok (xpow (val p) (Z.to_nat k))
  else match p with
       | NpInt _ _ => Err ValueError
       | NpFlt _ => Ok (xdiv x1 (xpow (val p) (Z.to_nat (- k))))
       | _ => match val p with
              | XR r => match rsign r with None => Err ZeroDivisionError | _ => Ok (xdiv x1 (xpow (XR r) (Z.to_nat (- k)))) end
              | v => Ok (xdiv x1 (xpow v (Z.to_nat (- k))))
              end
       end.
Definition comb (n k : Z) : R := if ((k <? 0) || (n <? k))%Z%bool then 0 else C (Z.to_nat n) (Z.to_nat k).
(* 182-204, for an integer n (others are refused by _check_input) *)
Definition binom_pmf (n : Z) (p x : pyv) : res xr :=
  rthen (to_int x) (fun k =>
  if (n <? k)%Z then Ok x0
  else rthen (pypowz p k) (fun a => Ok (xmul (xmul (XR (comb n k)) a) (xpow (xsub x1 (val p)) (Z.to_nat (n - k)))))).

(** ** Poisson (207-292) *)
(* 229-239 *)
Definition poisson_check_input (vs : list pyv) : res bool :=
  if (1 <? length vs)%nat then Ok false else match vs with [] => Err IndexError | m :: _ => Ok (negb (xlt (val m) x0)) end.
(* 271-292  poisson(int(mean)).pmf(x) *)
Definition poisson_pmf (mean x : pyv) : res xr :=
  rthen (to_int mean) (fun m =>
  if (m <? 0)%Z then Ok XNaN
  else Ok match as_int (val x) with
          | Some k => if (k <? 0)%Z then x0 else XR (IZR m ^ Z.to_nat k * exp (- IZR m) / INR (fact (Z.to_nat k)))
          | None => x0
          end).

(** ** DiscreteUniform (295-385) *)
(* 311-323 *)
Definition du_check_input (vs : list pyv) : res bool :=
  match vs with
  | [lo; hi] => Ok (is_int16 lo && is_int16 hi && negb (xle (val hi) (val lo)))
  | _ => Err ValueError
  end.
(* 362-385 *)
Definition du_pmf (lo hi : Z) (x : pyv) : xr :=
  if xle (XR (IZR lo)) (val x) && xle (val x) (XR (IZR hi)) then XR (1 / IZR (hi - lo + 1)) else x0.

(** ** Samplers (52-71, 156-178, 246-267, 333-358): k arrays with one entry each.  [u]: uniform numbers, [d]: uniform integers; each sample uses its own *)
Section Samples.
Variable u : nat -> nat -> R.
Definition successes (p : R) (i n : nat) : nat := length (filter (fun j => if Rlt_dec (u i j) p then true else false) (seq 0 n)).
Definition np_binomial (n : Z) (p : xr) (k : nat) : res (list Z) :=
  if (n <? 0)%Z then Err ValueError
  else match p with
       | XR r => if Rlt_dec r 0 then Err ValueError else if Rlt_dec 1 r then Err ValueError
                 else Ok (map (fun i => Z.of_nat (successes r i (Z.to_nat n))) (seq 0 k))
       | _ => Err ValueError
       end.
Definition arrays {A} (r : res (list A)) : res (list (list A)) := rthen r (fun l => Ok (map (fun x => [x]) l)).
Definition bern_sample (p : pyv) (k : nat) : res (list (list Z)) := arrays (np_binomial 1 (val p) k).
Definition binom_sample (n : Z) (p : pyv) (k : nat) : res (list (list Z)) := arrays (np_binomial n (val p) k).
(** randint(lo, hi + 1): [d i m] is an integer below m *)
Variable d : nat -> nat -> nat.
Definition du_sample (lo hi : Z) (k : nat) : res (list (list Z)) :=
  if (hi + 1 <=? lo)%Z then Err ValueError
  else arrays (Ok (map (fun i => (lo + Z.of_nat (d i (Z.to_nat (hi - lo + 1))))%Z) (seq 0 k))).
(** rng.poisson(m): any natural number when m > 0, 0 when m = 0 *)
Variable pois : nat -> Z -> nat.
Definition poisson_sample (mean : pyv) (k : nat) : res (list (list Z)) :=
  rthen (to_int mean) (fun m =>
  if (m <? 0)%Z then Err ValueError else arrays (Ok (map (fun i => if (m =? 0)%Z then 0%Z else Z.of_nat (pois i m)) (seq 0 k)))).
End Samples.

(** ** Uniform (continuousmodels.py 8-119) *)
(* 40-51; [dim] is the length of the first list *)
Definition uni_check_input (dim : nat) (vs : list xr) : res bool :=
  if negb (length vs mod 2 =? 0)%nat then Ok false
  else (fix go (js : list nat) : res bool :=
          match js with
          | [] => Ok true
          | j :: js' =>
              match nth_error vs j, nth_error vs (j + dim) with
              | Some a, Some b => if xlt b a then Ok false else go js'
              | _, _ => Err IndexError
              end
          end) (seq 0 dim).
(* 9-38, for bounds that are fixed numbers; [parameters = None] stands for an argument that is not a list.  The result is the dimension and the input
   values *)
Inductive bound := BList (l : list xr) | BNum (x : xr).
Definition uni_init (parameters : option (list bound)) : res (nat * list xr) :=
  match parameters with
  | None => Err TypeError
  | Some ps =>
      match ps with
      | p0 :: p1 :: rest =>
          match p0, p1 with
          | BNum _, _ | _, BNum _ => Err TypeError
          | BList l, BList h =>
              if negb (length l =? length h)%nat then Err ValueError
              else let vs := l ++ h ++ concat (map (fun o => match o with BList x => x | BNum x => [x] end) rest) in
                   match uni_check_input (length l) vs with
                   | Ok true => Ok (length l, vs)
                   | Ok false => Err ValueError
                   | Err e => Err e
                   end
          end
      | _ => Err ValueError
      end
  end.
(* 53-64; [vs] are the values of the parents *)
Definition uni_check_output (dim : nat) (vs ps : list xr) : res bool :=
  (fix go (js : list nat) : res bool :=
     match js with
     | [] => Ok true
     | j :: js' =>
         match nth_error vs j, nth_error vs (j + dim), nth_error ps j with
         | Some a, Some b, Some p => if xlt p a || xlt b p then Ok false else go js'
         | _, _, _ => Err IndexError
         end
     end) (seq 0 dim).
(** binary operations of numpy on one-dimensional arrays, with broadcasting of arrays of length 1 *)
Definition bc {A B C} (f : A -> B -> C) (a : list A) (b : list B) : res (list C) :=
  if (length a =? length b)%nat then Ok (map (fun ab => f (fst ab) (snd ab)) (combine a b))
  else match a, b with
       | [x], _ => Ok (map (f x) b)
       | _, [y] => Ok (map (fun x => f x y) a)
       | _, _ => Err ValueError
       end.
Definition xprod (l : list xr) : xr := fold_left xmul l x1.
(* 93-119; np.product, a former name of np.prod *)
Definition uni_pdf (dim : nat) (vs x : list xr) : res xr :=
  let lo := firstn dim vs in let hi := skipn dim vs in
  rthen (bc (fun v a => xle a v) x lo) (fun ge => rthen (bc (fun v b => xle v b) x hi) (fun le => rthen (bc andb ge le) (fun inside =>
  if forallb (fun b => b) inside then rthen (bc xsub hi lo) (fun widths => Ok (xdiv x1 (xprod widths))) else Ok x0))).
(* 66-88: column j of the array holds k numbers drawn together; [u i j] is the uniform number for sample i, component j *)
Section USample.
Variable u : nat -> nat -> R.
Definition uni_sample (dim : nat) (vs : list xr) (k : nat) : list (list xr) :=
  map (fun i => map (fun j => xadd (nth j vs XNaN) (xmul (xsub (nth (j + dim) vs XNaN) (nth j vs XNaN)) (XR (u i j)))) (seq 0 dim)) (seq 0 k).
End USample.

(** ** Normal, LogNormal, Exponential, StudentT *)
(* 147-156, 613-622: [mu; sigma]; 267-277 (StudentT): [mean; df] *)
Definition second_positive (vs : list xr) : bool := match vs with [_; s] => negb (xle s x0) | _ => false end.
(* 709-718 *)
Definition expo_check_input (vs : list xr) : bool := match vs with [r] => negb (xle r x0) | _ => false end.
(** scipy's norm(mu, sigma).pdf, lognorm(s, scale).pdf, expon(scale).pdf at finite arguments with sigma > 0 *)
Definition phi (z : R) : R := exp (- (z * z) / 2) / sqrt (2 * PI).
(* 193-215 *)
Definition normal_pdf (mu sigma x : R) : R := phi ((x - mu) / sigma) / sigma.
(* 659-681: lognorm(scale=exp(mu), s=sigma), density phi(log y / s) / (s y) at y = x / scale, divided by the scale *)
Definition lognormal_pdf (mu sigma x : R) : R :=
  if Rlt_dec 0 x then phi (ln (x / exp mu) / sigma) / (sigma * (x / exp mu)) / exp mu else 0.
(* 755-773: scale = 1/rate *)
Definition expo_pdf (rate x : R) : R := let scale := 1 / rate in if Rle_dec 0 x then exp (- (x / scale)) / scale else 0.
(* 164-186, 630-652, 726-748: one sample for one random number *)
Definition normal_draw (mu sigma g : R) : R := mu + sigma * g.
Definition lognormal_draw (mu sigma g : R) : R := exp (mu + sigma * g).
Definition expo_draw (rate u : R) : R := let scale := 1 / rate in - scale * ln (1 - u).
(* 290-312 StudentT.pdf; [x -= input_values[0]] changes the caller's array in place: the result is the density and the new contents of the array.
   [gam] is scipy's gamma function. *)
Section Student.
Variable gam : R -> R.
Definition student_kernel (df t : R) : R := gam ((df + 1) / 2) / (sqrt (df * PI) * gam (df / 2) * Rpower (1 + t * t / df) ((df + 1) / 2)).
Definition student_pdf (mean df : R) (x : list R) : list R * list R :=
  let x' := map (fun t => t - mean) x in (map (student_kernel df) x', x').
End Student.
