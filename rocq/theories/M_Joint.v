(** Joint distances and joint approximate likelihoods of several root models
    (abcpy/jointdistances.py 71-129, abcpy/jointapprox_lhd.py 53-131).
    A component (distance or approximate likelihood object) is a function of the two data sets of its root model
    that may raise; caching inside the components is the subject of M_Distance. Floats are extended reals. *)
From Coq Require Import Reals.
From Verif Require Import M_Base M_Num M_XReal M_MMD.
Open Scope R_scope.

Section Joint.
Variable D : Type.
Definition component : Type := D -> D -> res xr.
(** an argument [d1]: a Python list of data sets, or an object of another type *)
Inductive data := DList (l : list D) | DOther.

(** [LinearCombination.__init__] (jointdistances.py 80-105): the stored weights. The weights are numbers; [sum(weights)]
    is Python's built-in sum from 0 and the division by it is numpy's. *)
Definition linear_init (nmodels ndist : nat) (weights : option (list xr)) : res (list xr) :=
  if negb (nmodels =? ndist)%nat then Err ValueError
  else match weights with
       | None => Ok (repeat (xdiv (XR 1) (XR (INR ndist))) ndist)
       | Some w => if negb (ndist =? length w)%nat then Err ValueError
                   else Ok (map (fun x => xdiv x (fold_left xadd w (XR 0))) w)
       end.
(** the checks shared by the [distance], [likelihood] and [loglikelihood] methods (jointdistances.py 114-119;
    jointapprox_lhd.py 75-80, 112-117) *)
Definition check_data (d1 d2 : data) : res (list D * list D) :=
  match d1, d2 with
  | DOther, _ => Err TypeError
  | _, DOther => Err TypeError
  | DList l1, DList l2 => if negb (length l1 =? length l2)%nat then Err ValueError else Ok (l1, l2)
  end.
(** [self.parts[ind].f(d1[ind], d2[ind])] (jointdistances.py 122; jointapprox_lhd.py 84, 121) *)
Definition part (c : component) (l1 l2 : list D) (i : nat) : res xr :=
  match nth_error l1 i with
  | None => Err IndexError
  | Some a => match nth_error l2 i with None => Err IndexError | Some b => c a b end
  end.
(** the accumulating loop over [range(len(parts))]; [op acc i v] is the augmented assignment *)
Definition accumulate (op : xr -> nat -> xr -> res xr) (l1 l2 : list D) : list component -> nat -> xr -> res xr :=
  fix go (cs : list component) (i : nat) (acc : xr) : res xr :=
  match cs with
  | [] => Ok acc
  | c :: cs' => rthen (part c l1 l2 i) (fun v => rthen (op acc i v) (fun acc' => go cs' (S i) acc'))
  end.
Definition weighted (ws : list xr) (acc : xr) (i : nat) (v : xr) : res xr :=
  match nth_error ws i with None => Err IndexError | Some w => Ok (xadd acc (xmul w v)) end.
(** [LinearCombination.distance] (jointdistances.py 107-124) *)
Definition linear_distance (cs : list component) (ws : list xr) (d1 d2 : data) : res xr :=
  rthen (check_data d1 d2) (fun ll => accumulate (weighted ws) (fst ll) (snd ll) cs 0 (XR 0)).
(** [LinearCombination.dist_max] (jointdistances.py 126-130), from the [dist_max] values of the components *)
Fixpoint max_loop (ms ws : list xr) (acc : xr) : res xr :=
  match ms with
  | [] => Ok acc
  | m :: ms' => match ws with [] => Err IndexError | w :: ws' => max_loop ms' ws' (xadd acc (xmul w m)) end
  end.
Definition linear_max (ms ws : list xr) : res xr := max_loop ms ws (XR 0).
(** [ProductCombination.__init__], [SumCombination.__init__] (jointapprox_lhd.py 60-66, 97-103) *)
Definition approx_init (nmodels nlhd : nat) : res unit := if negb (nmodels =? nlhd)%nat then Err ValueError else Ok tt.
(** [ProductCombination.likelihood] (jointapprox_lhd.py 67-86) from the components' [likelihood] methods *)
Definition product_likelihood (cs : list component) (d1 d2 : data) : res xr :=
  rthen (check_data d1 d2) (fun ll => accumulate (fun acc _ v => Ok (xmul acc v)) (fst ll) (snd ll) cs 0 (XR 1)).
(** [SumCombination.loglikelihood] (104-123) from the components' [loglikelihood] methods *)
Definition sum_loglikelihood (cs : list component) (d1 d2 : data) : res xr :=
  rthen (check_data d1 d2) (fun ll => accumulate (fun acc _ v => Ok (xadd acc v)) (fst ll) (snd ll) cs 0 (XR 0)).
(** [SumCombination.likelihood] (125-126) *)
Definition sum_likelihood (cs : list component) (d1 d2 : data) : res xr :=
  rthen (sum_loglikelihood cs d1 d2) (fun v => Ok (xexp v)).
End Joint.
Arguments DList {D}. Arguments DOther {D}.
Arguments check_data {D}. Arguments part {D}. Arguments accumulate {D}.
Arguments linear_distance {D}. Arguments product_likelihood {D}. Arguments sum_loglikelihood {D}. Arguments sum_likelihood {D}.
