(** Distances: the cache of the observed statistics and the Euclidean distance (/repo/abcpy/distances.py, /repo/abcpy/approx_lhd.py).
    Data sets are Python lists, identified by an address; their contents are in a heap, so that a caller may change a list in place. *)
From Coq Require Import Reals.
From Verif Require Import M_Base M_Num M_XReal M_Stats.
Open Scope nat_scope.

(** == on floats *)
Definition xeqb (a b : xr) : bool :=
  match a, b with
  | XR x, XR y => if Req_EM_T x y then true else false
  | XInf, XInf | XNInf, XNInf => true
  | _, _ => false
  end.
(** np.array(d).reshape(-1,) *)
Definition arr (d : datum) : list xr := match d with Num x => [x] | Vec l => l end.
Fixpoint eqs (a b : list xr) : bool := match a, b with x :: a', y :: b' => xeqb x y && eqs a' b' | _, _ => true end.

(** (np.array(a) == np.array(b)).all() with broadcasting; arrays whose shapes do not fit compare to the Python value False, which has no
    method all (numpy before 1.25; later versions raise a ValueError here) *)
Definition all_same (a b : datum) : res bool :=
  let x := arr a in let y := arr b in
  if length x =? length y then Ok (eqs x y)
  else match x, y with
       | [u], _ => Ok (forallb (xeqb u) y)
       | _, [v] => Ok (forallb (fun u => xeqb u v) x)
       | _, _ => Err AttributeError
       end.
(** [all([... for i in range(len(d1))])]: the list is built in full before [all] looks at it *)
Fixpoint all_branch (d0 d1 : list datum) : res bool :=
  match d0, d1 with
  | a :: d0', b :: d1' =>
      match all_same a b with
      | Err e => Err e
      | Ok t => match all_branch d0' d1' with Err e => Err e | Ok t' => Ok (t && t') end
      end
  | _, _ => Ok true
  end.
(** bool(a == b) for two elements of the lists: arrays of two or more numbers have no truth value, an empty one counts as False *)
Definition truth (a b : datum) : res bool :=
  let x := arr a in let y := arr b in
  match x, y with
  | [u], [v] => Ok (xeqb u v)
  | [], [] | [_], [] | [], [_] => Ok false
  | [_], _ | _, [_] => Err ValueError
  | _, _ => if length x =? length y then Err ValueError else Ok false
  end.
(** [data_set == d1] for two different lists of the same length: stops at the first pair that differs.  Two lists sharing an element
    object that is not equal to itself (NaN) compare equal in Python and different here; the statistics are then recomputed. *)
Fixpoint list_branch (d0 d1 : list datum) : res bool :=
  match d0, d1 with
  | a :: d0', b :: d1' => match truth a b with Err e => Err e | Ok true => list_branch d0' d1' | Ok false => Ok false end
  | _, _ => Ok true
  end.

Definition heap := nat -> list datum.
(** distances.py 115-122, approx_lhd.py 99-107: is the list at [a] the data set stored (by reference) from the list at [ds]? *)
Definition compare (h : heap) (ds a : nat) : res bool :=
  if negb (length (h a) =? length (h ds)) then Ok false
  else match h a with
       | [] => Err IndexError
       | x :: _ =>
           if length (arr x) =? 1 then (if ds =? a then Ok true else list_branch (h ds) (h a))
           else all_branch (h ds) (h a)
       end.

(** distances.py 30-34: s1, data_set, dataSame (approx_lhd.py 28-32: stat_obs) *)
Record cache := mkcache { c_s1 : option mat; c_ref : option nat; c_same : bool }.
Definition fresh_cache : cache := mkcache None None false.

Section Cache.
(** statistics_calc.statistics on a list *)
Variable stat : list datum -> res mat.
(** An argument: the address of a list, or something that is not a list. *)
Definition arg := option nat.

(** distances.py 94-138 [_calculate_summary_stat]; approx_lhd.py 76-122 has the same code with other names *)
Definition calc (h : heap) (a1 a2 : arg) (c : cache) : cache * res (mat * mat) :=
  match a1, a2 with
  | None, _ | _, None => (c, Err TypeError)
  | Some p1, Some p2 =>
      match (match c_ref c with None => Ok (c_same c) | Some ds => compare h ds p1 end) with
      | Err e => (c, Err e)
      | Ok same =>
          let c1 := mkcache (c_s1 c) (c_ref c) same in
          let step :=
            match c_s1 c, same with
            | Some s, true => Ok (s, c1)
            | _, _ => match stat (h p1) with Err e => Err e | Ok s => Ok (s, mkcache (Some s) (Some p1) same) end
            end in
          match step with
          | Err e => (c1, Err e)
          | Ok (s1, c2) =>
              match stat (h p2) with
              | Err e => (c2, Err e)
              | Ok s2 => (c2, if negb (mcols s1 =? mcols s2) then Err ValueError else Ok (s1, s2))
              end
          end
      end
  end.

(** A call of distance or loglikelihood whose value is a function [f] of the two statistics (LogReg, SlicedWasserstein and the likelihoods with
    their own random state are not of this form). *)
Definition call {V} (f : mat -> mat -> res V) (h : heap) (a1 a2 : arg) (c : cache) : cache * res V :=
  match calc h a1 a2 c with
  | (c', Err e) => (c', Err e)
  | (c', Ok (s1, s2)) => (c', f s1 s2)
  end.
(** A history of calls on one object; the heap may change between calls. *)
Fixpoint calls {V} (f : mat -> mat -> res V) (hist : list (heap * arg * arg)) (c : cache) : list (res V) :=
  match hist with
  | [] => []
  | (h, a1, a2) :: rest => let '(c', r) := call f h a1 a2 c in r :: calls f rest c'
  end.
End Cache.

(** distances.py 166-193 [Euclidean.distance] *)
Definition ediff (x y : list xr) : xr := xsqrt (xsum (map (fun ab => xpow (xsub (fst ab) (snd ab)) 2) (combine x y))).
Definition euclid (s1 s2 : mat) : res xr := Ok (xmean (flat_map (fun x => map (ediff x) (mrows s2)) (mrows s1))).
(** distances.py 195-202 [dist_max] *)
Definition euclid_max : xr := XInf.
