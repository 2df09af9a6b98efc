(** The memoising decorator [cached] (abcpy/utils.py 7-16). *)
From Verif Require Import M_Base.

Section Cached.
Variables (K V St : Type).
(** equality of arguments as a dictionary decides it; [hash x] succeeds *)
Variable keq : K -> K -> bool.
Variable hashable : K -> bool.
(** the decorated function: it may raise and may read and change a state *)
Variable func : K -> St -> res V * St.

Fixpoint lookup (c : list (K * V)) (x : K) : option V :=
  match c with [] => None | (k, v) :: c' => if keq k x then Some v else lookup c' x end.
(** [wrapped] (10-14): the result, the dictionary, the state and the arguments on which [func] was evaluated. Asking
    whether an unhashable argument is in the dictionary raises TypeError. *)
Definition wrapped (x : K) (c : list (K * V)) (s : St) : res V * list (K * V) * St * list K :=
  if negb (hashable x) then (Err TypeError, c, s, [])
  else match lookup c x with
       | Some v => (Ok v, c, s, [])
       | None => match func x s with
                 | (Ok v, s') => (Ok v, (x, v) :: c, s', [x])
                 | (Err e, s') => (Err e, c, s', [x])
                 end
       end.
(** a sequence of calls, starting from a dictionary; results and evaluations in order *)
Fixpoint calls (xs : list K) (c : list (K * V)) (s : St) : list (res V) * list K :=
  match xs with
  | [] => ([], [])
  | x :: xs' => let '(r, c', s', ev) := wrapped x c s in
                let '(rs, evs) := calls xs' c' s' in (r :: rs, ev ++ evs)
  end.
(** [cache = {}] (8) *)
Definition use (xs : list K) (s : St) : list (res V) * list K := calls xs [] s.
End Cached.
Arguments lookup {K V}. Arguments wrapped {K V St}. Arguments calls {K V St}. Arguments use {K V St}.
