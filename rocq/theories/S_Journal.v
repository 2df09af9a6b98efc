(** Vocabulary for the journal properties: histories of recorded items, Python indexing, weighted means. *)
From Verif Require Import M_Base M_Journal.

Section Hist.
Variables Name E S C D : Type.
Notation addop := (addop Name E S C D).
(** items of one kind recorded by a history, oldest first *)
Definition users (os : list addop) := flat_map (fun o => match o with AddUser l => [l] | _ => [] end) os.
Definition accs (os : list addop) := flat_map (fun o => match o with AddAcc x => [x] | _ => [] end) os.
Definition sims (os : list addop) := flat_map (fun o => match o with AddSim x => [x] | _ => [] end) os.
Definition covs (os : list addop) := flat_map (fun o => match o with AddCov x => [x] | _ => [] end) os.
Definition wts (os : list addop) := flat_map (fun o => match o with AddW x => [x] | _ => [] end) os.
Definition dsts (os : list addop) := flat_map (fun o => match o with AddDist x => [x] | _ => [] end) os.
Definition esss (os : list addop) := flat_map (fun o => match o with AddEss w => match ess_of w with Ok v => [v] | Err _ => [] end | _ => [] end) os.
End Hist.
Arguments users {Name E S C D} os.
Arguments accs {Name E S C D} os.
Arguments sims {Name E S C D} os.
Arguments covs {Name E S C D} os.
Arguments wts {Name E S C D} os.
Arguments dsts {Name E S C D} os.
Arguments esss {Name E S C D} os.

(** what a journal of type t keeps of a list of items: everything, or the last one *)
Definition kept {A} (t : nat) (l : list A) : list A :=
  if t =? 0 then match rev l with [] => [] | x :: _ => [x] end else l.
(** item at position i, counted from the end if i < 0 *)
Definition at_pos {A} (l : list A) (i : Z) : option A :=
  if (0 <=? i)%Z then nth_error l (Z.to_nat i) else nth_error (rev l) (Z.to_nat (- i - 1)).
Definition latest {A} (l : list A) : option A := nth_error (rev l) 0.
Definition or_index {A} (o : option A) : res A := match o with Some x => Ok x | None => Err IndexError end.
(** value of key k: the last pair with that key *)
Definition last_value {K V} (eqb : K -> K -> bool) (l : list (K * V)) (k : K) : option V :=
  option_map snd (find (fun kv => eqb k (fst kv)) (rev l)).

(** n samples of dimension d *)
Definition regular (rows : list (list Q)) (n d : nat) : Prop := length rows = n /\ Forall (fun r => length r = d) rows.
Definition between (lo hi x : Q) : Prop := (lo <= x /\ x <= hi)%Q.
(** equal averages *)
Definition same_avg (a b : avg) : Prop :=
  match a, b with
  | V0 x, V0 y => (x == y)%Q
  | V1 l, V1 l' => Forall2 Qeq l l'
  | _, _ => False
  end.
(** coordinate k of an average *)
Definition coord (a : avg) (k : nat) : option Q :=
  match a with V0 x => if k =? 0 then Some x else None | V1 l => nth_error l k end.

(** the item a getter hands out: position i of what is kept, or the last recorded one *)
Definition pick {A} (t : nat) (l : list A) (it : option Z) : option A :=
  match it with Some i => at_pos (kept t l) i | None => latest l end.

Section Sp.
Variables Name E S C D : Type.
Notation journal := (journal Name E S C D).
(** the iteration asked for, or the last one *)
Definition iter_of (j : journal) (it : option Z) : Z := match it with Some i => i | None => (Z.of_nat (length (j_names j)) - 1)%Z end.
(** samples, columns and weights of the last iteration fit together *)
Definition fits (j : journal) (rows : list (list E)) (nd : list (Name * list (list E))) (n : nat) : Prop :=
  latest (j_acc j) = Some rows /\ latest (j_names j) = Some nd
  /\ (exists w, latest (j_weights j) = Some w /\ length (wvals w) = n)
  /\ j_nsamples j = Some n /\ j_hasmodel j = true /\ 0 < n
  /\ length rows = n /\ NoDup (map fst nd)
  /\ (forall kc, In kc nd -> length (snd kc) = n /\ exists s, Forall (fun e => length e = s) (snd kc))
  /\ (forall i, i < n -> nth i rows [] = concat (map (fun kc => nth i (snd kc) []) nd)).

End Sp.
Arguments iter_of {Name E S C D} j it.
Arguments fits {Name E S C D} j rows nd n.

(** sum of w_i * x_i and sum of w_i *)
Fixpoint weighted_total (wx : list (Q * Q)) : Q := match wx with [] => 0 | (w, x) :: r => w * x + weighted_total r end%Q.
Fixpoint total (ws : list Q) : Q := match ws with [] => 0 | w :: r => w + total r end%Q.
