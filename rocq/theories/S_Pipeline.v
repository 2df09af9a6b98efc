(** Notions for learned statistics (C68). *)
From Coq Require Import Reals String List.
From Verif Require Import M_Base M_XReal M_Stats M_Pipeline.
Import ListNotations.
Open Scope R_scope.

(** the smallest and the largest of some numbers *)
Definition Extremes (l : list R) (lo hi : R) : Prop := In lo l /\ In hi l /\ Forall (fun x => lo <= x <= hi) l.
(** position of [x] between [lo] and [hi]; for a constant feature the distance to it *)
Definition position (lo hi x : R) : R := if Req_EM_T hi lo then x - lo else (x - lo) / (hi - lo).
(** the j-th component of every row *)
Definition feature (rows : list (list R)) (j : nat) : list R := map (fun r => nth j r 0) rows.
(** rows of real numbers as a matrix *)
Definition real_mat (w : nat) (rows : list (list R)) : mat := mkmat w (map (map XR) rows).
(** numbers that float32 represents *)
Definition Exact32 (f32 : R -> R) (m : mat) : Prop := Forall (Forall (fun x => forall r, x = XR r -> f32 r = r)) (mrows m).
(** a network that, in evaluation mode, computes [f] for each sample, whatever the other samples are *)
Definition Computes (c : nclass) (w : sdict) (f : list xr -> list xr) : Prop := forall rows, c_fwd c w false rows = map f rows.
(** numbers that belong to the class: the same names, once each, with the right shapes *)
Definition Fits (c : nclass) (w : sdict) : Prop := map (fun kt => (fst kt, fst (snd kt))) w = keys c /\ NoDup (map fst (keys c)).
(** division of a row by a row *)
Definition divided (a b : list xr) : list xr := map (fun ab => xdiv (fst ab) (snd ab)) (combine a b).
