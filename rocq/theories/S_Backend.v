(** Spec for C82: drivers that do not depend on how a backend holds their lists. *)
From Verif Require Import M_Base M_Spark.

Section Safe.
Variables X St : Type.
(** what a driver does: t = map(f, p) is always followed at once by o = collect(t) *)
Inductive step := SPar (o p : nat) | SRun (f : task X St) (p t o : nat) | SBcast (o b : nat) | SPut (o k : nat) (x : X) | SUpd (u : St -> St).
Definition cmds (s : step) : list (cmd X St) :=
  match s with
  | SPar o p => [Parallelize o p]
  | SRun f p t o => [Map f p t; Collect t o]
  | SBcast o b => [Broadcast o b]
  | SPut o k x => [Put o k x]
  | SUpd u => [Update u]
  end.
Definition program (l : list step) : list (cmd X St) := concat (map cmds l).
(** for each data set or broadcast data set: the variable that still holds its list, if any, and has that list been changed since *)
Record track := mktr { k_of : nat -> option nat; k_stale : nat -> bool }.
Definition isv (o : nat) (v : option nat) : bool := match v with Some o' => o' =? o | None => false end.
Definition taken (o i : nat) (t : track) : track := mktr (upd (k_of t) i (Some o)) (upd (k_stale t) i false).
Definition changed (o : nat) (t : track) : track := mktr (k_of t) (fun i => k_stale t i || isv o (k_of t i)).
Definition reassigned (o : nat) (t : track) : track := mktr (fun i => if isv o (k_of t i) then None else k_of t i) (k_stale t).
(** a driver is safe if it maps over no data set whose list has been changed, nor over the result of another map, and its tasks read no broadcast data set whose list has been changed *)
Fixpoint safe (tp tb : track) (l : list step) : Prop :=
  match l with
  | [] => True
  | SPar o p :: l' => safe (taken o p tp) tb l'
  | SRun f p t o :: l' =>
      k_stale tp p = false /\ (forall e e', (forall b, k_stale tb b = false -> e b = e' b) -> forall x s, f e x s = f e' x s) /\
      safe (let r := reassigned o tp in mktr (upd (k_of r) t (Some o)) (upd (k_stale r) t true)) (reassigned o tb) l'
  | SBcast o b :: l' => safe tp (taken o b tb) l'
  | SPut o k x :: l' => safe (changed o tp) (changed o tb) l'
  | SUpd u :: l' => safe tp tb l'
  end.
(** the results of a task do not depend on what other tasks left in self: [sim] relates attributes that make no difference *)
Definition steady (sim : St -> St -> Prop) (f : task X St) : Prop :=
  forall e x s s', sim s s' -> sim s (fst (f e x s)) /\ match snd (f e x s), snd (f e x s') with Ok y, Ok y' => y = y' | Err _, Err _ => True | _, _ => False end.
Definition steady_step (sim : St -> St -> Prop) (s : step) : Prop :=
  match s with SRun f _ _ _ => steady sim f | SUpd u => forall s s', sim s s' -> sim (u s) (u s') | _ => True end.
End Safe.
Arguments SPar {X St}.
Arguments SRun {X St}.
Arguments SBcast {X St}.
Arguments SPut {X St}.
Arguments SUpd {X St}.
