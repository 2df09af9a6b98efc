(** Shared vocabulary of the models: Python exceptions as values, a state+exception monad. *)
From Coq Require Export List Arith Bool Lia ZArith.
From Coq Require Export QArith.
Export ListNotations.
Open Scope nat_scope.

(** Python exception classes that the modelled code can raise.  [OutOfFuel] is not a Python exception: it is the
    explicit result of a model loop whose fuel ran out. *)
Inductive pyerr :=
| IndexError | TypeError | ValueError | RuntimeError | AttributeError | KeyError
| NameError | ZeroDivisionError | UnboundLocalError | NotImplementedError | OutOfFuel.

Inductive res (A : Type) := Ok (a : A) | Err (e : pyerr).
Arguments Ok {A} a.
Arguments Err {A} e.

(** [M S A]: a Python computation on mutable state [S]; an exception keeps the state reached so far. *)
Definition M (S A : Type) : Type := S -> S * res A.
Definition ret {S A} (a : A) : M S A := fun s => (s, Ok a).
Definition raise {S A} (e : pyerr) : M S A := fun s => (s, Err e).
Definition bind {S A B} (m : M S A) (f : A -> M S B) : M S B :=
  fun s => match m s with
           | (s', Ok a) => f a s'
           | (s', Err e) => (s', Err e)
           end.
Notation "x <- m ;; k" := (bind m (fun x => k)) (at level 61, m at next level, right associativity).
Notation "m ;;; k" := (bind m (fun _ => k)) (at level 61, right associativity).

(** Python [for x in l: ...] collecting the results. *)
Fixpoint forM {S A B} (f : A -> M S B) (l : list A) : M S (list B) :=
  match l with
  | [] => ret []
  | x :: l' => b <- f x ;; bs <- forM f l' ;; ret (b :: bs)
  end.

(** Python [for x in l: ...] with no result. *)
Fixpoint forM_ {S A} (f : A -> M S unit) (l : list A) : M S unit :=
  match l with
  | [] => ret tt
  | x :: l' => f x ;;; forM_ f l'
  end.

Definition upd {A} (f : nat -> A) (n : nat) (a : A) : nat -> A :=
  fun m => if Nat.eqb m n then a else f m.

Definition memb (n : nat) (l : list nat) : bool := existsb (Nat.eqb n) l.
