(** Specification vocabulary for the training routines (C84). *)
From Coq Require Import Reals.
From Verif Require Import M_Base M_XReal M_Similarity M_NNTrain S_Stats S_Similarity P_Losses.
Open Scope nat_scope.

(** A list of indices in pieces of b: nothing is left out and only the last piece may be smaller; or (drop_last) a remainder smaller than a piece is left out. *)
Definition Pieces {A} (b : nat) (drop : bool) (l : list A) (ps : list (list A)) : Prop :=
  if drop then Forall (fun p => length p = b) ps /\ exists rest, l = concat ps ++ rest /\ length rest < b
  else l = concat ps /\ Forall (fun p => 1 <= length p <= b) ps /\ Forall (fun p => length p = b) (removelast ps).

Section Shown.
  Variables X Y W : Type.
  Variable cast : X -> X.
  Variable castY : Y -> Y.
  Variable coords : Y -> list R.
  Variable emb : W -> X -> list R.
  Notation item := (item X Y).
  Notation labels := (labels Y).
  Notation args := (args X Y).

  (** an item says that its two samples are similar or not *)
  Definition says (t : target Y) (b : bool) : Prop := t = TensorT Y b \/ t = IntT Y b.
  (** What may be shown for sample number i. *)
  Definition Shows (k : kind) (xs : list X) (l : labels) (i : nat) (it : item) : Prop :=
    match k, l with
    | Contrastive, Sim _ M =>
        exists j x y t, j <> i /\ nth_error xs i = Some x /\ nth_error xs j = Some y /\ Entry M i j t /\ fst it = [cast x; cast y] /\ says (snd it) t
    | Triplet, Sim _ M =>
        exists a p m x y z, p <> a /\ nth_error xs a = Some x /\ nth_error xs p = Some y /\ nth_error xs m = Some z /\ Entry M a p true /\ Entry M a m false
          /\ it = ([cast x; cast y; cast z], NoTarget Y) /\ (a <> i -> forall n, Similars M i n -> n < 2)
    | FP, Pars _ ys => exists x y, nth_error xs i = Some x /\ nth_error ys i = Some y /\ it = ([cast x], Par Y (castY y))
    | _, _ => False
    end.
  (** the second argument fits the routine: a square matrix over the samples, or the parameters *)
  Definition Fits (k : kind) (xs : list X) (l : labels) : Prop :=
    match k, l with Contrastive, Sim _ M | Triplet, Sim _ M => Square (length xs) M | FP, Pars _ _ => True | _, _ => False end.
  (** one pass over the samples in a given order *)
  Definition Pass (k : kind) (xs : list X) (l : labels) (b : nat) (drop : bool) (order : list nat) (epoch : nat) (bs : list (batch X Y)) : Prop :=
    exists iss, Pieces b drop order iss /\ Forall2 (fun is bt => fst bt = epoch /\ Forall2 (Shows k xs l) is (snd bt)) iss bs.

  (** the loss of one item *)
  Definition item_loss (k : kind) (margin : R) (f : X -> list R) (it : item) : R :=
    match k, it with
    | Contrastive, ([x; y], TensorT _ t) | Contrastive, ([x; y], IntT _ t) => pair_loss margin (f x) (f y) t
    | Triplet, ([x; y; z], _) => triplet_loss margin (f x) (f y) (f z)
    | FP, ([x], Par _ y) => (dist2 (f x) (coords y) / INR (length (coords y)))%R
    | _, _ => 0%R
    end.
  Definition batch_loss (k : kind) (margin : R) (b : list item) (w : W) : xr := XR (average (map (item_loss k margin (emb w)) b)).
  (** the learning rate asked for *)
  Definition lr_of (a : args) : R := match lr X Y a with Some r => r | None => (/ 1000)%R end.
End Shown.
