(** Specification of input lists: their flattening, left to right. *)
From Verif Require Import M_Base M_Connector.

(** One flattened input: a component of a model's output, a number, or an unset entry of a connector. *)
Inductive entry := ERef (m : option nat) (j : option Z) | ENum (q : Q).

(** The inputs an item stands for, in order; [None] if it contains an unsupported object. *)
Fixpoint flat (dim : nat -> nat) (x : item) : option (list entry) :=
  match x with
  | INum q => Some [ENum q]
  | IModel m => Some (map (fun j => ERef (Some m) (Some (Z.of_nat j))) (seq 0 (dim m)))
  | IConn c => Some (map (fun mj => ERef (fst mj) (snd mj)) (combine (cmodels c) (cidx c)))
  | IList l => fold_right (fun y acc => match flat dim y, acc with Some a, Some b => Some (a ++ b) | _, _ => None end)
                          (Some []) l
  | IOther => None
  end.

(** Number of inputs an item stands for. *)
Fixpoint width (dim : nat -> nat) (x : item) : nat :=
  match x with
  | INum _ => 1
  | IModel m => dim m
  | IConn c => length (cmodels c)
  | IList l => fold_right (fun y n => width dim y + n) 0 l
  | IOther => 0
  end.

(** Models mentioned by an item exist in a heap whose next object is [n], and its connectors are well formed. *)
Fixpoint old (n : nat) (x : item) : Prop :=
  match x with
  | INum _ | IOther => True
  | IModel m => m < n
  | IConn c => length (cmodels c) = length (cidx c) /\ Forall (fun m => match m with Some k => k < n | None => True end) (cmodels c)
  | IList l => fold_right (fun y P => old n y /\ P) True l
  end.

(** [realises h0 h e (m, j)]: the connector entry (m, j) in heap [h] realises [e]; numbers became new objects holding
    them. *)
Definition realises (h0 h : heap) (e : entry) (mj : option nat * option Z) : Prop :=
  match e with
  | ERef m j => mj = (m, j)
  | ENum q => exists n, mj = (Some n, Some 0%Z) /\ nxt h0 <= n < nxt h /\ hout h n = Some [q] /\ hdim h n = 1
  end.

(** Existing objects are untouched. *)
Definition grows (h0 h : heap) : Prop :=
  nxt h0 <= nxt h /\ forall m, m < nxt h0 -> hdim h m = hdim h0 m /\ hout h m = hout h0 m.

(** Component j of a list; component -1 is the last one. *)
Definition component {A} (l : list A) (j : Z) : option A :=
  if (j <? 0)%Z then nth_error (rev l) (Z.to_nat (- j - 1)) else nth_error l (Z.to_nat j).

(** The value an entry stands for: the stored output component, the number itself, or nothing yet. *)
Definition value_of (h : heap) (e : entry) : res (option Q) :=
  match e with
  | ENum q => Ok (Some q)
  | ERef (Some m) (Some j) =>
      match hout h m with
      | None => Ok None
      | Some l => match component l j with Some q => Ok (Some q) | None => Err IndexError end
      end
  | ERef _ _ => Err AttributeError
  end.
