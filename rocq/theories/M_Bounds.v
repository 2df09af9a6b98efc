(** Model of the handling of [bounds] in MCMCMetropoliHastings.sample (inferences.py:4109-4116, 4232-4258).  Names are numbers; a dictionary
    is a list of pairs; a value is None if it has no length, else the list of its entries. *)
From Coq Require Import Reals.
From Verif Require Import M_Base M_Num M_XReal M_Transform.
Open Scope nat_scope.

(* inferences.py:4111-4114  parameter_names_with_index: the last model with a name decides *)
Definition index_of (mapping : list (nat * nat)) (name : nat) : option nat :=
  option_map snd (find (fun p => fst p =? name) (rev mapping)).
Definition value := option (list (option R)).
(* inferences.py:4239-4246 *)
Fixpoint bounds_check (names : list nat) (bounds : list (nat * value)) : res unit :=
  match bounds with
  | [] => Ok tt
  | (key, v) :: rest =>
      if negb (existsb (Nat.eqb key) names) then Err KeyError
      else match v with Some [_; _] => bounds_check names rest | _ => Err RuntimeError end
  end.
Fixpoint lset {A} (l : list A) (i : nat) (x : A) : list A := match l, i with [], _ => [] | _ :: l', 0 => x :: l' | y :: l', S i' => y :: lset l' i' x end.
(* inferences.py:4248-4254 *)
Fixpoint bounds_fill (mapping : list (nat * nat)) (bounds : list (nat * value)) (lo hi : list (option R)) : res (list (option R) * list (option R)) :=
  match bounds with
  | [] => Ok (lo, hi)
  | (key, v) :: rest =>
      match index_of mapping key, v with
      | None, _ => Err KeyError
      | Some i, Some [a; b] => if i <? length lo then bounds_fill mapping rest (lset lo i a) (lset hi i b) else Err IndexError
      | _, _ => Err RuntimeError
      end
  end.
(* inferences.py:4232-4258  the transformer built from [bounds] *)
Definition mcmc_bounds (mapping : list (nat * nat)) (bounds : list (nat * value)) : res (list bnd) :=
  let dim := length mapping in
  match bounds_check (map fst mapping) bounds with
  | Err e => Err e
  | Ok _ => match bounds_fill mapping bounds (repeat None dim) (repeat None dim) with Err e => Err e | Ok (lo, hi) => tf_init lo hi end
  end.
