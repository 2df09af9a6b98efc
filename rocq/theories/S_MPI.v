(** Sequential specification of a parallel backend (what BackendDummy, abcpy/backends/base.py:122-217, computes, with
    identifiers and liveness). *)
From Verif Require Import M_Base M_MPI.
From Coq Require Import Permutation.

Section Spec.
Variable V : Type.
Variable isexc : V -> bool.
Variable rewrap : V -> option V.
Notation func := (func V).

(** A data set is a list handed over by the user, or the list of results of a function on such a list. *)
Inductive pinfo := PRaw (l : list V) | PRes (rs : list V).
Record astate := mkast { anp : nat; anb : nat; apds : nat -> option pinfo; alive : nat -> bool; abds : nat -> option V }.

Fixpoint results (f : func) (l : list V) : option (list V) :=
  match l with
  | [] => Some []
  | x :: l' => match run_function rewrap f x, results f l' with Some r, Some rs => Some (r :: rs) | _, _ => None end
  end.

(** Expected answer to a call. *)
Inductive exp := EPds (id : nat) | EBds (id : nat) | ECollect (rs : list V) | EDone.
(** Correct uses: map a list that was parallelised, by a function whose exceptions can be rebuilt; collect a live
    result; delete live objects.  [None] = not a correct use. *)
Definition acmd (k : cmd V) (a : astate) : option (astate * exp) :=
  match k with
  | CPar l => let id := S (anp a) in
              Some (mkast id (anb a) (upd (apds a) id (Some (PRaw l))) (upd (alive a) id true) (abds a), EPds id)
  | CMap f src =>
      match apds a src with
      | Some (PRaw l) =>
          match results f l with
          | Some rs => let id := S (anp a) in
                       Some (mkast id (anb a) (upd (apds a) id (Some (PRes rs))) (upd (alive a) id true) (abds a), EPds id)
          | None => None
          end
      | _ => None
      end
  | CCollect id => match apds a id with
                   | Some (PRes rs) => if alive a id then Some (a, ECollect rs) else None
                   | _ => None
                   end
  | CBcast v => let id := S (anb a) in Some (mkast (anp a) id (apds a) (alive a) (upd (abds a) id (Some v)), EBds id)
  | CDelP id => if alive a id then Some (mkast (anp a) (anb a) (apds a) (upd (alive a) id false) (abds a), EDone) else None
  | CDelB id => match abds a id with
                | Some _ => Some (mkast (anp a) (anb a) (apds a) (alive a) (upd (abds a) id None), EDone)
                | None => None
                end
  end.
Fixpoint arun (p : list (cmd V)) (a : astate) : option (astate * list exp) :=
  match p with
  | [] => Some (a, [])
  | k :: p' => match acmd k a with
               | Some (a1, e) => match arun p' a1 with Some (a2, es) => Some (a2, e :: es) | None => None end
               | None => None
               end
  end.
Definition a0 : astate := mkast 0 0 (fun _ => None) (fun _ => false) (fun _ => None).

(** Which answers are acceptable: identifiers as expected; collect gives the list of results in order, or, if some
    result is an exception object, raises one of those. *)
Definition allowed (e : exp) (o : out V) : Prop :=
  match e with
  | EPds id => o = OPds id
  | EBds id => o = OBds id
  | EDone => o = ODone
  | ECollect rs =>
      (Forall (fun r => isexc r = false) rs /\ o = OList rs)
      \/ (exists r, In r rs /\ isexc r = true /\ o = ORaise r)
  end.

(** An execution is over when no process can move. *)
Definition over (N : nat) (c : cfg V) : Prop := forall c', ~ step isexc rewrap N c c'.
(** How often item number [tag] of result [id] was evaluated. *)
Definition evals (id tag : nat) (lg : list (nat * nat)) : nat :=
  length (filter (fun e => Nat.eqb (fst e) id && Nat.eqb (snd e) tag) lg).
(** Identifiers handed out so far. *)
Definition pds_ids (os : list (out V)) : list nat := flat_map (fun o => match o with OPds id => [id] | _ => [] end) os.
Definition bds_ids (os : list (out V)) : list nat := flat_map (fun o => match o with OBds id => [id] | _ => [] end) os.
(** The program without its deletions; the answers without those of deletions. *)
Definition nodel (k : cmd V) : bool := match k with CDelP _ | CDelB _ => false | _ => true end.
Definition answered (o : out V) : bool := match o with ODone => false | _ => true end.
Definition israise (o : out V) : bool := match o with ORaise _ => true | _ => false end.
(** Number of data sets a program creates. *)
Definition makes (k : cmd V) : bool := match k with CPar _ | CMap _ _ => true | _ => false end.
Definition created (p : list (cmd V)) : nat := length (filter makes p).
End Spec.

Arguments PRaw {V} l.
Arguments PRes {V} rs.
Arguments mkast {V}.
Arguments anp {V} _.
Arguments anb {V} _.
Arguments apds {V} _ _.
Arguments alive {V} _ _.
Arguments abds {V} _ _.
Arguments EPds {V} id.
Arguments EBds {V} id.
Arguments ECollect {V} rs.
Arguments EDone {V}.
Arguments results {V} rewrap f l.
Arguments acmd {V} rewrap k a.
Arguments arun {V} rewrap p a.
Arguments a0 {V}.
Arguments allowed {V} isexc e o.
Arguments over {V} isexc rewrap N c.
Arguments pds_ids {V} os.
Arguments bds_ids {V} os.
Arguments nodel {V} k.
Arguments answered {V} o.
Arguments israise {V} o.
Arguments created {V} p.
Arguments makes {V} k.
