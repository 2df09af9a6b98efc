(** Model of the graph walks of abcpy/graphtools.py and abcpy/acceptedparametersmanager.py. *)
From Verif Require Import M_Base.

(** Class of a node (probabilisticmodels.py): [Hyper] = Hyperparameter (744-812), [Oper] =
    ModelResultingFromOperation (815-920), [Cont]/[Disc] = any other ProbabilisticModel, which derives from
    Continuous or Discrete. *)
Inductive kind := Hyper | Oper | Cont | Disc.

(** A model graph.  Nodes are numbered in order of object creation: a node can only be connected to nodes that
    already exist (the connector is an argument of the constructor, probabilisticmodels.py:248-279), see [wf].
    Simplification: later rewiring through InputConnector.set is not modelled.
    - [gconn n]: the InputConnector of n, list of (input model, index in that model's output) (7-22, 201-223);
    - [gdim n]: get_output_dimension;
    - [gchk_in n inputs]: _check_input;  [gchk_out n inputs v]: _check_output, which may read the current inputs
      (e.g. continuousmodels.py:53-64);
    - [gdens n inputs v]: pdf / pmf;
    - [gsim n inputs k t]: forward_simulate with the random generator in its t-th state (None if it returns None);
    - [gop n]: which subclass an [Oper] node is an instance of;
    - [gpow x y]: the number x ** y. *)
Inductive opk := OSum | OSub | OMul | ODiv | OPow | ORPow.
Record graph := {
  gkind : nat -> kind;
  gconn : nat -> list (nat * nat);
  gdim : nat -> nat;
  gchk_in : nat -> list (option Q) -> bool;
  gchk_out : nat -> list (option Q) -> list Q -> bool;
  gdens : nat -> list (option Q) -> list Q -> Q;
  gsim : nat -> list (option Q) -> nat -> nat -> option (list (list Q));
  gop : nat -> opk;
  gpow : Q -> Q -> Q }.

(** get_input_models: one entry per input, with repetitions (probabilisticmodels.py:168-177, 315-325). *)
Definition gpar (g : graph) (n : nat) : list nat := map fst (gconn g n).

Definition is_hyper (g : graph) (n : nat) : bool := match gkind g n with Hyper => true | _ => false end.
Definition is_oper (g : graph) (n : nat) : bool := match gkind g n with Oper => true | _ => false end.
(** neither Hyperparameter nor ModelResultingFromOperation *)
Definition is_free (g : graph) (n : nat) : bool := negb (is_hyper g n) && negb (is_oper g n).

(** Mutable attributes of all nodes: [vis] = visited, [val] = _fixed_values, [cpdf] = calculated_pdf;
    [ctr] = state of the random generator; [tr] is a ghost trace of the nodes drawn by prior sampling. *)
Record st := mkst {
  vis : nat -> bool;
  val : nat -> option (list Q);
  cpdf : nat -> option Q;
  ctr : nat;
  tr : list nat }.

Definition set_vis (n : nat) (b : bool) : M st unit :=
  fun s => (mkst (upd (vis s) n b) (val s) (cpdf s) (ctr s) (tr s), Ok tt).
Definition set_val (n : nat) (v : list Q) : M st unit :=
  fun s => (mkst (vis s) (upd (val s) n (Some v)) (cpdf s) (ctr s) (tr s), Ok tt).
Definition set_cpdf (n : nat) (q : option Q) : M st unit :=
  fun s => (mkst (vis s) (val s) (upd (cpdf s) n q) (ctr s) (tr s), Ok tt).
Definition get_vis (n : nat) : M st bool := fun s => (s, Ok (vis s n)).
Definition get_val (n : nat) : M st (option (list Q)) := fun s => (s, Ok (val s n)).
Definition get_cpdf (n : nat) : M st (option Q) := fun s => (s, Ok (cpdf s n)).
Definition tick : M st nat :=
  fun s => (mkst (vis s) (val s) (cpdf s) (S (ctr s)) (tr s), Ok (ctr s)).
Definition emit (n : nat) : M st unit :=
  fun s => (mkst (vis s) (val s) (cpdf s) (ctr s) (tr s ++ [n]), Ok tt).

(** Depth of the Python recursion starting from [roots]: creation ranks decrease along edges. *)
Definition depth (roots : list nat) : nat := S (list_max roots).

(* graphtools.py:69-88  _reset_flags (recursion on all parents, unconditionally) *)
Fixpoint reset_node (g : graph) (fuel n : nat) : M st unit :=
  match fuel with
  | 0 => raise OutOfFuel
  | S f => forM_ (reset_node g f) (gpar g n) ;;; set_vis n false ;;; set_cpdf n None
  end.
Definition reset_flags (g : graph) (roots : list nat) : M st unit :=
  forM_ (reset_node g (depth roots)) roots.

(* graphtools.py:219-223  _get_mapping: the loop over the parents *)
Fixpoint mapping_loop (rec : nat -> nat -> M st (list (nat * nat) * nat)) (ps : list nat) (i : nat)
  : M st (list (nat * nat) * nat) :=
  match ps with
  | [] => ret ([], i)
  | p :: ps' =>
      r <- rec p i ;;
      set_vis p true ;;;
      r' <- mapping_loop rec ps' (snd r) ;;
      ret (fst r ++ fst r', snd r')
  end.
(* graphtools.py:189-231  _get_mapping, the recursive calls (is_not_root=True, models=[n]) *)
Fixpoint mapping_node (g : graph) (fuel n idx : nat) : M st (list (nat * nat) * nat) :=
  match fuel with
  | 0 => raise OutOfFuel
  | S f =>
      v <- get_vis n ;;
      let here := if negb v && is_free g n then [(n, idx)] else [] in
      let idx1 := if negb v && is_free g n then S idx else idx in
      r <- mapping_loop (mapping_node g f) (gpar g n) idx1 ;;
      set_vis n true ;;;
      ret (here ++ fst r, snd r)
  end.

(* graphtools.py:189-231  _get_mapping, top call (is_not_root=False, models=self.model) *)
Fixpoint mapping_roots (g : graph) (fuel : nat) (rs : list nat) (i : nat) : M st (list (nat * nat) * nat) :=
  match rs with
  | [] => ret ([], i)
  | r0 :: rs' =>
      r <- mapping_loop (mapping_node g fuel) (gpar g r0) i ;;
      set_vis r0 true ;;;
      r' <- mapping_roots g fuel rs' (snd r) ;;
      ret (fst r ++ fst r', snd r')
  end.
Definition get_mapping (g : graph) (roots : list nat) : M st (list (nat * nat) * nat) :=
  r <- mapping_roots g (depth roots) roots 0 ;;
  reset_flags g roots ;;;
  ret r.

(* graphtools.py:284-287  get_parameters: the loop over the parents *)
Fixpoint getp_loop (rec : nat -> M st (list (option (list Q)))) (ps : list nat) : M st (list (option (list Q))) :=
  match ps with
  | [] => ret []
  | p :: ps' =>
      v <- get_vis p ;;
      a <- (if negb v then x <- rec p ;; set_vis p true ;;; ret x else ret []) ;;
      b <- getp_loop rec ps' ;;
      ret (a ++ b)
  end.
(* graphtools.py:252-293  get_parameters, recursive calls (is_root=False, models=[n]) *)
Fixpoint getp_node (g : graph) (fuel n : nat) : M st (list (option (list Q))) :=
  match fuel with
  | 0 => raise OutOfFuel
  | S f =>
      here <- (if is_free g n then v <- get_val n ;; set_vis n true ;;; ret [v] else ret []) ;;
      rest <- getp_loop (getp_node g f) (gpar g n) ;;
      ret (here ++ rest)
  end.
(* graphtools.py:252-293  get_parameters, top call: roots themselves are not marked *)
Definition get_parameters (g : graph) (roots : list nat) : M st (list (option (list Q))) :=
  l <- forM (fun r => getp_loop (getp_node g (depth roots)) (gpar g r)) roots ;;
  reset_flags g roots ;;;
  ret (concat l).

(* probabilisticmodels.py:154-166 (get_values) and 133-141 (__getitem__ on a number):
   None if the input model has no stored value, IndexError if the output is too short *)
Definition input_value (mj : nat * nat) : M st (option Q) :=
  v <- get_val (fst mj) ;;
  match v with
  | None => ret None
  | Some l => match nth_error l (snd mj) with Some q => ret (Some q) | None => raise IndexError end
  end.
Definition input_values (g : graph) (n : nat) : M st (list (option Q)) := forM input_value (gconn g n).

(* probabilisticmodels.py:365-388  set_output_values.  Simplification: values are already numpy vectors, so the
   TypeError branch cannot occur; _check_output receives the current inputs. *)
Definition set_output_values (g : graph) (n : nat) (v : list Q) : M st bool :=
  if Nat.eqb (length v) (gdim g n) then
    ins <- input_values g n ;;
    if gchk_out g n ins v then set_val n v ;;; ret true else ret false
  else raise IndexError.

(* graphtools.py:332-339  the loop over the parents, with its early exit *)
Fixpoint setp_loop (g : graph) (rec : nat -> nat -> M st (bool * nat)) (ps : list nat) (idx : nat) : M st (bool * nat) :=
  match ps with
  | [] => ret (true, idx)
  | p :: ps' =>
      v <- get_vis p ;;
      if v || is_hyper g p then setp_loop g rec ps' idx
      else r <- rec p idx ;;
           if fst r then setp_loop g rec ps' (snd r) else ret (false, snd r)
  end.

(* graphtools.py:295-346  set_parameters, recursive calls (is_root=False, models=[n]);
   params[index] past the end is an IndexError; an Oper node takes no value *)
Fixpoint setp_node (g : graph) (params : list (list Q)) (fuel n idx : nat) : M st (bool * nat) :=
  match fuel with
  | 0 => raise OutOfFuel
  | S f =>
      r0 <- (if is_oper g n then ret (true, idx)
             else match nth_error params idx with
                  | None => raise IndexError
                  | Some v => ok <- set_output_values g n v ;;
                              if ok then set_vis n true ;;; ret (true, S idx) else ret (false, idx)
                  end) ;;
      if fst r0 then
        r <- setp_loop g (setp_node g params f) (gpar g n) (snd r0) ;;
        if fst r then set_vis n true ;;; ret (true, snd r) else ret (false, snd r)
      else ret (false, snd r0)
  end.
(* graphtools.py:321-346  the loop over the root models *)
Fixpoint setp_roots (g : graph) (params : list (list Q)) (fuel : nat) (rs : list nat) (idx : nat) : M st (bool * nat) :=
  match rs with
  | [] => ret (true, idx)
  | r0 :: rs' =>
      r <- setp_loop g (setp_node g params fuel) (gpar g r0) idx ;;
      if fst r then set_vis r0 true ;;; setp_roots g params fuel rs' (snd r)
      else ret (false, snd r)
  end.
(* graphtools.py:295-346  set_parameters(parameters): both exits reset the flags (337-339, 343-344) *)
Definition set_parameters (g : graph) (roots : list nat) (params : list (list Q)) : M st (bool * nat) :=
  r <- setp_roots g params (depth roots) roots 0 ;;
  reset_flags g roots ;;;
  ret r.

(* graphtools.py:376-380  first entry of parameters_and_models for the model, all its values *)
Fixpoint lookup_params {A} (pm : list (nat * list A)) (n : nat) : list A :=
  match pm with
  | [] => []
  | (m, vs) :: pm' => if Nat.eqb m n then vs else lookup_params pm' n
  end.

(* graphtools.py:383-388  get_correct_ordering: the loop over the parents *)
Fixpoint order_loop {A} (rec : nat -> M st (list A)) (ps : list nat) : M st (list A) :=
  match ps with
  | [] => ret []
  | p :: ps' =>
      v <- get_vis p ;;
      a <- (if negb v then rec p else ret []) ;;
      b <- order_loop rec ps' ;;
      ret (a ++ b)
  end.
(* graphtools.py:348-394  get_correct_ordering on one model: nothing if visited *)
Fixpoint order_node {A} (g : graph) (pm : list (nat * list A)) (fuel n : nat) : M st (list A) :=
  match fuel with
  | 0 => raise OutOfFuel
  | S f =>
      v <- get_vis n ;;
      if negb v then
        set_vis n true ;;;
        rest <- order_loop (order_node g pm f) (gpar g n) ;;
        ret (lookup_params pm n ++ rest)
      else ret []
  end.
(* graphtools.py:348-394  get_correct_ordering(parameters_and_models) *)
Definition get_correct_ordering {A} (g : graph) (roots : list nat) (pm : list (nat * list A)) : M st (list A) :=
  l <- forM (order_node g pm (depth roots)) roots ;;
  reset_flags g roots ;;;
  ret (concat l).

(* acceptedparametersmanager.py:114-117, 104-117  get_mapping: accumulating over a list of models *)
Fixpoint apm_loop (rec : nat -> nat -> M st (list (nat * nat) * nat)) (ps : list nat) (i : nat)
  : M st (list (nat * nat) * nat) :=
  match ps with
  | [] => ret ([], i)
  | p :: ps' =>
      r <- rec p i ;;
      r' <- apm_loop rec ps' (snd r) ;;
      ret (fst r ++ fst r', snd r')
  end.
(* acceptedparametersmanager.py:81-123  get_mapping on one model; [top] = is_root *)
Fixpoint apm_node (g : graph) (top : bool) (fuel n idx : nat) : M st (list (nat * nat) * nat) :=
  match fuel with
  | 0 => raise OutOfFuel
  | S f =>
      v <- get_vis n ;;
      if negb v && negb (is_hyper g n) then
        set_vis n true ;;;
        let add := negb top && negb (is_oper g n) in
        r <- apm_loop (apm_node g false f) (gpar g n) (if add then S idx else idx) ;;
        ret ((if add then [(n, idx)] else []) ++ fst r, snd r)
      else ret ([], idx)
  end.
(* acceptedparametersmanager.py:156-172  _reset_flags: only follows parents that are still marked *)
Fixpoint apm_reset_node (g : graph) (fuel n : nat) : M st unit :=
  match fuel with
  | 0 => raise OutOfFuel
  | S f =>
      forM_ (fun p => v <- get_vis p ;; if v : bool then apm_reset_node g f p else ret tt) (gpar g n) ;;;
      set_vis n false
  end.
Definition apm_get_mapping (g : graph) (roots : list nat) : M st (list (nat * nat) * nat) :=
  r <- apm_loop (apm_node g true (depth roots)) roots 0 ;;
  forM_ (apm_reset_node g (depth roots)) roots ;;;
  ret r.

(* graphtools.py:145-161  the parameter values relevant to a model: parameters[index] of its entry in the mapping
   (IndexError if the list is too short), an empty array if it has none *)
Definition relevant (mp : list (nat * nat)) (params : list (list Q)) (n : nat) : res (list Q) :=
  match find (fun e => Nat.eqb (fst e) n) mp with
  | None => Ok []
  | Some e => match nth_error params (snd e) with Some v => Ok v | None => Err IndexError end
  end.
Definition lift {S A} (r : res A) : M S A := match r with Ok a => ret a | Err e => raise e end.

(* graphtools.py:115-187  _recursion_pdf_of_prior with is_root=False, models=[n].
   visited_parents stays all-False: line 172 compares a fresh InputConnector with a model.
   pdf (177): Cont stores calculated_pdf (continuousmodels.py:118 etc.), Disc stores calculated_pmf instead
   (discretemodels.py:94 etc.), Hyper and Oper return 1 and store nothing (probabilisticmodels.py:807-812, 861-877). *)
Fixpoint pdf_node (g : graph) (mp : list (nat * nat)) (params : list (list Q)) (fuel n : nat) : M st Q :=
  match fuel with
  | 0 => raise OutOfFuel
  | S f =>
      rel <- (if is_oper g n then ret [] else lift (relevant mp params n)) ;;
      ps <- forM (pdf_node g mp params f) (gpar g n) ;;
      let r0 := fold_left Qmult ps 1%Q in
      c <- get_cpdf n ;;
      match c with
      | Some _ => ret r0
      | None =>
          match gkind g n with
          | Hyper | Oper => ret (r0 * 1)%Q
          | Cont => ins <- input_values g n ;;
                    let d := gdens g n ins rel in
                    set_cpdf n (Some d) ;;; ret (r0 * d)%Q
          | Disc => ins <- input_values g n ;;
                    ret (r0 * gdens g n ins rel)%Q
          end
      end
  end.
(* graphtools.py:115-187 at the roots *)
Definition pdf_root (g : graph) (mp : list (nat * nat)) (params : list (list Q)) (fuel r : nat) : M st Q :=
  ps <- forM (pdf_node g mp params fuel) (gpar g r) ;;
  ret (fold_left Qmult ps 1%Q).
(* graphtools.py:90-113  pdf_of_prior(self.model, parameters): the verdict of set_parameters is ignored (111) *)
Definition pdf_of_prior (g : graph) (roots : list nat) (params : list (list Q)) : M st Q :=
  set_parameters g roots params ;;;
  mp <- get_mapping g roots ;;
  rs <- forM (pdf_root g (fst mp) params (depth roots)) roots ;;
  ret (fold_left Qmult rs 1%Q).

Fixpoint assoc {A} (l : list (nat * A)) (n : nat) : option A :=
  match l with
  | [] => None
  | (m, a) :: l' => if Nat.eqb m n then Some a else assoc l' n
  end.
(* probabilisticmodels.py:904-914  the loop that simulates every input model that is not marked; an input model
   that refuses its own inputs raises NameError (line 914 names an undefined variable) *)
Fixpoint opsample_loop (g : graph) (rec : nat -> M st (option (list (list Q)))) (ps : list nat)
         (acc : list (nat * option (list (list Q)))) : M st (list (nat * option (list (list Q)))) :=
  match ps with
  | [] => ret acc
  | p :: ps' =>
      v <- get_vis p ;;
      if v : bool then opsample_loop g rec ps' acc
      else
        ins <- input_values g p ;;
        if gchk_in g p ins then
          r <- rec p ;;
          set_vis p true ;;;
          opsample_loop g rec ps' (acc ++ [(p, r)])
        else raise NameError
  end.
(* probabilisticmodels.py:879-920  sample_from_input_models: marks of the input models are saved (895-897), cleared
   (900-901) and restored (917-918), unless an exception escapes *)
Definition opsample (g : graph) (rec : nat -> M st (option (list (list Q)))) (ps : list nat)
  : M st (list (nat * option (list (list Q)))) :=
  saved <- forM get_vis ps ;;
  forM_ (fun p => set_vis p false) ps ;;;
  acc <- opsample_loop g rec ps [] ;;
  forM_ (fun pb => set_vis (fst pb) (snd pb)) (combine ps saved) ;;;
  ret acc.

(* numpy arithmetic on two vectors of the same length (shorter one wins here; numpy raises or broadcasts) *)
Definition zipq (f : Q -> Q -> Q) (a b : list Q) : list Q := map (fun xy => f (fst xy) (snd xy)) (combine a b).
(* model_samples[model][i]: KeyError if absent, TypeError on None, IndexError past the end *)
Definition sample_at (acc : list (nat * option (list (list Q)))) (p i : nat) : res (list Q) :=
  match assoc acc p with
  | None => Err KeyError
  | Some None => Err TypeError
  | Some (Some l) => match nth_error l i with Some x => Ok x | None => Err IndexError end
  end.
(* the i-th result of an operation, from the values of the input models at i (parameter_values, in input order):
   get_output_dimension() is 1, so only positions 0 and 1 (the last for [OPow], 0 for [ORPow]) are read.
   SummationModel 949-966, SubtractionModel 996-1012, MultiplicationModel 1041-1057, DivisionModel 1086-1100,
   ExponentialModel 1146-1164 (power = parameter_values[-1]), RExponentialModel 1209-1227 (power =
   parameter_values[0]).  Simplification: a division by zero gives 0 instead of inf; the extra array nesting of
   ExponentialModel results is dropped. *)
Definition op_apply (g : graph) (k : opk) (pv : list (list Q)) : res (list Q) :=
  match nth_error pv 0, nth_error pv 1 with
  | Some a, Some b =>
      match k with
      | OSum => Ok (zipq Qplus a b)
      | OSub => Ok (zipq Qminus a b)
      | OMul => Ok (zipq Qmult a b)
      | ODiv => Ok (zipq Qdiv a b)
      | OPow => Ok (zipq (gpow g) a (last pv []))
      | ORPow => Ok (zipq (gpow g) a a)
      end
  | _, _ => Err IndexError
  end.
Fixpoint map_res {A B} (f : A -> res B) (l : list A) : res (list B) :=
  match l with
  | [] => Ok []
  | x :: l' => match f x with
               | Err e => Err e
               | Ok b => match map_res f l' with Err e => Err e | Ok bs => Ok (b :: bs) end
               end
  end.
(* the loop over i in range(k) of all forward_simulate of operations; RExponentialModel wraps all its results into a
   one-element list (1228), modelled as one concatenated vector *)
Definition op_results (g : graph) (k : opk) (ps : list nat) (acc : list (nat * option (list (list Q)))) (num : nat)
  : res (list (list Q)) :=
  match map_res (fun i => match map_res (fun p => sample_at acc p i) ps with
                          | Err e => Err e
                          | Ok pv => op_apply g k pv
                          end) (seq 0 num) with
  | Err e => Err e
  | Ok l => Ok (match k with ORPow => [concat l] | _ => l end)
  end.
(* probabilisticmodels.py:848-1228, 804-805: forward_simulate(get_input_values(), k) of any node.
   Cont/Disc: the oracle [gsim], one generator state per call.  Hyper: k copies of the stored value. *)
Fixpoint fsim (g : graph) (fuel n k : nat) : M st (option (list (list Q))) :=
  match fuel with
  | 0 => raise OutOfFuel
  | S f =>
      match gkind g n with
      | Hyper => v <- get_val n ;;
                 match v with Some l => ret (Some (repeat l k)) | None => raise TypeError end
      | Cont | Disc => ins <- input_values g n ;; t <- tick ;; ret (gsim g n ins k t)
      | Oper =>
          samples <- opsample g (fun p => fsim g f p k) (gpar g n) ;;
          r <- lift (op_results g (gop g n) (gpar g n) samples k) ;;
          ret (Some r)
      end
  end.

(* probabilisticmodels.py:516-538  _forward_simulate_and_store_output; 764-766 for Hyper.
   The verdict of set_output_values is ignored (536-537). *)
Definition draw_and_store (g : graph) (fuel n : nat) : M st bool :=
  if is_hyper g n then emit n ;;; set_vis n true ;;; ret true
  else
    ins <- input_values g n ;;
    if gchk_in g n ins then
      r <- fsim g fuel n 1 ;;
      match r with
      | Some (v :: _) => emit n ;;; set_output_values g n v ;;; ret true
      | Some [] => raise IndexError
      | None => ret false
      end
    else ret false.

(* graphtools.py:54-60 the loop over the parents *)
Fixpoint sample_loop (rec : nat -> M st bool) (ps : list nat) : M st bool :=
  match ps with
  | [] => ret true
  | p :: ps' =>
      v <- get_vis p ;;
      if v : bool then sample_loop rec ps'
      else set_vis p true ;;;
           ok <- rec p ;;
           if ok : bool then sample_loop rec ps' else ret false
  end.
(* graphtools.py:30-67  _sample_from_prior([n], is_not_root=True, was_accepted=True) *)
Fixpoint sample_node (g : graph) (fuel n : nat) : M st bool :=
  match fuel with
  | 0 => raise OutOfFuel
  | S f =>
      ok <- sample_loop (sample_node g f) (gpar g n) ;;
      if ok : bool then
        ok2 <- draw_and_store g (S f) n ;;
        if ok2 : bool then set_vis n true ;;; ret true else ret false
      else ret false
  end.
(* graphtools.py:30-67  _sample_from_prior(model) at the roots: the roots are not drawn *)
Fixpoint sample_roots (g : graph) (fuel : nat) (rs : list nat) : M st bool :=
  match rs with
  | [] => ret true
  | r :: rs' =>
      ok <- sample_loop (sample_node g fuel) (gpar g r) ;;
      if ok : bool then set_vis r true ;;; sample_roots g fuel rs' else ret false
  end.
(* graphtools.py:9-28  sample_from_prior: repeat until every node could be drawn; [tries] bounds the while loop *)
Fixpoint sample_from_prior (g : graph) (roots : list nat) (tries : nat) : M st unit :=
  match tries with
  | 0 => raise OutOfFuel
  | S t =>
      ok <- sample_roots g (depth roots) roots ;;
      reset_flags g roots ;;;
      if ok : bool then ret tt else sample_from_prior g roots t
  end.

(* graphtools.py:396-421  simulate without nested parallelisation: None as soon as one root's inputs are refused.
   Simplification: a root's forward_simulate returning None is recorded as such in the list. *)
Fixpoint simulate (g : graph) (fuel : nat) (rs : list nat) (k : nat) : M st (option (list (option (list (list Q))))) :=
  match rs with
  | [] => ret (Some [])
  | r :: rs' =>
      ins <- input_values g r ;;
      if gchk_in g r ins then
        y <- fsim g fuel r k ;;
        rest <- simulate g fuel rs' k ;;
        ret (match rest with Some l => Some (y :: l) | None => None end)
      else ret None
  end.
