(** Model of abcpy/output.py:1121-1260, GenerateFromJournal. *)
From Verif Require Import M_Base M_Num M_Graph M_Journal M_Infer.

(** the random generator of the task replaces the one used before (1208-1214, 1243); [ctr] is its state *)
Definition set_ctr (c : nat) : M st unit := fun s => (mkst (vis s) (val s) (cpdf s) c (tr s), Ok tt).

Section Generate.
Variable g : graph.
Variable roots : list nat.
(** Does the simulation contain a value that becomes infinite in float32 (1254)? *)
Variable big : option (list (option (list (list Q)))) -> bool.

(* 1226-1260  _sample_parameter for the task [c] (start of its generator), the broadcast parameters and an index.
   The verdict of set_parameters is ignored (1250).  When a simulation is discarded, self.logger is read (1255), an attribute no
   constructor of this class sets: AttributeError, so the loop body runs at most once.  npc is None. *)
Definition sample_parameter (k : nat) (discard : bool) (acc : list (list (list Q))) (c i : nat) : M st (option (list (option (list (list Q))))) :=
  match nth_error acc i with
  | None => raise IndexError
  | Some theta =>
      set_parameters g roots theta ;;;
      set_ctr c ;;;
      y <- simulate g (depth roots) roots k ;;
      if discard && big y then raise AttributeError else ret y
  end.

(** Tasks run on workers, each with its own copy of the graph: the schedule lists (worker, task) in the order of execution.  A worker's graph
    keeps the state the previous task left.  The results are put in the order of the tasks (C09). *)
Fixpoint execute {A} (task : nat -> M st A) (sched : list (nat * nat)) (ws : nat -> st) : list (nat * res A) :=
  match sched with
  | [] => []
  | (w, i) :: sched' => let '(s', r) := task i (ws w) in (i, r) :: execute task sched' (upd ws w s')
  end.
Fixpoint find_result {A} (l : list (nat * res A)) (i : nat) : res A :=
  match l with [] => Err KeyError | (j, r) :: l' => if j =? i then r else find_result l' i end.
Definition collect {A} (l : list (nat * res A)) (n : nat) : res (list A) := mapR (find_result l) (seq 0 n).

(* 1219, 1222: np.array(accepted_parameters) with dimensions samples x parameters x entries, then reshape to samples x parameters, which needs one entry
   per parameter.  (Ragged lists: ValueError in current numpy.) *)
Definition params_array (acc : list (list (list Q))) : res (list (list Q)) :=
  match acc with
  | [] => Err IndexError
  | row0 :: _ => if forallb (fun row => (length row =? length row0) && forallb (fun v => length v =? 1) row) acc then Ok (map (@concat Q) acc) else Err ValueError
  end.
(* 1220, 1223: dimensions samples x models x data points x entries, reshaped to samples x data points x entries, which needs one model.
   Simplification: None among the simulations is IndexError (too few dimensions); ragged arrays are ValueError. *)
Definition one_model (y : option (list (option (list (list Q))))) : res (list (list Q)) :=
  match y with
  | None => Err IndexError
  | Some [Some rows] => Ok rows
  | Some (None :: _) => Err IndexError
  | Some _ => Err ValueError
  end.
Definition sims_array (ys : list (option (list (option (list (list Q)))))) : res (list (list (list Q))) :=
  match mapR one_model ys with
  | Err e => Err e
  | Ok l => match l with
            | [] => Err IndexError
            | rows0 :: _ => if forallb (fun rows => (length rows =? length rows0) && forallb (fun v => length v =? length (hd [] rows0)) rows) l then Ok l else Err ValueError
            end
  end.

(* 1161-1224  generate.  [type_model]: journal.configuration["type_model"], if any; [names]: the class names of the models;
   [start i]: the state of the generator seeded for task i (1207-1209). *)
Definition generate {Name Cl S C D} (cleqb : Cl -> Cl -> bool) (type_model : option Cl) (names : Cl) (j : journal Name (list Q) S C D) (it : option Z)
    (k : nat) (discard : bool) (start : nat -> nat) (sched : list (nat * nat)) (ws : nat -> st) : res (list (list Q) * list (list (list Q)) * list num) :=
  match type_model with
  | None => Err KeyError
  | Some tm =>
      if negb (cleqb tm names) then Err RuntimeError else
      match get_accepted_parameters j it with Err e => Err e | Ok acc =>
      match get_weights j it with Err e => Err e | Ok w =>
      let normalized := map (fun x => ndiv (Fin x) (Fin (qsum (wvals w)))) (wvals w) in
      let n := length normalized in
      match collect (execute (fun i => sample_parameter k discard acc (start i) i) sched ws) n with Err e => Err e | Ok ys =>
      match params_array acc with Err e => Err e | Ok ps =>
      match sims_array ys with Err e => Err e | Ok sims => Ok (ps, sims, normalized)
      end end end end end
  end.
End Generate.
