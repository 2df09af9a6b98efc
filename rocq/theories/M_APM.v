(** Model of abcpy/acceptedparametersmanager.py (except get_mapping, in M_Graph) and graphtools._get_names_and_parameters. *)
From Verif Require Import M_Base M_Graph M_Journal.

(** Broadcast variables are modelled by the value a worker reads from them (P_MPI, C11). *)
Record apm (O P W C K : Type) := mkapm {
  a_obs : option O; a_par : option P; a_w : option W; a_cov : option C; a_kern : option K }.
Arguments mkapm {O P W C K}.
Arguments a_obs {O P W C K} _.
Arguments a_par {O P W C K} _.
Arguments a_w {O P W C K} _.
Arguments a_cov {O P W C K} _.
Arguments a_kern {O P W C K} _.

(* acceptedparametersmanager.py:16-26, 28-38, 40-51, 53-80 *)
Definition apm_new {O P W C K} : apm O P W C K := mkapm None None None None None.
Definition apm_broadcast {O P W C K} (a : apm O P W C K) (o : O) : apm O P W C K := mkapm (Some o) (a_par a) (a_w a) (a_cov a) (a_kern a).
Definition update_kernel_values {O P W C K} (a : apm O P W C K) (k : K) : apm O P W C K := mkapm (a_obs a) (a_par a) (a_w a) (a_cov a) (Some k).
Definition update_broadcast {O P W C K} (a : apm O P W C K) (p : option P) (w : option W) (c : option C) : apm O P W C K :=
  let a1 := match p with None => a | Some p => mkapm (a_obs a) (Some p) (a_w a) (a_cov a) (a_kern a) end in
  let a2 := match w with None => a1 | Some w => mkapm (a_obs a1) (a_par a1) (Some w) (a_cov a1) (a_kern a1) end in
  match c with None => a2 | Some c => mkapm (a_obs a2) (a_par a2) (a_w a2) (Some c) (a_kern a2) end.

(* acceptedparametersmanager.py:149-150  for i in range(len(accepted)): accepted_bds_values[i].append(accepted[i][index]) *)
Fixpoint append_column {A} (accepted : list (list A)) (index : nat) (out : list (list A)) : res (list (list A)) :=
  match accepted, out with
  | row :: accepted', o :: out' =>
      match pyget row (Z.of_nat index) with
      | Err e => Err e
      | Ok v => match append_column accepted' index out' with Ok r => Ok ((o ++ [v]) :: r) | Err e => Err e end
      end
  | _, _ => Ok out
  end.
(* acceptedparametersmanager.py:147-148  for prob_model, index in mapping: if model == prob_model *)
Fixpoint columns_of_model {A} (accepted : list (list A)) (model : nat) (mp : list (nat * nat)) (out : list (list A)) : res (list (list A)) :=
  match mp with
  | [] => Ok out
  | (pm, index) :: mp' =>
      match (if Nat.eqb model pm then append_column accepted index out else Ok out) with
      | Err e => Err e
      | Ok out' => columns_of_model accepted model mp' out'
      end
  end.
(* acceptedparametersmanager.py:146  for model in models *)
Fixpoint columns_of_models {A} (accepted : list (list A)) (models : list nat) (mp : list (nat * nat)) (out : list (list A)) : res (list (list A)) :=
  match models with
  | [] => Ok out
  | m :: models' => match columns_of_model accepted m mp out with Err e => Err e | Ok out' => columns_of_models accepted models' mp out' end
  end.
(* acceptedparametersmanager.py:125-153 *)
Definition get_accepted_parameters_bds_values {A} (g : graph) (roots : list nat) (accepted : list (list A)) (models : list nat) : M st (list (list A)) :=
  r <- apm_get_mapping g roots ;;
  lift (columns_of_models accepted models (fst r) (map (fun _ => []) accepted)).
(* graphtools.py:233-250; [name] gives the name attribute of a model *)
Definition get_names_and_parameters {A Name} (g : graph) (roots : list nat) (name : nat -> Name) (accepted : list (list A)) : M st (list (Name * list (list A))) :=
  r <- get_mapping g roots ;;
  forM (fun mi => v <- get_accepted_parameters_bds_values g roots accepted [fst mi] ;; ret (name (fst mi), v)) (fst r).
