(** Learned statistics: training of an embedding network and use, saving and loading of the result (/repo/abcpy/statisticslearning.py 331-538 and 1006-1476, statistics.py
    335-563, NN_utilities/networks.py 46-160, NN_utilities/utilities.py 48-58).
    Tensors are lists of extended reals; [f32] is rounding to float32 (overflow is not modelled).  Devices are not modelled. *)
From Coq Require Import Reals String DecimalString.
From Coq Require Import List.
From Verif Require Import M_Base M_Num M_XReal M_Transform M_Scaler M_Stats M_Journal M_Learn M_NN.
Import ListNotations.
Open Scope nat_scope.

(** torch's state_dict: names of parameters and buffers, each with its shape and its numbers in row-major order *)
Definition tensor := (list nat * list xr)%type.
Definition sdict := list (string * tensor).
(** A class of networks (torch.nn.Module): widths of input and output, names and shapes of its parameters, and the forward pass of a batch in training mode (true) or
    evaluation mode.  In training mode a batch normalisation layer uses the batch, and dropout is active. *)
Record nclass := mkclass { nin : nat; nout : nat; keys : list (string * list nat); c_fwd : sdict -> bool -> list (list xr) -> list (list xr) }.
(** A fitted scaler: sklearn's MinMaxScaler with the default range, or BoundedVarScaler *)
Inductive scaler := MinMax (ps : list (xr * xr)) | Bounded (bs : list bnd) (ps : option (list (xr * xr))).
(** A network: an instance of a class with its numbers and its mode; DiscardLastOutputNet; ScalerAndNet. *)
Inductive net := Plain (c : nclass) (w : sdict) (training : bool) | Discard (n : net) | Scaled (n : net) (s : scaler).

(** * The default networks *)
(* nn.Linear(n, m) on a vector: weight has the shape (m, n) *)
Definition xlinear (n m : nat) (W b x : list xr) : list xr :=
  map (fun wb => xadd (xsum (map (fun ab => xmul (fst ab) (snd ab)) (combine (fst wb) x))) (snd wb)) (combine (chunk m n W) b).
Definition lookup {A} (k : string) (d : list (string * A)) : option A := option_map snd (find (fun kt => String.eqb k (fst kt)) d).
Definition numbers (k : string) (d : sdict) : list xr := match lookup k d with Some t => snd t | None => [] end.
Definition digits (i : nat) : string := NilZero.string_of_uint (Nat.to_uint i).
(* 109-129: the names of [n] linear layers *)
Definition layer_names (n : nat) : list string :=
  match n with
  | 0 => []
  | 1 => ["fc_in"%string]
  | S (S h) => ["fc_in"%string] ++ map (fun i => String.append "fc_hidden." (digits i)) (seq 0 h) ++ ["fc_out"%string]
  end.
Definition default_layers (i o : nat) (hidden : option (list nat)) : list (string * (nat * nat)) :=
  combine (layer_names (length (sizes i o hidden))) (sizes i o hidden).
(* 135-157  forward: the nonlinearity after every layer but the last *)
Fixpoint default_row (act : xr -> xr) (ls : list (string * (nat * nat))) (d : sdict) (x : list xr) : list xr :=
  match ls with
  | [] => x
  | (k, (n, m)) :: ls' =>
      let y := xlinear n m (numbers (String.append k ".weight") d) (numbers (String.append k ".bias") d) x in
      match ls' with [] => y | _ => default_row act ls' d (map act y) end
  end.
(* networks.py 80-160 and 163-235 (createDefaultNN, createDefaultNNWithDerivatives: the same layers and forward pass), without batch normalisation *)
Definition default_class (act : xr -> xr) (i o : nat) (hidden : option (list nat)) : nclass :=
  let ls := default_layers i o hidden in
  mkclass i o (flat_map (fun l => [(String.append (fst l) ".weight", [snd (snd l); fst (snd l)]); (String.append (fst l) ".bias", [snd (snd l)])]) ls)
    (fun d _ rows => map (default_row act ls d) rows).
(* F.relu *)
Definition relu (x : xr) : xr := match x with XR r => XR (Rmax 0 r) | XNInf => XR 0 | x => x end.
(* nn.Softplus() *)
Definition softplus (x : xr) : xr := match x with XR r => XR (ln (1 + exp r)) | XNInf => XR 0 | x => x end.

Section Pipeline.
Variable f32 : R -> R.
Definition r32 (x : xr) : xr := match x with XR r => XR (f32 r) | x => x end.
(* .astype("float32") *)
Definition to32 (m : mat) : mat := mkmat (mcols m) (map (map r32) (mrows m)).

(** * Scalers *)
Definition infinite (x : xr) : bool := match x with XInf | XNInf => true | _ => false end.
(* sklearn's check_array of MinMaxScaler: at least one sample and one feature, no infinity (NaN passes) *)
Definition checked (m : mat) : bool := negb (length (mrows m) =? 0) && negb (mcols m =? 0) && negb (existsb (existsb infinite) (mrows m)).
Definition fit_minmax (m : mat) : res scaler :=
  if checked m then Ok (MinMax (map (fun j => mm_fit 0 1 (M_Scaler.column (mrows m) j)) (seq 0 (mcols m)))) else Err ValueError.
(* BoundedVarScaler.fit (transformers.py 291-322); the masks have to have as many entries as there are columns *)
Definition fit_bounded (bs : list bnd) (rescale : bool) (m : mat) : res scaler :=
  if negb (mcols m =? length bs) then Err IndexError
  else match sc_fit f32 bs rescale 0 1 (mrows m) with Err e => Err e | Ok ps => Ok (Bounded bs ps) end.
Definition scale (s : scaler) (m : mat) : res mat :=
  match s with
  | MinMax ps => if checked m && (mcols m =? length ps) then Ok (mkmat (mcols m) (map (mm_row ps) (mrows m))) else Err ValueError
  | Bounded bs ps =>
      if negb (mcols m =? length bs) then Err IndexError
      else match sc_transform f32 bs ps (mrows m) with Err e => Err e | Ok X => Ok (mkmat (mcols m) X) end
  end.

(** * Networks *)
(* the forward pass; a linear layer refuses a wrong width *)
Fixpoint forward (n : net) (m : mat) : res mat :=
  match n with
  | Plain c w training => if negb (mcols m =? nin c) then Err RuntimeError else Ok (mkmat (nout c) (c_fwd c w training (mrows m)))
  (* networks.py 70-77: two axes *)
  | Discard n' => match forward n' m with Err e => Err e | Ok y => Ok (mkmat (mcols y - 1) (map (@removelast xr) (mrows y))) end
  (* networks.py 56-59 *)
  | Scaled n' s => match scale s m with Err e => Err e | Ok y => forward n' (to32 y) end
  end.
(** A NeuralEmbedding: net, degree, cross, std_statistics, previous_statistics *)
Record nstats := mknstats { nnet : net; ndegree : nat; ncross : bool; nsd : option (list xr); nprev : option stats }.
(* statistics.py 529-562  statistics *)
Definition embedding (s : nstats) (d : pydata) : res mat :=
  match (match nprev s with Some p => statistics p d | None => check_input d end) with
  | Err e => Err e
  | Ok m =>
      match forward (nnet s) (to32 m) with
      | Err IndexError | Err RuntimeError | Err ValueError => Err RuntimeError
      | Err e => Err e
      | Ok y => rescale (nsd s) (poly (ndegree s) (ncross s) y)
      end
  end.
(* statistics.py 346-388 with 24-70  __init__; [refs]: reference_simulations *)
Definition new_embedding (n : net) (degree : nat) (cross : bool) (refs : option mat) (prev : option stats) : res nstats :=
  match refs with
  | None => Ok (mknstats n degree cross None prev)
  | Some r =>
      match embedding (mknstats n degree cross None prev) (PList (map Vec (mrows r))) with
      | Err e => Err e
      | Ok m => Ok (mknstats n degree cross (Some (std0 m)) prev)
      end
  end.

(** * Saving and loading *)
Fixpoint state_dict (n : net) : sdict :=
  match n with
  | Plain c w _ => w
  | Discard n' | Scaled n' _ => map (fun kt => (String.append "net." (fst kt), snd kt)) (state_dict n')
  end.
(* torch's load_state_dict with strict=True: RuntimeError for missing and unexpected names and for wrong shapes; otherwise the numbers are copied *)
Definition load (ks : list (string * list nat)) (d : sdict) : res sdict :=
  if forallb (fun k => match lookup (fst k) d with Some t => if list_eq_dec Nat.eq_dec (fst t) (snd k) then true else false | None => false end) ks
     && forallb (fun kt => existsb (fun k => String.eqb (fst kt) (fst k)) ks) d
  then Ok (map (fun k => (fst k, match lookup (fst k) d with Some t => t | None => ([], []) end)) ks) else Err RuntimeError.
(* utilities.py 53-57  load_net for the class, and for DiscardLastOutputNet around an instance of it; [.eval()] *)
Definition load_net (c : nclass) (d : sdict) : res net := match load (keys c) d with Err e => Err e | Ok w => Ok (Plain c w false) end.
Definition load_discard (c : nclass) (d : sdict) : res net :=
  match load (map (fun k => (String.append "net." (fst k), snd k)) (keys c)) d with
  | Err e => Err e
  | Ok w => Ok (Discard (Plain c (combine (map fst (keys c)) (map snd w)) false))
  end.
(** What is on disk: the state_dict, and the scaler if one was written *)
Definition disk := (sdict * option scaler)%type.
(* statistics.py 503-527  save_net; [path]: whether path_to_scaler is given *)
Definition save_net (s : nstats) (path : bool) : res disk :=
  match nnet s with
  | Scaled n sc => if path then Ok (state_dict n, Some sc) else Err RuntimeError
  | n => Ok (state_dict n, None)
  end.
(* statistics.py 390-501  fromFile; [file]: what path_to_scaler leads to, if given *)
Definition fromFile (d : sdict) (class : option nclass) (file : option scaler) (i o : option nat) (hidden : option (list nat)) (degree : nat) (cross : bool) (refs : option mat)
    (prev : option stats) : res nstats :=
  match (match class, i, o, hidden with
         | None, Some i', Some o', _ => Ok (default_class relu i' o' hidden)
         | Some c, None, None, None => Ok c
         | _, _, _, _ => Err RuntimeError
         end) with
  | Err e => Err e
  | Ok c =>
      match (match load_net c d with Err RuntimeError => load_discard c d | r => r end) with
      | Err e => Err e
      | Ok n => new_embedding (match file with Some sc => Scaled n sc | None => n end) degree cross refs prev
      end
  end.

(** * Training *)
Section Training.
  Variable draw : Z -> res (list (list xr) * option (list (list (list xr)))).
  Variable randints : nat -> list Z.
  (** What the training routine compares with: the parameters themselves (SemiautomaticNN) or the similarity matrix (compute_similarity_matrix, distance learning), computed
      from the table of parameters. *)
  Variable label : Type.
  Variable labels : mat -> res label.
  (** freshly initialised parameters of a class *)
  Variable initial : nclass -> sdict.
  (** the argument embedding_net: a module, a list of sizes or None, something else *)
  Inductive netarg := GivenNet (c : nclass) (w : sdict) (training : bool) | Sizes (hidden : option (list nat)) | OtherArg.
  (** the tensors the training routine works on *)
  Record tdata := mktdata { inputs : mat; targets : label; vinputs : option mat; vtargets : option label }.
  (** the parameters after training for the given number of epochs *)
  Variable optimise : tdata -> nat -> nclass -> sdict -> res sdict.

  Definition optscale (s : option scaler) (m : mat) : res mat := match s with Some s => scale s m | None => Ok m end.
  (* the validation set is used when it is not empty (459, 1317) *)
  Definition validation (l : learned) : option (mat * mat) :=
    match valid l with Some (p, s) => if length (mrows p) =? 0 then None else Some (p, s) | None => None end.
  (* trainer.py 33-133: train_epoch calls model.train(), test_epoch, which follows it if there is a validation loader, model.eval() *)
  Definition mode_after (training : bool) (epochs : nat) (has_val : bool) : bool := if epochs =? 0 then training else negb has_val.

  (** the attributes of the trained object *)
  Record trained := mktrained { t_net : net; t_scaler : option scaler; t_calc : stats; t_data : tdata }.
  (* statisticslearning.py 425-518  StatisticsLearningNN.__init__; [epochs]: n_epochs - start_epoch_training; samples are rounded to float32 by the data sets
     (datasets.py 22, 151), also the validation samples *)
  Definition train_nn (sc : stats) (n nval k : nat) (p s pv sv : option array) (scaled : bool) (arg : netarg) (epochs : nat) : res trained :=
    match init draw randints sc n nval k p s pv sv with
    | Err e => Err e
    | Ok l =>
        match train l with
        | None => Err AttributeError
        | Some (target, sims) =>
            let val := validation l in
            match labels target, (match val with Some (pm, _) => match labels pm with Err e => Err e | Ok y => Ok (Some y) end | None => Ok None end) with
            | Err e, _ | _, Err e => Err e
            | Ok y, Ok yv =>
                match (if scaled then match fit_minmax sims with Err e => Err e | Ok s => Ok (Some s) end else Ok None) with
                | Err e => Err e
                | Ok osc =>
                    match optscale osc sims, (match val with Some (_, sm) => match optscale osc sm with Err e => Err e | Ok x => Ok (Some x) end | None => Ok None end) with
                    | Err e, _ | _, Err e => Err e
                    | Ok x, Ok xv =>
                        match (match arg with
                               | GivenNet c w b => Ok (c, w, b)
                               | Sizes h => let c := default_class relu (mcols x) (mcols target) h in Ok (c, initial c, true)
                               | OtherArg => Err RuntimeError
                               end) with
                        | Err e => Err e
                        | Ok (c, w, b) =>
                            let data := mktdata (to32 x) y (option_map to32 xv) yv in
                            match optimise data epochs c w with
                            | Err e => Err e
                            | Ok w' => Ok (mktrained (Plain c w' (mode_after b epochs (match xv with Some _ => true | None => false end))) osc sc data)
                            end
                        end
                    end
                end
            end
        end
    end.
  (* 520-538  get_statistics *)
  Definition get_statistics (t : trained) : nstats :=
    mknstats (match t_scaler t with Some s => Scaled (t_net t) s | None => t_net t end) 1 false None (Some (t_calc t)).

  (** * The exponential family (statisticslearning.py 1006-1476) *)
  (** a bound argument: an array, or something else *)
  Inductive bound := BArray (l : list (option R)) | BOther.
  (* the parameters of both networks after training (1540-1742); only those of the simulations network are kept here *)
  Variable optimise2 : mat -> mat -> option (mat * mat) -> nclass -> sdict -> netarg -> nat -> res sdict.
  (* whether the bounds are usable (1278-1284) *)
  Definition bounds_ok (lo up : option bound) : bool :=
    match lo, up with
    | Some BOther, _ | _, Some BOther => false
    | Some (BArray a), Some (BArray b) => length a =? length b
    | _, _ => true
    end.
  Definition bound_list (o : option bound) (w : nat) : list (option R) := match o with Some (BArray l) => l | _ => repeat None w end.
  Record expfam := mkexpfam { e_net : net; e_scaler : option scaler; e_calc : stats; e_train : mat; e_valid : option mat; e_inputs : mat; e_vinputs : option mat }.
  (* 1273-1427  __init__; [act]: nonlinearity_simulations (Softplus by default) *)
  Definition train_ef (sc : stats) (n nval : nat) (p s pv sv : option array) (lo up : option bound) (scale_samples scale_parameters : bool) (act : xr -> xr)
      (embedding_dimension : option nat) (arg parg : netarg) (epochs : nat) : res expfam :=
    if negb (bounds_ok lo up) then Err RuntimeError
    else match init draw randints sc n nval 1 p s pv sv with
    | Err e => Err e
    | Ok l =>
        match train l with
        | None => Err AttributeError
        | Some (pars, sims) =>
            let val := validation l in
            match (match lo, up, scale_samples with
                   | None, None, false => Ok None
                   | _, _, _ => match tf_init (bound_list lo (mcols sims)) (bound_list up (mcols sims)) with
                                | Err e => Err e
                                | Ok bs => match fit_bounded bs scale_samples sims with Err e => Err e | Ok s => Ok (Some s) end
                                end
                   end) with
            | Err e => Err e
            | Ok osc =>
                match optscale osc sims, (match val with Some (_, sm) => match optscale osc sm with Err e => Err e | Ok x => Ok (Some x) end | None => Ok None end) with
                | Err e, _ | _, Err e => Err e
                | Ok x, Ok xv =>
                    match (if scale_parameters then match fit_minmax pars with Err e => Err e | Ok s => Ok (Some s) end else Ok None) with
                    | Err e => Err e
                    | Ok psc =>
                        match optscale psc pars, (match val with Some (pm, _) => match optscale psc pm with Err e => Err e | Ok x => Ok (Some x) end | None => Ok None end) with
                        | Err e, _ | _, Err e => Err e
                        | Ok y, Ok yv =>
                            let dim := match embedding_dimension with Some d => d | None => mcols y end in
                            match arg, parg with
                            | OtherArg, _ | _, OtherArg => Err RuntimeError
                            | _, _ =>
                                let '(c, w) := match arg with GivenNet c w _ => (c, w) | Sizes h => let c := default_class act (mcols x) (dim + 1) h in (c, initial c) | OtherArg => (default_class act 0 0 None, []) end in
                                match optimise2 (to32 x) (to32 y) (match xv, yv with Some a, Some b => Some (to32 a, to32 b) | _, _ => None end) c w parg epochs with
                                | Err e => Err e
                                | Ok w' => Ok (mkexpfam (Plain c w' false) osc sc sims (option_map snd val) (to32 x) (option_map to32 xv))
                                end
                            end
                        end
                    end
                end
            end
        end
    end.
  (* 1429-1476  get_statistics *)
  Definition get_statistics_ef (e : expfam) (rescale_statistics : bool) : res nstats :=
    let n := match e_scaler e with Some s => Scaled (Discard (e_net e)) s | None => Discard (e_net e) end in
    if rescale_statistics then
      match new_embedding n 1 false (Some (match e_valid e with Some v => v | None => e_train e end)) None with
      | Err er => Err er
      | Ok s => Ok (mknstats (nnet s) (ndegree s) (ncross s) (nsd s) (Some (e_calc e)))
      end
    else new_embedding n 1 false None (Some (e_calc e)).
End Training.
End Pipeline.
