(** The training routines for learning statistics: abcpy/NN_utilities/algorithms.py (contrastive_training, triplet_training, FP_nn_training), the data loaders they build
    and the default arguments they share.  The loop over the epochs is M_Trainer.fit, the items of the data sets are those of M_Similarity, the losses those of M_Losses.
    Simplifications: tensors of samples are lists of rows; a batch is the list of its items (stacking keeps their order); the network works row by row (no batch
    normalisation); a GPU is present when cuda is true (statisticslearning.py 440-446); logging and progress bars are left out. *)
From Coq Require Import Reals.
From Verif Require Import M_Base M_Num M_XReal M_MMD M_KNN M_Similarity M_Losses M_Infer M_Trainer.
Open Scope nat_scope.

Inductive dev := Cpu | Gpu.
(** Keyword arguments of a DataLoader, as a dictionary in the order of insertion; truth values are 0 and 1. *)
Inductive key := KWorkers | KPin | KDrop | KBatch | KShuffle | KOther (k : nat).
Definition keq (a b : key) : bool :=
  match a, b with KWorkers, KWorkers | KPin, KPin | KDrop, KDrop | KBatch, KBatch | KShuffle, KShuffle => true | KOther i, KOther j => i =? j | _, _ => false end.
Definition kwargs := list (key * Z).
Fixpoint kget (d : kwargs) (k : key) : option Z := match d with [] => None | (k', v) :: d' => if keq k k' then Some v else kget d' k end.
Fixpoint kset (d : kwargs) (k : key) (v : Z) : kwargs := match d with [] => [(k, v)] | (k', v') :: d' => if keq k k' then (k', v) :: d' else (k', v') :: kset d' k v end.
(* dict.update *)
Definition kupdate (d e : kwargs) : kwargs := fold_left (fun d kv => kset d (fst kv) (snd kv)) e d.
(** Dictionaries are objects: the store gives the contents of each. *)
Definition store := nat -> kwargs.
Definition supd (s : store) (a : nat) (d : kwargs) : store := fun b => if b =? a then d else s b.

(* algorithms.py 46-52, 120-126, 192-198  loader_kwargs_2 *)
Definition extra (cuda load_all : bool) : kwargs :=
  if cuda then (if load_all then [(KWorkers, 0%Z); (KPin, 0%Z)] else [(KWorkers, 1%Z); (KPin, 1%Z)]) else [].
(* 35, 43, 109, 117, 183, 190  the device of the data sets *)
Definition data_dev (cuda load_all : bool) : dev := if cuda && load_all then Gpu else Cpu.

(** torch.utils.data.DataLoader *)
Record loader := mkloader { l_batch : nat; l_shuffle : bool; l_workers : Z; l_pin : bool; l_drop : bool }.
Definition istrue (o : option Z) : bool := match o with Some z => negb (z =? 0)%Z | None => false end.
(* DataLoader(dataset, batch_size=, shuffle=, **kw) for a data set of length n: a keyword given twice or unknown is a TypeError, a negative number of workers and a batch
   size that is not positive are ValueErrors, and so is shuffling an empty data set *)
Definition data_loader (n batch : nat) (shuffle : bool) (kw : kwargs) : res loader :=
  if existsb (fun kv => match fst kv with KBatch | KShuffle | KOther _ => true | _ => false end) kw then Err TypeError
  else if match kget kw KWorkers with Some z => (z <? 0)%Z | None => false end then Err ValueError
  else if (n =? 0) && shuffle then Err ValueError
  else if batch =? 0 then Err ValueError
  else Ok (mkloader batch shuffle (match kget kw KWorkers with Some z => z | None => 0%Z end) (istrue (kget kw KPin)) (istrue (kget kw KDrop))).
(* the batches of a BatchSampler: consecutive pieces; with drop_last an incomplete piece at the end is left out *)
Fixpoint chunks {A} (fuel b : nat) (l : list A) : list (list A) :=
  match fuel with 0 => [] | S f => match l with [] => [] | _ => firstn b l :: chunks f b (skipn b l) end end.
Definition pieces {A} (b : nat) (drop : bool) (l : list A) : list (list A) :=
  let cs := chunks (length l) b l in if drop then filter (fun c => length c =? b) cs else cs.

Inductive kind := Contrastive | Triplet | FP.

(** *** Optimisers and schedulers *)
Inductive okey := OLr | OOther (k : nat).
(** the class ([None]: Adam), the learning rate and the keyword arguments *)
Record optimiser := mkopt { o_class : option nat; o_lr : R; o_kw : list (okey * Z) }.
Inductive sched := StepLR (size : nat) (gamma : R) | Given (c : nat) (kw : list (nat * Z)).

Section Routines.
  (** rows of the samples, rows of the parameters (float32 tensors), weights of the network with the state of the optimiser *)
  Variables X Y W : Type.
  (** astype("float32") (datasets.py 21, 149, 153) *)
  Variable cast : X -> X.
  Variable castY : Y -> Y.
  (** the coordinates of a row of parameters; what the network makes of a row with given weights *)
  Variable coords : Y -> list R.
  Variable emb : W -> X -> list R.
  (** loss.item(): the double nearest to the loss *)
  Variable item_ : xr -> num.
  (** optimizer.zero_grad(); loss.backward(); optimizer.step() for the loss as a function of the weights, with a learning rate *)
  Variable update : optimiser -> R -> (W -> xr) -> W -> W.
  (** the learning rate a given scheduler class sets after a number of calls of step() *)
  Variable custom_rate : nat -> list (nat * Z) -> R -> nat -> R.
  (** RandomSampler: the order of the indices below n in an epoch *)
  Variable perm : nat -> nat -> list nat.
  (** the random numbers met by an item: for training (true) or validation, in an epoch, for an index *)
  Variable draws : bool -> nat -> nat -> nat -> nat.
  Variable unif : bool -> nat -> nat -> R.
  Variable fuel : nat.

  (** the second argument of the routines: a similarity matrix or the parameters *)
  Inductive labels := Sim (S : list (list bool)) | Pars (ys : list Y).
  Inductive dataset := DPairs (xs : list X) (S : list (list bool)) (w : option R) | DTriplets (xs : list X) (S : list (list bool)) | DLab (xs : list X) (ys : list Y).
  Definition dlen (d : dataset) : nat := match d with DPairs xs _ _ => length xs | DTriplets xs _ => length xs | DLab _ ys => length ys end.
  (* algorithms.py 35-36, 109-110, 183 with datasets.py 14-32, 44-49, 91-94, 138-155.  A second argument of the wrong sort is not modelled (TypeError). *)
  Definition make (k : kind) (w : option R) (xs : list X) (l : labels) : res dataset :=
    match k, l with
    | Contrastive, Sim M => Ok (DPairs (map cast xs) M w)
    | Triplet, Sim M => Ok (DTriplets (map cast xs) M)
    | FP, Pars ys => if negb (length xs =? length ys) then Err RuntimeError else Ok (DLab (map cast xs) (map castY ys))
    | _, _ => Err TypeError
    end.

  (** An item: the inputs of the network and the target: nothing, an element of the similarity tensor, a python integer, a row of parameters. *)
  Inductive target := NoTarget | TensorT (b : bool) | IntT (b : bool) | Par (y : Y).
  Definition item := (list X * target)%type.
  Definition pick {A} (l : list A) (i : nat) : res A := match nth_error l i with Some x => Ok x | None => Err IndexError end.
  (* datasets.py 51-82: the target is an element of the tensor similarity_matrix, except when a weight is given and the sample has similar ones *)
  Definition target_kind (S : list (list bool)) (w : option R) (i : nat) (t : bool) : target :=
    match w, nth_error S i with Some _, Some r => if trues r <? 2 then TensorT t else IntT t | _, _ => TensorT t end.
  Definition get_item (train : bool) (epoch : nat) (d : dataset) (i : nat) : res item :=
    match d with
    | DPairs xs M w =>
        match siamese (draws train epoch i) fuel M (length xs) w (unif train epoch i) i with
        | Err e => Err e
        | Ok (a, b, t) => rthen (pick xs a) (fun x1 => rthen (pick xs b) (fun x2 => Ok ([x1; x2], target_kind M w i t)))
        end
    | DTriplets xs M =>
        match M_Similarity.triplet (draws train epoch i) fuel M (length xs) i with
        | Err e => Err e
        | Ok (a, p, m) => rthen (pick xs a) (fun x1 => rthen (pick xs p) (fun x2 => rthen (pick xs m) (fun x3 => Ok ([x1; x2; x3], NoTarget))))
        end
    | DLab xs ys => rthen (pick xs i) (fun x => rthen (pick ys i) (fun y => Ok ([x], Par y)))
    end.
  (* default_collate of the targets: the first one decides.  torch.stack refuses integers among tensors (TypeError); torch.tensor accepts tensors of one element among
     integers. *)
  Definition collate (b : list item) : res (list item) :=
    match b with
    | (_, TensorT _) :: rest => if existsb (fun it => match snd it with IntT _ => true | _ => false end) rest then Err TypeError else Ok b
    | _ => Ok b
    end.
  Fixpoint all_ok {A B} (f : A -> res B) (l : list A) : res (list B) :=
    match l with [] => Ok [] | a :: l' => rthen (f a) (fun b => rthen (all_ok f l') (fun bs => Ok (b :: bs))) end.
  (** a batch remembers its epoch: when epoch e begins, scheduler.step() has been called e times (trainer.py 30-31, 58; C60_run) *)
  Definition batch := (nat * list item)%type.
  (* one pass over a loader *)
  Definition load (train : bool) (ld : loader) (d : dataset) (epoch : nat) : res (list batch) :=
    all_ok (fun is => rthen (all_ok (get_item train epoch d) is) (fun b => rthen (collate b) (fun b => Ok (epoch, b))))
      (pieces (l_batch ld) (l_drop ld) (if l_shuffle ld then perm epoch (dlen d) else seq 0 (dlen d))).

  (** *** The loss of a batch: networks.py 18-21, 39-43 (the embedding of each input), losses.py, nn.MSELoss(reduction="mean").  Outputs and parameters of different
      sizes (broadcasting) are not modelled. *)
  Definition bit (t : target) : R := match t with TensorT true | IntT true => 1%R | _ => 0%R end.
  Definition row (t : target) : list R := match t with Par y => coords y | _ => [] end.
  Definition input (j : nat) (f : X -> list R) (it : item) : list R := match nth_error (fst it) j with Some x => f x | None => [] end.
  Definition loss_of (k : kind) (margin : R) (f : X -> list R) (b : list item) : xr :=
    match k with
    | Contrastive => reduce true (contrastive_rows margin (map (input 0 f) b) (map (input 1 f) b) (map (fun it => bit (snd it)) b))
    | Triplet => reduce true (triplet_rows margin (map (input 0 f) b) (map (input 1 f) b) (map (input 2 f) b))
    | FP => reduce true (concat (map (fun it => map (fun ab => ((fst ab - snd ab) * (fst ab - snd ab))%R) (combine (input 0 f it) (row (snd it)))) b))
    end.

  (** *** The routines *)
  Record args := mkargs {
    samples : list X; labs : labels; samples_val : option (list X); labs_val : option labels; cuda : bool; load_all : bool; batch_size : nat;
    n_epochs : nat; start_epoch : nat; interval : nat; start_es : nat; early : bool; weight : option R; margin : R; lr : option R;
    opt_class : option nat; opt_kw : list (okey * Z); sched_class : option nat; sched_kw : list (nat * Z) }.
  (** what is built before the training begins *)
  Record setup := mksetup { s_data : dataset; s_loader : loader; s_val : option (dataset * loader); s_opt : optimiser; s_sched : sched; s_dev : dev }.

  (* 70-76, 144-150, 214-217: optim.Adam(parameters, lr=lr, **optimizer_kwargs), or the given class: a learning rate given twice is a TypeError, and so is one that is None (FP_nn_training has
     no default for it in its body) *)
  Definition optimizer (k : kind) (a : args) : res optimiser :=
    if existsb (fun kv => match fst kv with OLr => true | _ => false end) (opt_kw a) then Err TypeError
    else match k, lr a with
         | FP, None => Err TypeError
         | _, None => Ok (mkopt (opt_class a) (/ 1000)%R (opt_kw a))
         | _, Some r => Ok (mkopt (opt_class a) r (opt_kw a))
         end.
  (* 78-81, 152-155, 219-222 *)
  Definition scheduler (a : args) : sched := match sched_class a with None => StepLR 8 1 | Some c => Given c (sched_kw a) end.
  Definition rate (sc : sched) (r : R) (steps : nat) : R :=
    match sc with StepLR size gamma => (r * gamma ^ (steps / size))%R | Given c kw => custom_rate c kw r steps end.

  (* 18-81, 93-155, 166-222: up to the call of fit; [lk]: the object bound to loader_kwargs *)
  Definition prepare (k : kind) (s : store) (lk : nat) (a : args) : store * res setup :=
    match make k (weight a) (samples a) (labs a) with
    | Err e => (s, Err e)
    | Ok d =>
        match samples_val a, labs_val a with
        | None, Some _ | Some _, None => (s, Err RuntimeError)
        | xv, lv =>
            match (match xv, lv with Some x, Some l => rthen (make k (weight a) x l) (fun d => Ok (Some d)) | _, _ => Ok None end) with
            | Err e => (s, Err e)
            | Ok dv =>
                let kw := kupdate (s lk) (extra (cuda a) (load_all a)) in
                (supd s lk kw,
                 rthen (data_loader (dlen d) (batch_size a) true kw) (fun ld =>
                 rthen (match dv with Some v => rthen (data_loader (dlen v) (batch_size a) false kw) (fun l => Ok (Some (v, l))) | None => Ok None end) (fun vl =>
                 rthen (optimizer k a) (fun o => Ok (mksetup d ld vl o (scheduler a) (data_dev (cuda a) (load_all a)))))))
            end
        end
    end.
  (* trainer.py 77-79, 117-119: data.cuda() if cuda; the network has been moved by .cuda() (67, 141, 211).  A network and data in different places: RuntimeError when the
     network is applied. *)
  Definition same_place (cuda : bool) (data net : dev) : bool :=
    match (if cuda then Gpu else data), (if cuda then Gpu else net) with Cpu, Cpu | Gpu, Gpu => true | _, _ => false end.
  Definition placed (cuda : bool) (data net : dev) (l : res (list batch)) : res (list batch) :=
    match l with Ok [] => Ok [] | Ok bs => if same_place cuda data net then Ok bs else Err RuntimeError | Err e => Err e end.
  (* 84-90, 158-163, 225-230; [nd]: where the network is at the call *)
  Definition train (k : kind) (nd : dev) (a : args) (u : setup) (w : W) : res (W * list num * option (list num)) :=
    let loss (b : list item) (w : W) : xr := loss_of k (margin a) (emb w) b in
    rthen (fit W batch
             (fun w b => (update (s_opt u) (rate (s_sched u) (o_lr (s_opt u)) (fst b)) (loss (snd b)) w, item_ (loss (snd b) w)))
             (fun w b => item_ (loss (snd b) w))
             (fun e => placed (cuda a) (s_dev u) nd (load true (s_loader u) (s_data u) e))
             (match s_val u with None => None | Some (d, l) => Some (fun e => placed (cuda a) (s_dev u) nd (load false l d e)) end)
             w (n_epochs a) (start_epoch a) (interval a) (start_es a) (early a))
          (fun r => Ok (fst r)).
  Definition routine (k : kind) (s : store) (lk : nat) (nd : dev) (a : args) (w : W) : store * res (W * list num * option (list num)) :=
    match prepare k s lk a with
    | (s', Err e) => (s', Err e)
    | (s', Ok u) => (s', train k nd a u w)
    end.

  (** statisticslearning.py 554-559, 701-706, 859-864: the default of the argument loader_kwargs is one object per class, made when the class is defined, and is handed
      on to the routine *)
  Variable default_object : kind -> nat.
  Definition bound_kwargs (k : kind) (given : option nat) : nat := match given with Some o => o | None => default_object k end.
  Definition construct (k : kind) (s : store) (given : option nat) (nd : dev) (a : args) (w : W) := routine k s (bound_kwargs k given) nd a w.
End Routines.
