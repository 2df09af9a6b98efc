(** Model selection by random forests (/repo/abcpy/modelselections.py 91-262). *)
From Coq Require Import Reals.
From Verif Require Import M_Base M_Num M_XReal M_Stats M_Journal.
Open Scope nat_scope.

Section Select.
  (** Models are Python objects without [__eq__], compared by identity: an object is its address. *)
  Notation obj := nat.
  (** The state of self.rng and [randint(1, high, size=n)] (140, 191). *)
  Variable G : Type.
  Variable randints : G -> nat -> G * list Z.
  (** rng.multinomial(1, (1/m) * ones(m)) of RandomState(seed) (252-253): the counts. *)
  Variable multinomial : nat -> Z -> list nat.
  (** What follows on the same generator (254-257): [sim o k seed a] is the result of attempt a to simulate k data sets from the object o after its parameters were drawn
      from the prior; [None] when the model returned [False].  The first entry of the result, converted by tolist, is what is used; the others are the rest of the list. *)
  Variable sim : obj -> nat -> Z -> nat -> option (pydata * list pydata).
  (** Number of attempts after which the model gives up following the loop 256-257. *)
  Variable fuel : nat.
  (** The object at the leader for the object o returned by task i: o itself with the sequential backend (backends/base.py 161-180), a new copy with the backends that
      pickle results (backends/mpi.py). *)
  Variable ship : nat -> obj -> obj.
  (** sklearn's random forests: training on rows and labels (167-172; ValueError for other counts is added below), the class predicted for a row, the
      probability of a class for a row, and the regression forest's predictions. *)
  Variable Clf : Type.
  Variable train : nat -> list (list xr) -> list nat -> res Clf.
  Variable predict : Clf -> list xr -> nat.
  Variable proba : Clf -> list xr -> nat -> xr.
  Variable regress : list (list xr) -> list xr -> list xr -> xr.

  (** The selector: the candidates, the reference table once computed, the generator (101-124). *)
  Record table := mktable { tmodels : list obj; tdata : list pydata; tstats : mat }.
  Record sel := mksel { marr : list obj; scalc : stats; srng : G; stable : option table }.

  (* 252-253  int(sum(linspace(0, m-1, m) * counts)); linspace(0, m-1, m) is 0, 1, ..., m-1 exactly *)
  Definition drawn_index (m : nat) (counts : list nat) : nat := list_sum (map (fun ic => fst ic * snd ic) (combine (seq 0 m) counts)).
  (* 255-257 *)
  Fixpoint attempts (o : obj) (k : nat) (seed : Z) (f a : nat) : res pydata :=
    match f with
    | 0 => Err OutOfFuel
    | S f' => match sim o k seed a with Some (y, _) => Ok y | None => attempts o k seed f' (S a) end
    end.
  (* 235-261  _simulate_model_data *)
  Definition simulate_model_data (ms : list obj) (sc : stats) (k : nat) (seed : Z) : res (obj * pydata * mat) :=
    match ms with
    | [] => Err ZeroDivisionError
    | _ =>
        match nth_error ms (drawn_index (length ms) (multinomial (length ms) seed)) with
        | None => Err IndexError
        | Some o =>
            match attempts o k seed fuel 0 with
            | Err e => Err e
            | Ok y => match statistics sc y with Err e => Err e | Ok m => Ok (o, y, m) end
            end
        end
    end.
  (* np.concatenate of two-dimensional arrays (149, 200) *)
  Definition vstack (l : list mat) : res mat :=
    match l with
    | [] => Err ValueError
    | m :: ms => if forallb (fun m' => mcols m' =? mcols m) ms then Ok (mkmat (mcols m) (flat_map mrows (m :: ms))) else Err ValueError
    end.
  Definition indexed {A} (l : list A) : list (nat * A) := combine (seq 0 (length l)) l.
  (* 138-150, 189-201.  randint raises ValueError for an empty range (n = 1) and for n*n > 2^31; with n = 0 unpacking zip() raises ValueError. *)
  Definition build (s : sel) (n k : nat) : sel * res table :=
    match stable s with
    | Some t => (s, Ok t)
    | None =>
        if (n <=? 1) || (2147483648 <? Z.of_nat n * Z.of_nat n)%Z then (s, Err ValueError) else
        let (g', seeds) := randints (srng s) n in
        let s' := mksel (marr s) (scalc s) g' None in
        match mapR (simulate_model_data (marr s) (scalc s) k) seeds with
        | Err e => (s', Err e)
        | Ok rows =>
            match vstack (map snd rows) with
            | Err e => (s', Err e)
            | Ok m =>
                let t := mktable (map (fun io => ship (fst io) (snd io)) (indexed (map (fun r => fst (fst r)) rows))) (map (fun r => snd (fst r)) rows) m in
                (mksel (marr s) (scalc s) g' (Some t), Ok t)
            end
        end
    end.
  (* 153-157, 204-208 *)
  Definition label_of (ms : list obj) (o : obj) : nat := fold_left (fun lab io => if o =? snd io then fst io else lab) (indexed ms) 0.
  Definition labels (ms : list obj) (t : table) : list nat := map (label_of ms) (tmodels t).
  (* classifier.fit: as many labels as rows, else ValueError *)
  Definition fit (t : table) (labs : list nat) : res Clf :=
    if length (mrows (tstats t)) =? length labs then train (mcols (tstats t)) (mrows (tstats t)) labs else Err ValueError.
  (* 125-172  select_model *)
  Definition select_model (s : sel) (obs : pydata) (n k : nat) : sel * res obj :=
    let (s', r) := build s n k in
    (s', match r with
         | Err e => Err e
         | Ok t =>
             match fit t (labels (marr s) t) with
             | Err e => Err e
             | Ok c =>
                 match statistics (scalc s) obs with
                 | Err e => Err e
                 | Ok m =>
                     match mrows m with
                     | [row] => match nth_error (marr s) (predict c row) with Some o => Ok o | None => Err IndexError end
                     | _ => Err TypeError
                     end
                 end
             end
         end).

  (** [classes_]: the distinct labels seen in training, ascending (np.unique) *)
  Definition classes (labs : list nat) : list nat := filter (fun c => existsb (Nat.eqb c) labs) (seq 0 (S (list_max labs))).
  (* predict_proba(statistics(data))[0][label] (219-221) *)
  Definition own_probability (c : Clf) (sc : stats) (labs : list nat) (dl : pydata * nat) : res xr :=
    match statistics sc (fst dl) with
    | Err e => Err e
    | Ok m => match mrows m with
              | [] => Err ValueError
              | row :: _ => match nth_error (map (proba c row) (classes labs)) (snd dl) with Some p => Ok p | None => Err IndexError end
              end
    end.
  (* 215-222 *)
  Definition pred_error (c : Clf) (sc : stats) (labs : list nat) (data : list pydata) : res (list xr) :=
    mapR (fun dl => match own_probability c sc labs dl with Err e => Err e | Ok p => Ok (xsub (XR 1) p) end) (combine data labs).
  (* 174-233  posterior_probability: always one data set per parameter (187) *)
  Definition posterior_probability (s : sel) (obs : pydata) (n k : nat) : sel * res (list xr) :=
    let (s', r) := build s n 1 in
    (s', match r with
         | Err e => Err e
         | Ok t =>
             let labs := labels (marr s) t in
             match fit t labs with
             | Err e => Err e
             | Ok c =>
                 match pred_error c (scalc s) labs (tdata t) with
                 | Err e => Err e
                 | Ok errs =>
                     match statistics (scalc s) obs with
                     | Err e => Err e
                     | Ok m => Ok (map (fun row => xsub (XR 1) (regress (mrows (tstats t)) errs row)) (mrows m))
                     end
                 end
             end
         end).
End Select.
