(** Similarity sets and datasets for distance learning (abcpy/NN_utilities/utilities.py 14-47,
    abcpy/NN_utilities/datasets.py 10-123). Reals without rounding. *)
From Coq Require Import Reals.
From Verif Require Import M_Base M_Num M_XReal M_MMD M_KNN.
Open Scope R_scope.

(** [dist2] (utilities.py 16-18) *)
Definition dist2 (x y : vec) : R := rsuml (map (fun ab => (fst ab - snd ab) * (fst ab - snd ab)) (combine x y)).
(** the double loop (30-34): every entry is assigned once *)
Definition pairwise (target : list vec) : list (list R) := map (fun x => map (dist2 x) target) target.
(** [pairwise_distances[~np.eye(n, dtype=bool)]] (36): the entries off the diagonal, row by row *)
Definition off_diag (M : list (list R)) : list R :=
  flat_map (fun ir => flat_map (fun jv => if (fst ir =? fst jv)%nat then [] else [snd jv]) (enum (snd ir))) (enum M).
(** [np.quantile(l, p)] with linear interpolation: not a number for an empty array, ValueError for p outside [0,1] *)
Definition np_quantile (l : list R) (p : R) : res xr :=
  if Rlt_dec p 0 then Err ValueError else if Rlt_dec 1 p then Err ValueError
  else match l with
       | [] => Ok XNaN
       | _ => let h := INR (length l - 1) * p in
              let lo := Z.to_nat (Int_part h) in
              let s := sortR l in
              let a := nth lo s 0 in
              let b := nth (Nat.min (S lo) (length l - 1)) s 0 in
              Ok (XR (a + (b - a) * (h - INR lo)))
       end.
Definition trues (row : list bool) : nat := length (filter (fun b => b) row).
(** [compute_similarity_matrix] (21-47). [(sum - n) / n**2 == 0] is taken on the integers: it holds iff sum = n and n > 0
    (for n = 0 it is 0/0, not a number). *)
Definition similarity (target : list vec) (quantile : R) : res (list (list bool)) :=
  let n := length target in
  let P := pairwise target in
  rthen (np_quantile (off_diag P) quantile) (fun q =>
  let S := map (map (fun d => xlt (XR d) q)) P in
  if ((fold_right plus 0 (map trues S) =? n) && negb (n =? 0))%nat%bool then Err RuntimeError else Ok S).

(** Datasets: the similarity matrix and the number of samples; items are given by sample numbers.
    [draw k] is the k-th random integer of the run, reduced to the range of the call; a loop takes its draws in order.
    A fuel bound stands for the unbounded loops: OutOfFuel means that the loop has not ended within the fuel. *)
Section Items.
Variable draw : nat -> nat.
(** [np.where(row)[0]], [np.where(row == False)[0]] *)
Definition where_ (b : bool) (row : list bool) : list nat := map fst (filter (fun jv => Bool.eqb (snd jv) b) (enum row)).
(** [i = index; while i == index: i = np.random.choice(cands)] (datasets.py 59-61, 71-73, 78-80, 113-116, 121-123) *)
Fixpoint draw_other (fuel : nat) (cands : list nat) (index k : nat) : res (nat * nat) :=
  match fuel with
  | O => Err OutOfFuel
  | S fuel' => match cands with
               | [] => Err ValueError
               | _ => let c := nth (draw k mod length cands) cands 0%nat in
                      if (c =? index)%nat then draw_other fuel' cands index (S k) else Ok (c, S k)
               end
  end.
Definition row_of (S : list (list bool)) (i : nat) : res (list bool) := match nth_error S i with Some r => Ok r | None => Err IndexError end.
Definition item_of (r : list bool) (i : nat) : res bool := match nth_error r i with Some b => Ok b | None => Err IndexError end.
(** [SiameseSimilarities.__getitem__] (datasets.py 51-82); [u] is the value of np.random.uniform() and [n] the number of samples *)
Definition siamese (fuel : nat) (S : list (list bool)) (n : nat) (weight : option R) (u : R) (index : nat) : res (nat * nat * bool) :=
  let free := rthen (draw_other fuel (seq 0 n) index 0) (fun jk =>
              rthen (row_of S index) (fun r => rthen (item_of r (fst jk)) (fun t => Ok (index, fst jk, t)))) in
  match weight with
  | None => free
  | Some w => rthen (row_of S index) (fun r =>
              if (trues r <? 2)%nat then free
              else let target := if Rlt_dec u w then true else false in
                   rthen (draw_other fuel (where_ target r) index 0) (fun jk => Ok (index, fst jk, target)))
  end.
(** the search for another anchor (datasets.py 103-109): draws from [randint(0, n)] until a row with two similar samples *)
Fixpoint new_anchor (fuel : nat) (S : list (list bool)) (n index k : nat) : res (nat * nat) :=
  match fuel with
  | O => Err OutOfFuel
  | Datatypes.S fuel' =>
      if (n =? 0)%nat then Err ValueError
      else let c := (draw k mod n)%nat in
           rthen (row_of S c) (fun r =>
           let c' := if (trues r <? 2)%nat then index else c in
           if (c' =? index)%nat then new_anchor fuel' S n index (Datatypes.S k) else Ok (c', Datatypes.S k))
  end.
(** [TripletSimilarities.__getitem__] (datasets.py 96-125) *)
Definition triplet (fuel : nat) (S : list (list bool)) (n index : nat) : res (nat * nat * nat) :=
  rthen (row_of S index) (fun r0 =>
  rthen (if (trues r0 <? 2)%nat then new_anchor fuel S n index 0 else Ok (index, 0%nat)) (fun ak =>
  rthen (row_of S (fst ak)) (fun r =>
  rthen (draw_other fuel (where_ true r) (fst ak) (snd ak)) (fun pk =>
  rthen (draw_other fuel (where_ false r) (fst ak) (snd pk)) (fun nk => Ok (fst ak, fst pk, fst nk)))))).
End Items.
(** [ParameterSimulationPairs.__init__] and [__getitem__] (datasets.py 138-163) *)
Definition pairs_init {A B} (sims : list A) (pars : list B) : res (list A * list B) :=
  if negb (length sims =? length pars)%nat then Err RuntimeError else Ok (sims, pars).
Definition pairs_item {A B} (d : list A * list B) (i : nat) : res (A * B) :=
  match nth_error (fst d) i with
  | None => Err IndexError
  | Some s => match nth_error (snd d) i with None => Err IndexError | Some p => Ok (s, p) end
  end.
