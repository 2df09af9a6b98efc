(** Model of abcpy/inferences.py, class RSMCABC (2446-2823). *)
From Verif Require Import M_Base M_Num M_Infer M_PMCABC.
From Coq Require Import Qround.

(** Python's round(x): nearest integer, ties to even (exact argument; the float product n_samples * alpha is not rounded here) *)
Definition pyround (x : Q) : Z :=
  let f := Qfloor x in
  let d := (x - inject_Z f)%Q in
  match Qcompare d (1 # 2) with Lt => f | Gt => (f + 1)%Z | Eq => if Z.even f then f else (f + 1)%Z end.
(** Python's min(1, x) *)
Definition min1 (x : num) : num := if nlt x (Fin 1) then x else Fin 1.
(** sorted(zip(ds, rows), key=lambda x: x[0]): stable (the order for NaN keys is not the one Python's sort would give) *)
Fixpoint kinsert {A} (x : num * A) (l : list (num * A)) : list (num * A) :=
  match l with [] => [x] | y :: l' => if nlt (fst y) (fst x) then y :: kinsert x l' else x :: l end.
Fixpoint ksort {A} (l : list (num * A)) : list (num * A) := match l with [] => [] | x :: l' => kinsert x (ksort l') end.
(** the worker seeds of an iteration: rng.randint(size=m) *)
Definition seeds_of (seed : nat -> Z) (m : nat) : list Z := map seed (seq 0 m).
(** np.ones((n, 1)) * (1 / n) *)
Definition ones (n : nat) : list num := repeat (ndiv (Fin 1) (Fin (inject_Z (Z.of_nat n)))) n.

Section RSMC.
Variables Theta Rng Y : Type.
Variable setp : Theta -> Theta -> bool * Theta.
Variable pdfv : Theta -> Theta -> num.
Variable kupd : pop Theta -> nat -> Rng -> Rng * Theta.
Variable kpdf : pop Theta -> Theta -> Theta -> num.
Variable prior : Rng -> Rng * Theta.
Variable simc : Theta -> Rng -> Rng * option Y.
Variable dist : Y -> num.
Variable dist_max : num.
Variable mkrng : Z -> Rng.
Variable reseed : Rng -> Rng.
(** rng.choice(n, size=1); rng.binomial(1, p) == 1 *)
Variable choiceU : nat -> Rng -> res (Rng * nat).
Variable bern : num -> Rng -> res (Rng * bool).
(** int(np.log(const) / np.log(1 - p)) *)
Variable newR : Q -> res Z.

(* inferences.py:2759-2767  while distance > self.epsilon[-1] *)
Fixpoint rs_prior (eps : num) (fuel : nat) (cur : Theta) (r : Rng) (d : num) (counter : nat) : res (Theta * num * nat * nat * Theta) :=
  if nlt eps d then
    match fuel with
    | 0 => Err OutOfFuel
    | S f =>
        let '(r1, th) := prior r in
        let '(r2, y) := simc th r1 in
        match y with None => Err TypeError | Some y => rs_prior eps f th r2 (dist y) (S counter) end
    end
  else Ok (cur, d, 1, counter, cur).
(* inferences.py:2772-2795  for ind in range(self.R); prior densities and kernel densities are divided as numpy floats *)
Fixpoint rs_moves (eps : num) (p : pop Theta) (dists : option (list num)) (i : nat) (theta : Theta) (fuel k : nat) (cur : Theta) (r : Rng) (d : num)
    (acc counter : nat) : res (Theta * num * nat * nat * Theta) :=
  match k with
  | 0 => Ok (cur, d, acc, counter, cur)
  | S k' =>
      match propose Theta Rng (pop Theta) setp kupd pdfv fuel p i cur r with
      | Err e => Err e
      | Ok (cur1, r1, th) =>
          let '(r2, y) := simc cur1 r1 in
          match y with
          | None => Err TypeError
          | Some y =>
              let '(new_prob, cur2) := pdf_of_prior Theta setp pdfv th cur1 in
              let '(old_prob, cur3) := pdf_of_prior Theta setp pdfv theta cur2 in
              let pa := min1 (nmul (ndiv new_prob old_prob) (ndiv (kpdf p th theta) (kpdf p theta th))) in
              let reject r := match dists with
                              | None => Err AttributeError
                              | Some ds => match nth_error ds i with
                                           | None => Err IndexError
                                           | Some d' => rs_moves eps p dists i theta fuel k' (snd (setp theta cur3)) r d' acc (S counter)
                                           end
                              end in
              if nlt (dist y) eps then
                match bern pa r2 with
                | Err e => Err e
                | Ok (r3, true) => rs_moves eps p dists i theta fuel k' cur3 r3 (dist y) (S acc) (S counter)
                | Ok (r3, false) => reject r3
                end
              else reject r2
          end
      end
  end.
(* inferences.py:2739-2797  returns get_parameters, distance, index_accept, counter (and the graph afterwards) *)
Definition rs_accept (eps : num) (R : Z) (mgr : option (pop Theta)) (dists : option (list num)) (fuel : nat) (seed : Z) (cur : Theta)
    : res (Theta * num * nat * nat * Theta) :=
  let r := reseed (mkrng seed) in
  match mgr with
  | None => rs_prior eps fuel cur r dist_max 0
  | Some p =>
      match choiceU (length (p_rows p)) r with
      | Err e => Err e
      | Ok (r1, i) => match nth_error (p_rows p) i with
                      | None => Err IndexError
                      | Some theta => rs_moves eps p dists i theta fuel (Z.to_nat R) cur r1 dist_max 0 0
                      end
      end
  end.

(** [q_acc]: accepted_parameters and accepted_dist between iterations; [q_dists]: what accepted_dist_bds holds; [q_eps]: the list epsilon *)
Record rstate := mkrst { q_eps : list num; q_R : Z; q_rep : nat; q_acc : option (list Theta * list num); q_mgr : option (pop Theta);
                         q_dists : option (list num); q_count : nat; q_cur : Theta; q_hist : list (rec Theta); q_recs : list (rec Theta) }.

(* inferences.py:2588-2722  one iteration.  [k] = round(n_samples * alpha), assumed at most n_samples.  Reaching the final threshold
   calls self.logger(...), and a logger is not callable. *)
Definition rs_step (n k steps : nat) (epsilon_init epsilon_final : num) (full_output : nat) (fuel aStep : nat) (seed : nat -> Z) (s : rstate) : res rstate :=
  match (match aStep with
         | 0 => Ok ([epsilon_init], epsilon_init, 1%Z, n)
         | _ => match q_acc s with
                | Some (_, ds) => match rev ds with [] => Err IndexError | e :: _ => Ok (q_eps s ++ [e], e, q_R s, q_rep s) end
                | None => Err TypeError
                end
         end) with
  | Err e => Err e
  | Ok (epsilon, eps, R, n_replenish) =>
    if nlt eps epsilon_final then Err TypeError else
    let dists := match aStep with 0 => q_dists s | _ => match q_acc s with Some (_, ds) => Some ds | None => q_dists s end end in
    match mapT (fun sd c => match rs_accept eps R (q_mgr s) dists fuel sd c with Err e => Err e | Ok (th, d, ix, cnt, c') => Ok ((th, d, ix, cnt), c') end)
               (seeds_of seed n_replenish) (q_cur s) with
    | Err e => Err e
    | Ok ([], _) => Err ValueError
    | Ok (results, cur1) =>
      let new_rows := map (fun x => fst (fst (fst x))) results in
      let new_ds := map (fun x => snd (fst (fst x))) results in
      let total := fold_left (fun a x => a + snd (fst x)) results 0 in
      let count := fold_left (fun a x => a + snd x) results (q_count s) in
      match (if length new_ds =? n then Ok (new_rows, new_ds)
             else match q_acc s with Some (rows, ds) => Ok (rows ++ new_rows, ds ++ new_ds) | None => Err TypeError end) with
      | Err e => Err e
      | Ok (rows, ds) =>
        let r := mkrec rows ds (ones (length rows)) count in
        let recs := if ((full_output =? 1) && (aStep <=? steps - 1)) || ((full_output =? 0) && (aStep =? steps - 1)) then q_recs s ++ [r] else q_recs s in
        match (if (R =? 0)%Z then Err ValueError
               else let pacc := (inject_Z (Z.of_nat total) / inject_Z (R * Z.of_nat n_replenish))%Q in
                    if Qeq_bool pacc 1 || Qeq_bool pacc 0 then Ok 1%Z else newR pacc) with
        | Err e => Err e
        | Ok R' =>
          let sorted := firstn (n - k) (ksort (combine ds rows)) in
          match sorted with
          | [] => Err ZeroDivisionError
          | _ => let keep := map snd sorted in
                 Ok (mkrst epsilon R' k (Some (keep, map fst sorted)) (Some (mkpop keep (ones (length keep)))) dists count cur1 (q_hist s ++ [r]) recs)
          end
        end
      end
    end
  end.
Fixpoint rs_iterate (n k steps : nat) (epsilon_init epsilon_final : num) (full_output : nat) (fuel aStep todo : nat) (seed : nat -> nat -> Z) (s : rstate) : res rstate :=
  match todo with
  | 0 => Ok s
  | S todo' => match rs_step n k steps epsilon_init epsilon_final full_output fuel aStep (seed aStep) s with
               | Err e => Err e
               | Ok s' => rs_iterate n k steps epsilon_init epsilon_final full_output fuel (S aStep) todo' seed s'
               end
  end.
(* inferences.py:2512-2724; [journal]: population of the journal file, if one is given; [mgr0], [dists0], [count0]: as earlier calls left them *)
Definition rs_sample (steps n : nat) (alpha : Q) (epsilon_init epsilon_final : num) (full_output : nat) (journal : option (pop Theta)) (fuel : nat)
    (seed : nat -> nat -> Z) (mgr0 : option (pop Theta)) (dists0 : option (list num)) (cur0 : Theta) (count0 : nat) : res rstate :=
  let k := Z.to_nat (pyround (inject_Z (Z.of_nat n) * alpha)) in
  rs_iterate n k steps epsilon_init epsilon_final full_output fuel 0 steps seed
    (mkrst [] 1 n None (match journal with Some p => Some p | None => mgr0 end) dists0 count0 cur0 [] []).
End RSMC.
