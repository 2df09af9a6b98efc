(** Model of abcpy/inferences.py, class ABCsubsim (2034-2443). *)
From Coq Require Import Qabs.
From Verif Require Import M_Base M_Num M_Infer M_PMCABC M_RSMCABC.

(** abs of a float *)
Definition nabs (a : num) : num := match a with Fin q => Fin (Qabs q) | NInf => PInf | _ => a end.

(** what the kernels use: their own copy of the parameters (kernel_parameters_bds) and the list of covariance matrices, of which kernel i
    uses entry i *)
Record kst (Theta Cov : Type) := mkkst { k_from : list Theta; k_covs : list Cov }.
Arguments mkkst {Theta Cov} _ _.
Arguments k_from {Theta Cov} _.
Arguments k_covs {Theta Cov} _.

Section Sub.
Variables Theta Rng Y Cov : Type.
Notation kst := (kst Theta Cov).
Variable setp : Theta -> Theta -> bool * Theta.
Variable pdfv : Theta -> Theta -> num.
Variable kupd : kst -> nat -> Rng -> Rng * Theta.
Variable kpdf : kst -> Theta -> Theta -> num.
(** kernel.calculate_cov for equally weighted parameters; cov_mat * pow(2.0, -2.0 * t) *)
Variable calc_cov : list Theta -> list Cov.
Variable shrink : nat -> Cov -> Cov.
Variable prior : Rng -> Rng * Theta.
Variable simc : Theta -> Rng -> Rng * option Y.
Variable dist : Y -> num.
Variable mkrng : Z -> Rng.
Variable reseed : Rng -> Rng.
Variable bern : num -> Rng -> res (Rng * bool).

(* inferences.py:2361-2391 and 2417-2437, the loop common to both: k moves proposed by perturbing row i of the kernels' parameters; the
   entries are (accepted, theta, distance) after each.  Kernels that were given no parameters have kernel_parameters_bds = None. *)
Fixpoint chain (ann : num) (p : option kst) (i fuel k : nat) (theta : Theta) (d : num) (cur : Theta) (r : Rng) (acc : list (bool * Theta * num))
    : res (list (bool * Theta * num) * Theta) :=
  match k with
  | 0 => Ok (acc, cur)
  | S k' =>
      match p with None => Err AttributeError | Some q =>
      match propose Theta Rng kst setp kupd pdfv fuel q i cur r with
      | Err e => Err e
      | Ok (cur1, r1, th) =>
          let '(r2, y) := simc cur1 r1 in
          match y with
          | None => Err TypeError
          | Some y =>
              let '(new_prob, cur2) := pdf_of_prior Theta setp pdfv th cur1 in
              let '(old_prob, cur3) := pdf_of_prior Theta setp pdfv theta cur2 in
              let pa := nmul (min1 (nmul (ndiv new_prob old_prob) (ndiv (kpdf q th theta) (kpdf q theta th)))) (if nlt (dist y) ann then Fin 1 else Fin 0) in
              match bern pa r2 with
              | Err e => Err e
              | Ok (r3, true) => chain ann p i fuel k' th (dist y) cur3 r3 (acc ++ [(true, th, dist y)])
              | Ok (r3, false) => chain ann p i fuel k' theta d cur3 r3 (acc ++ [(false, theta, d)])
              end
          end
      end end
  end.
(* inferences.py:2309-2392  _accept_parameter; results are (theta, distance) pairs, the counter, and the graph afterwards *)
Definition sb_accept (cl : nat) (ann : num) (bds : option (list Theta)) (p : option kst) (fuel : nat) (seed_idx : Z * nat) (cur : Theta)
    : res (list (Theta * num) * nat * Theta) :=
  let r := reseed (mkrng (fst seed_idx)) in
  match bds with
  | None => let '(r1, th) := prior r in
            let '(_, y) := simc th r1 in
            match y with None => Err TypeError | Some y => Ok ([(th, dist y)], 1, th) end
  | Some rows =>
      match nth_error rows (snd seed_idx) with
      | None => Err IndexError
      | Some theta =>
          let cur1 := snd (setp theta cur) in
          let '(r1, y) := simc cur1 r in
          match y with
          | None => Err TypeError
          | Some y =>
              match chain ann p (snd seed_idx) fuel (cl - 1) theta (dist y) cur1 r1 [] with
              | Err e => Err e
              | Ok (l, cur2) => Ok ((theta, dist y) :: map (fun x => (snd (fst x), snd x)) l, S (cl - 1), cur2)
              end
          end
      end
  end.
(* inferences.py:2394-2443  _update_cov_mat: number of accepted moves out of cl.  The transformed matrices are returned but not used by
   the moves, which perturb with the broadcast ones; so t = rng_t[1] plays no part here. *)
Definition cov_try (cl : nat) (ann : num) (bds : list Theta) (p : kst) (fuel : nat) (seed : Z) (cur : Theta) : res (nat * Theta) :=
  match bds with
  | [] => Err IndexError
  | theta :: _ =>
      match chain ann (Some p) 0 fuel cl theta NaN cur (reseed (mkrng seed)) [] with
      | Err e => Err e
      | Ok (l, cur') => Ok (length (filter (fun x => fst (fst x)) l), cur')
      end
  end.
(* inferences.py:2440-2443 (acceptance / 10 between 0.3 and 0.5) and 2258-2261: the first t accepted, if any *)
Definition good (a : nat) : bool := (3 <=? a) && (a <=? 5).
Definition pick_t (accs : list nat) : option nat := match filter (fun ta => good (snd ta)) (combine (seq 0 10) accs) with [] => None | (t, _) :: _ => Some t end.

(** [b_rows]: accepted and broadcast parameters; [b_kst]: what the kernels hold; [b_anns]: the annealing parameters so far; [b_covs]: the
    covariance lists at the ends of the iterations *)
Record bstate := mkbst { b_rows : option (list Theta); b_kst : option kst; b_anns : list num; b_count : nat; b_cur : Theta;
                         b_hist : list (rec Theta); b_recs : list (rec Theta); b_covs : list (list Cov); b_stop : bool }.

(* inferences.py:2149-2285  one iteration; [seed] for the chains, [seed2] for the ten covariance workers *)
Definition sb_step (n cl : nat) (cutoff : num) (full_output fuel aStep : nat) (seed seed2 : nat -> Z) (s : bstate) : res bstate :=
  let m := match aStep with 0 => n | _ => n / cl end in
  let ann0 := last (b_anns s) (Fin 0) in
  match mapT (fun si c => match sb_accept cl ann0 (b_rows s) (b_kst s) fuel si c with Err e => Err e | Ok (l, k, c') => Ok ((l, k), c') end)
             (combine (seeds_of seed m) (seq 0 m)) (b_cur s) with
  | Err e => Err e
  | Ok ([], _) => Err ValueError
  | Ok (results, cur1) =>
    let count1 := fold_left (fun a x => a + snd x) results (b_count s) in
    let all := concat (map fst results) in
    let sorted := ksort (combine (map snd all) (map fst all)) in
    let ds := map fst sorted in
    let rows := map snd sorted in
    if cl =? 0 then Err ZeroDivisionError else
    match nth_error ds (n / cl), nth_error ds (n / cl + 1) with
    | Some d1, Some d2 =>
      let ann := nmul (Fin (1 # 2)) (nadd d1 d2) in
      match (match aStep, b_kst s, b_rows s with
             | 0, _, _ => Ok (mkkst rows (calc_cov rows), rows)
             | _, Some p, Some old => Ok (mkkst (k_from p) (k_covs p ++ k_covs p), old)   (* pow(2, 1) * accepted_cov_mats repeats the list *)
             | _, _, _ => Err TypeError
             end) with
      | Err e => Err e
      | Ok (p, bds) =>
        match mapT (fun sd c => cov_try cl ann bds p fuel sd c) (seeds_of seed2 10) cur1 with
        | Err e => Err e
        | Ok (accs, cur2) =>
          let covs := match pick_t accs with None => k_covs p | Some t => map (shrink t) (k_covs p) end in
          let count := count1 + 10 * cl in
          let r := mkrec rows ds (repeat (Fin 1) n) count in
          let change := ndiv (nmul (Fin 100) (nabs (nsub ann0 ann))) (nabs ann) in
          Ok (mkbst (Some rows) (Some (mkkst (k_from p) covs)) (b_anns s ++ [ann]) count cur2 (b_hist s ++ [r]) (if full_output =? 1 then b_recs s ++ [r] else b_recs s)
                (b_covs s ++ [covs]) (nlt change cutoff))
        end
      end
    | _, _ => Err IndexError
    end
  end.
Fixpoint sb_iterate (n cl : nat) (cutoff : num) (full_output fuel aStep todo : nat) (seed seed2 : nat -> nat -> Z) (s : bstate) : res bstate :=
  match todo with
  | 0 => Ok s
  | S todo' => match sb_step n cl cutoff full_output fuel aStep (seed aStep) (seed2 aStep) s with
               | Err e => Err e
               | Ok s' => if b_stop s' then Ok s' else sb_iterate n cl cutoff full_output fuel (S aStep) todo' seed seed2 s'
               end
  end.
(* inferences.py:2092-2306 on a fresh object; with steps = 0 the final output refers to unassigned variables *)
Definition sb_sample (steps n cl : nat) (cutoff : num) (full_output fuel : nat) (seed seed2 : nat -> nat -> Z) (cur0 : Theta) (count0 : nat) : res bstate :=
  match sb_iterate n cl cutoff full_output fuel 0 steps seed seed2 (mkbst None None [] count0 cur0 [] [] [] false) with
  | Err e => Err e
  | Ok s => match rev (b_hist s) with
            | [] => Err UnboundLocalError
            | r :: _ => Ok (if full_output =? 0 then mkbst (b_rows s) (b_kst s) (b_anns s) (b_count s) (b_cur s) (b_hist s) (b_recs s ++ [r]) (b_covs s) (b_stop s) else s)
            end
  end.
(* the same when a journal file is given, for steps > 0: the first iteration then runs chains from the journal's parameters with kernels
   that hold none.  Everything after the map is modelled only as far as it fails for chain_length 0 and 1; for larger chain_length the map
   fails already (or there is nothing to map). *)
Definition sb_restart (n cl : nat) (fuel : nat) (seed : nat -> Z) (rows : list Theta) (cur0 : Theta) : res unit :=
  match mapT (fun si c => match sb_accept cl NaN (Some rows) None fuel si c with Err e => Err e | Ok (l, k, c') => Ok ((l, k), c') end)
             (combine (seeds_of seed n) (seq 0 n)) cur0 with
  | Err e => Err e
  | Ok ([], _) => Err ValueError
  | Ok (results, _) =>
    if cl =? 0 then Err ZeroDivisionError else
    match nth_error (map snd (concat (map fst results))) (n / cl), nth_error (map snd (concat (map fst results))) (n / cl + 1) with
    | Some _, Some _ => Ok tt
    | _, _ => Err IndexError
    end
  end.
End Sub.
