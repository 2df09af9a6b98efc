(** Model of abcpy/inferences.py, class APMCABC (2826-3175). *)
From Verif Require Import M_Base M_Num M_Infer M_PMCABC M_RSMCABC.

Section APMC.
Variables Theta Rng Y : Type.
Variable setp : Theta -> Theta -> bool * Theta.
Variable pdfv : Theta -> Theta -> num.
Variable kupd : pop Theta -> nat -> Rng -> Rng * Theta.
Variable kpdf : pop Theta -> Theta -> Theta -> num.
Variable prior : Rng -> Rng * Theta.
Variable simc : Theta -> Rng -> Rng * option Y.
Variable dist : Y -> num.
Variable mkrng : Z -> Rng.
Variable reseed : Rng -> Rng.
Variable choice : nat -> list num -> Rng -> res (Rng * nat).

(* inferences.py:3095-3149  returns get_parameters, distance, weight, counter (and the graph afterwards).  The kernel densities are taken
   over all retained particles; lists of rows and of weights have equal length (filtered by the same mask). *)
Definition ap_accept (mgr : option (pop Theta)) (fuel : nat) (seed : Z) (cur : Theta) : res (Theta * num * num * nat * Theta) :=
  let r := reseed (mkrng seed) in
  match mgr with
  | None =>
      let '(r1, th) := prior r in
      let '(r2, y) := simc th r1 in
      match y with None => Err TypeError | Some y => Ok (th, dist y, Fin 1, 1, th) end
  | Some p =>
      match choice (length (p_w p)) (p_w p) r with Err e => Err e | Ok (r1, i) =>
      match propose Theta Rng (pop Theta) setp kupd pdfv fuel p i cur r1 with Err e => Err e | Ok (cur1, r2, th) =>
      let '(r3, y) := simc cur1 r2 in
      match y with None => Err TypeError | Some y =>
      let '(prior_prob, cur2) := pdf_of_prior Theta setp pdfv th cur1 in
      let denominator := nsum (map (fun wr => nmul (fst wr) (kpdf p (snd wr) th)) (combine (p_w p) (p_rows p))) in
      Ok (cur2, dist y, ndiv (nmul (Fin 1) prior_prob) denominator, 1, cur2)
      end end end
  end.

(** [z_alpha]: retained rows, weights, distances; [z_stop]: the loop was left by break *)
Record astate := mkast { z_eps : list num; z_alpha : option (list Theta * list num * list num); z_mgr : option (pop Theta); z_count : nat;
                         z_cur : Theta; z_hist : list (rec Theta); z_recs : list (rec Theta); z_conf : option (list num); z_stop : bool }.
Definition bfilter {A} (bs : list bool) (l : list A) : list A := map snd (filter fst (combine bs l)).

(* inferences.py:2966-3082  one iteration.  [k] = round(n_samples * alpha), assumed at most n_samples.  The manager is left with the
   whole population when the iteration is recorded, and is given the retained one at the start of the next iteration. *)
Definition ap_step (n k steps : nat) (alpha cutoff : Q) (full_output : nat) (fuel aStep : nat) (seed : nat -> Z) (s : astate) : res astate :=
  let n_additional := match aStep with 0 => n | _ => n - k end in
  let mgr := match z_alpha s with Some (rows, ws, _) => Some (mkpop rows ws) | None => z_mgr s end in
  match mapT (fun sd c => match ap_accept mgr fuel sd c with Err e => Err e | Ok (th, d, w, cnt, c') => Ok ((th, d, w, cnt), c') end)
             (seeds_of seed n_additional) (z_cur s) with
  | Err e => Err e
  | Ok ([], _) => Err ValueError
  | Ok (results, cur1) =>
    let new_rows := map (fun x => fst (fst (fst x))) results in
    let new_ds := map (fun x => snd (fst (fst x))) results in
    let new_ws := map (fun x => snd (fst x)) results in
    let count := fold_left (fun a x => a + snd x) results (z_count s) in
    match (if length new_ws =? n then
             match percentile new_ds (alpha * 100) with Err e => Err e | Ok e => Ok (new_rows, new_ds, new_ws, 1%Q, [e], e) end
           else match z_alpha s, rev (z_eps s) with
                | Some (rows, ws, ds), e0 :: _ =>
                    match percentile (ds ++ new_ds) (alpha * 100) with
                    | Err e => Err e
                    | Ok e => Ok (rows ++ new_rows, ds ++ new_ds, ws ++ new_ws,
                                  (inject_Z (Z.of_nat (length (filter (fun d => nlt d e0) new_ds))) / inject_Z (Z.of_nat (length new_ds)))%Q, z_eps s ++ [e], e)
                    end
                | _, _ => Err TypeError
                end) with
    | Err e => Err e
    | Ok (rows, ds, ws, prob_acceptance, epsilon, eps) =>
      let index_alpha := map (fun d => nlt d eps) ds in
      let arows := bfilter index_alpha rows in
      let sel := bfilter index_alpha ws in
      let aws := normalise sel in
      let ads := bfilter index_alpha ds in
      let r := mkrec rows ds ws count in
      let recorded := ((full_output =? 1) && (aStep <=? steps - 1)) || ((full_output =? 0) && (aStep =? steps - 1)) in
      let stop := negb (Qle_bool cutoff prob_acceptance) in
      Ok (mkast epsilon (Some (arows, aws, ads)) (Some (if recorded then mkpop rows ws else mkpop arows aws)) count cur1 (z_hist s ++ [r])
            (if recorded then z_recs s ++ [r] else z_recs s) (if stop then z_conf s else Some epsilon) stop)
    end
  end.
Fixpoint ap_iterate (n k steps : nat) (alpha cutoff : Q) (full_output : nat) (fuel aStep todo : nat) (seed : nat -> nat -> Z) (s : astate) : res astate :=
  match todo with
  | 0 => Ok s
  | S todo' => match ap_step n k steps alpha cutoff full_output fuel aStep (seed aStep) s with
               | Err e => Err e
               | Ok s' => if z_stop s' then Ok s' else ap_iterate n k steps alpha cutoff full_output fuel (S aStep) todo' seed s'
               end
  end.
(* inferences.py:2891-3084; on a restart the journal's population plays the retained one *)
Definition ap_sample (steps n : nat) (alpha cutoff : Q) (full_output : nat) (journal : option (pop Theta)) (fuel : nat) (seed : nat -> nat -> Z)
    (mgr0 : option (pop Theta)) (cur0 : Theta) (count0 : nat) : res astate :=
  let k := Z.to_nat (pyround (inject_Z (Z.of_nat n) * alpha)) in
  ap_iterate n k steps alpha cutoff full_output fuel 0 steps seed
    (mkast [] None (match journal with Some p => Some p | None => mgr0 end) count0 cur0 [] [] None false).
End APMC.
