(** Model of abcpy/inferences.py, class PMCABC (710-1083). *)
From Verif Require Import M_Base M_Num M_Infer.

(** a map over the workers that share the graph's parameter vector (sequential backend; C09 relates it to MPI) *)
Fixpoint mapT {A B C} (f : A -> C -> res (B * C)) (l : list A) (c : C) : res (list B * C) :=
  match l with
  | [] => Ok ([], c)
  | x :: l' => match f x c with
               | Err e => Err e
               | Ok (y, c') => match mapT f l' c' with Err e => Err e | Ok (ys, c'') => Ok (y :: ys, c'') end
               end
  end.
(** list assignment l[i] = x, for an existing position *)
Definition lset {A} (l : list A) (i : nat) (x : A) : list A := firstn i l ++ match skipn i l with [] => [] | _ :: l' => x :: l' end.

(** accepted parameters and weights as broadcast (the covariance matrices are a function of them and of covFactor) *)
Record pop (Theta : Type) := mkpop { p_rows : list Theta; p_w : list num }.
Arguments mkpop {Theta} _ _.
Arguments p_rows {Theta} _.
Arguments p_w {Theta} _.
(** one iteration as recorded in the journal: add_accepted_parameters, add_distances, add_weights, number_of_simulations *)
Record rec (Theta : Type) := mkrec { r_rows : list Theta; r_ds : list num; r_w : list num; r_nsim : nat }.
Arguments mkrec {Theta} _ _ _ _.
Arguments r_rows {Theta} _.
Arguments r_ds {Theta} _.
Arguments r_w {Theta} _.
Arguments r_nsim {Theta} _.

(** journal.configuration["epsilon_arr"]: absent, the list epsilon_arr itself, or a list of its own *)
Inductive conf := NoConf | Alias | Own (l : list (option num)).

Section PMC.
Variables Theta Rng Y : Type.
Notation pop := (pop Theta).
Notation rec := (rec Theta).
Variable setp : Theta -> Theta -> bool * Theta.
Variable pdfv : Theta -> Theta -> num.
Variable kupd : pop -> nat -> Rng -> Rng * Theta.
(** kernel.pdf(mapping, manager, accepted_parameters[i], theta), the manager holding the given population *)
Variable kpdf : pop -> Theta -> Theta -> num.
(** sample_from_prior then get_parameters; simulate from the current parameter vector; distance; dist_max *)
Variable prior : Rng -> Rng * Theta.
Variable simc : Theta -> Rng -> Rng * option Y.
Variable dist : Y -> num.
Variable dist_max : num.
(** RandomState(seed); rng.seed(rng.randint(...)); rng.choice(n, p=weights) *)
Variable mkrng : Z -> Rng.
Variable reseed : Rng -> Rng.
Variable choice : nat -> list num -> Rng -> res (Rng * nat).

(* inferences.py:1003-1027  while distance > self.epsilon.  distance(observations, None) is a TypeError. *)
Fixpoint resample_loop (eps : num) (n : nat) (mgr : option pop) (fuel : nat) (cur : Theta) (r : Rng) (theta : Theta) (d : num) (counter : nat)
  : res (Theta * num * nat * Theta) :=
  if nlt eps d then
    match fuel with
    | 0 => Err OutOfFuel
    | S f =>
        match mgr with
        | None =>
            let '(r1, th) := prior r in
            let '(r2, y) := simc th r1 in
            match y with None => Err TypeError | Some y => resample_loop eps n mgr f th r2 th (dist y) (S counter) end
        | Some p =>
            match choice n (p_w p) r with Err e => Err e | Ok (r1, i) =>
            match propose Theta Rng pop setp kupd pdfv fuel p i cur r1 with Err e => Err e | Ok (cur1, r2, th) =>
            let '(r3, y) := simc cur1 r2 in
            match y with None => Err TypeError | Some y => resample_loop eps n mgr f cur1 r3 th (dist y) (S counter) end
            end end
        end
    end
  else Ok (theta, d, counter, cur).
(* inferences.py:974-1033; theta = self.get_parameters() before the loop *)
Definition resample_parameter (eps : num) (n : nat) (mgr : option pop) (fuel : nat) (seed : Z) (cur : Theta) : res (Theta * num * nat * Theta) :=
  resample_loop eps n mgr fuel cur (reseed (mkrng seed)) cur dist_max 0.

(* inferences.py:1035-1067.  numpy would also broadcast a weight vector of length 1 (not modelled). *)
Definition calculate_weight (n : nat) (mgr : option pop) (th cur : Theta) : res (num * Theta) :=
  match mgr with
  | None => Ok (ndiv (Fin 1) (Fin (inject_Z (Z.of_nat n))), cur)
  | Some p =>
      let '(prior_prob, cur') := pdf_of_prior Theta setp pdfv th cur in
      if length (p_rows p) <? n then Err IndexError
      else if negb (length (p_w p) =? n) then Err ValueError
      else let denominator := nsum (map (fun wr => nmul (fst wr) (kpdf p (snd wr) th)) (combine (p_w p) (firstn n (p_rows p)))) in
           Ok (ndiv (nmul (Fin 1) prior_prob) denominator, cur')
  end.
(* inferences.py:915-919 *)
Definition normalise (ws : list num) : list num := map (fun w => ndiv w (nsum ws)) ws.

Record state := mkst { s_eps : list (option num); s_acc : option pop; s_mgr : option pop; s_count : nat; s_cur : Theta;
                       s_conf : conf; s_used : list num; s_hist : list rec; s_recs : list rec }.

(* inferences.py:882-969  one iteration; [seeds] are the drawn worker seeds.  [restarted]: a journal file was given; then
   configuration["epsilon_arr"] += epsilon_arr extends an existing entry, which after the first iteration can be epsilon_arr itself
   (modelled for lists; an ndarray would be added elementwise).  [s_used], [s_hist] only keep what happened, for stating properties. *)
Definition step (n steps : nat) (a : Q) (full_output : nat) (restarted : bool) (fuel : nat) (aStep : nat) (seeds : list Z) (s : state) : res state :=
  match nth_error (s_eps s) aStep with
  | None => Err IndexError
  | Some None => Err TypeError
  | Some (Some eps) =>
    let mgr := match s_acc s with Some p => Some p | None => s_mgr s end in
    match mapT (fun seed c => match resample_parameter eps n mgr fuel seed c with Err e => Err e | Ok (th, d, k, c') => Ok ((th, d, k), c') end) seeds (s_cur s) with
    | Err e => Err e
    | Ok ([], _) => Err ValueError
    | Ok (results, cur1) =>
      let rows := map (fun x => fst (fst x)) results in
      let ds := map (fun x => snd (fst x)) results in
      let count := fold_left (fun a x => a + snd x) results (s_count s) in
      match (if aStep <? steps - 1 then
               match percentile ds a with
               | Err e => Err e
               | Ok pc => match nth_error (s_eps s) (aStep + 1) with
                          | None => Err IndexError
                          | Some None => Ok (lset (s_eps s) (aStep + 1) (Some pc))
                          | Some (Some u) => Ok (lset (s_eps s) (aStep + 1) (Some (nmax pc u)))
                          end
               end
             else Ok (s_eps s)) with
      | Err e => Err e
      | Ok eps' =>
        match mapT (calculate_weight n mgr) rows cur1 with
        | Err e => Err e
        | Ok (ws, cur2) =>
          let p := mkpop rows (normalise ws) in
          let r := mkrec rows ds (normalise ws) count in
          let '(eps'', conf') := if restarted then match s_conf s with
                                                   | NoConf => (eps', Alias)
                                                   | Alias => (eps' ++ eps', Alias)
                                                   | Own c => (eps', Own (c ++ eps'))
                                                   end
                                 else (eps', Alias) in
          Ok (mkst eps'' (Some p) (Some p) count cur2 conf'
                (s_used s ++ [eps]) (s_hist s ++ [r])
                (if ((full_output =? 1) && (aStep <=? steps - 1)) || ((full_output =? 0) && (aStep =? steps - 1)) then s_recs s ++ [r] else s_recs s))
        end
      end
    end
  end.
Fixpoint iterate (n steps : nat) (a : Q) (full_output : nat) (restarted : bool) (fuel : nat) (aStep : nat) (seeds : list (list Z)) (s : state) : res state :=
  match seeds with
  | [] => Ok s
  | sd :: seeds' => match step n steps a full_output restarted fuel aStep sd s with
                    | Err e => Err e
                    | Ok s' => iterate n steps a full_output restarted fuel (S aStep) seeds' s'
                    end
  end.
(* inferences.py:836-843 *)
Definition epsilon_arr (epsilon_init : list num) (steps : nat) : res (list (option num)) :=
  if length epsilon_init =? steps then Ok (map Some epsilon_init)
  else match epsilon_init with
       | [e] => match steps with 0 => Err IndexError | S m => Ok (Some e :: repeat None m) end
       | _ => Err ValueError
       end.
(** what a journal file provides: its last accepted parameters, weights, distances, and its epsilon_arr entry *)
Record restart := mkrs { rs_pop : pop; rs_ds : list num; rs_conf : option (list (option num)) }.
(* inferences.py:770-971; [mgr0], [cur0], [count0]: manager, graph and simulation_counter as earlier calls left them; [seeds]: per step,
   the worker seeds *)
Definition sample (steps : nat) (epsilon_init : list num) (n : nat) (a : Q) (full_output : nat) (journal_file : option restart)
    (fuel : nat) (seeds : list (list Z)) (mgr0 : option pop) (cur0 : Theta) (count0 : nat) : res state :=
  match epsilon_arr epsilon_init steps with
  | Err e => Err e
  | Ok arr =>
      match journal_file with
      | None => iterate n steps a full_output false fuel 0 seeds (mkst arr None mgr0 count0 cur0 NoConf [] [] [])
      | Some rs =>
          match arr with
          | Some e0 :: arr' =>
              match percentile (rs_ds rs) a with
              | Err e => Err e
              | Ok pc => iterate n steps a full_output true fuel 0 seeds
                           (mkst (Some (nmax pc e0) :: arr') (Some (rs_pop rs)) (Some (rs_pop rs)) count0 cur0
                              (match rs_conf rs with Some c => Own c | None => NoConf end) [] [] [])
              end
          | _ => iterate n steps a full_output true fuel 0 seeds (mkst arr None mgr0 count0 cur0 (match rs_conf rs with Some c => Own c | None => NoConf end) [] [] [])
          end
      end
  end.
(** what configuration["epsilon_arr"] holds at the end *)
Definition conf_value (s : state) : list (option num) := match s_conf s with NoConf => [] | Alias => s_eps s | Own l => l end.
End PMC.
