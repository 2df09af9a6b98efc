(** What the workers of the inference schemes do with the model graph (abcpy/inferences.py): programs of calls of the walks of
    graphtools.py, run on the graph itself.  The models of the schemes (M_Infer, M_Rejection, M_PMCABC, ...) run the same calls on a
    parameter vector; C95 relates the two. *)
From Verif Require Import M_Base M_Num M_Graph M_PMCABC.

Definition Vec := list (list Q).
Definition Data := list (option (list (list Q))).
(** The calls that a worker makes: sample_from_prior, get_parameters, set_parameters, pdf_of_prior, simulate (graphtools.py:9-28,
    252-293, 295-346, 90-187, 396-421) and draws from its random generator by anything but the graph (kernels, choice, reseeding).
    What kernel.update does with the graph (get_correct_ordering, mappings: C01, C04) only reads its structure and is part of [Rand]. *)
Inductive prog (A : Type) : Type :=
| Done (r : res A)
| Prior (k : prog A)
| Get (k : Vec -> prog A)
| Put (th : Vec) (k : bool -> prog A)
| Dens (th : Vec) (k : num -> prog A)
| Simu (k : option Data -> prog A)
| Rand (X : Type) (f : nat -> res (nat * X)) (k : X -> prog A).
Arguments Done {A} r.
Arguments Prior {A} k.
Arguments Get {A} k.
Arguments Put {A} th k.
Arguments Dens {A} th k.
Arguments Simu {A} k.
Arguments Rand {A X} f k.
(** one program after the other *)
Fixpoint pbind {A B} (p : prog A) (f : A -> prog B) : prog B :=
  match p with
  | Done (Ok a) => f a
  | Done (Err e) => Done (Err e)
  | Prior k => Prior (pbind k f)
  | Get k => Get (fun v => pbind (k v) f)
  | Put th k => Put th (fun b => pbind (k b) f)
  | Dens th k => Dens th (fun q => pbind (k q) f)
  | Simu k => Simu (fun y => pbind (k y) f)
  | Rand h k => Rand h (fun x => pbind (k x) f)
  end.
(** backend.map with the sequential backend (backends/base.py:200-230) *)
Fixpoint pmap {A B} (f : A -> prog B) (l : list A) : prog (list B) :=
  match l with
  | [] => Done (Ok [])
  | x :: l' => pbind (f x) (fun y => pbind (pmap f l') (fun ys => Done (Ok (y :: ys))))
  end.

(** ** On the graph *)
Definition with_ctr (s : st) (r : nat) : st := M_Graph.mkst (vis s) (val s) (cpdf s) r (tr s).
Definition known (x : option (list Q)) : list Q := match x with Some v => v | None => [] end.
(** [tries] bounds the loop of sample_from_prior, [k] is n_samples_per_param.
    Simplification: a parameter without a value (never sampled) is read as the empty vector. *)
Fixpoint on_graph (g : graph) (roots : list nat) (tries k : nat) {A} (p : prog A) : M st A :=
  match p with
  | Done r => lift r
  | Prior c => sample_from_prior g roots tries ;;; on_graph g roots tries k c
  | Get c => l <- get_parameters g roots ;; on_graph g roots tries k (c (map known l))
  | Put th c => v <- set_parameters g roots th ;; on_graph g roots tries k (c (fst v))
  | Dens th c => q <- M_Graph.pdf_of_prior g roots th ;; on_graph g roots tries k (c (Fin q))
  | Simu c => y <- simulate g (depth roots) roots k ;; on_graph g roots tries k (c y)
  | Rand f c => fun s => match f (ctr s) with
                         | Err e => (s, Err e)
                         | Ok (r, x) => on_graph g roots tries k (c x) (with_ctr s r)
                         end
  end.

(** ** On a parameter vector: the operations that the models of the schemes are written with *)
Section Vector.
Variable setp : Vec -> Vec -> bool * Vec.
Variable pdfv : Vec -> Vec -> num.
Variable prior : nat -> nat * Vec.
Variable simc : Vec -> nat -> nat * option Data.
Fixpoint on_vector {A} (p : prog A) (cur : Vec) (r : nat) : res (A * Vec * nat) :=
  match p with
  | Done (Ok a) => Ok (a, cur, r)
  | Done (Err e) => Err e
  | Prior c => let '(r', th) := prior r in on_vector c th r'
  | Get c => on_vector (c cur) cur r
  | Put th c => let '(b, cur') := setp th cur in on_vector (c b) cur' r
  | Dens th c => let '(v, cur') := M_Infer.pdf_of_prior Vec setp pdfv th cur in on_vector (c v) cur' r
  | Simu c => let '(r', y) := simc cur r in on_vector (c y) cur r'
  | Rand f c => match f r with Err e => Err e | Ok (r', x) => on_vector (c x) cur r' end
  end.
End Vector.

(** ** The workers as programs *)
Section Workers.
Variable Pop : Type.
Variable kupd : Pop -> nat -> nat -> nat * Vec.
(* inferences.py:104-124 *)
Fixpoint w_perturb_loop (p : Pop) (i : nat) (left epoch : nat) (last : option Vec) : prog (nat * Vec) :=
  match left with
  | 0 => Done (match last with Some th => Ok (epoch, th) | None => Err UnboundLocalError end)
  | S left' => Rand (fun r => Ok (kupd p i r)) (fun th => Put th (fun accepted =>
                 if accepted then Done (Ok (epoch, th)) else w_perturb_loop p i left' (S epoch) (Some th)))
  end.
(* inferences.py:85-129 *)
Definition w_perturb (epochs : nat) (p : Pop) (i : nat) : prog (option Vec) :=
  pbind (w_perturb_loop p i epochs 0 None) (fun et => Done (Ok (if Nat.eqb (fst et) 10 then None else Some (snd et)))).
(* inferences.py:1016-1020 *)
Fixpoint w_propose (fuel : nat) (p : Pop) (i : nat) : prog Vec :=
  match fuel with
  | 0 => Done (Err OutOfFuel)
  | S f => pbind (w_perturb 100 p i) (fun o =>
             match o with
             | None => w_propose f p i
             | Some th => Dens th (fun v => if neqb v (Fin 0) then w_propose f p i else Done (Ok th))
             end)
  end.
End Workers.

Section Schemes.
Variable kupd : pop Vec -> nat -> nat -> nat * Vec.
Variable kpdf : pop Vec -> Vec -> Vec -> num.
Variable dist : Data -> num.
Variable dist_max : num.
Variable mkrng : Z -> nat.
Variable reseed : nat -> nat.
Variable choice : nat -> list num -> nat -> res (nat * nat).
(* inferences.py:667-707  RejectionABC._sample_parameter *)
Fixpoint w_rejection_loop (eps : num) (fuel : nat) (theta : option Vec) (d : num) (counter : nat) : prog (Vec * num * nat) :=
  if nlt eps d then
    match fuel with
    | 0 => Done (Err OutOfFuel)
    | S f => Prior (Get (fun th => Simu (fun y => w_rejection_loop eps f (Some th) (match y with Some y => dist y | None => dist_max end) (S counter))))
    end
  else Done (match theta with Some th => Ok (th, d, counter) | None => Err UnboundLocalError end).
Definition w_rejection (eps : num) (fuel : nat) (seed : Z) : prog (Vec * num * nat) :=
  Rand (fun _ => Ok (mkrng seed, tt)) (fun _ => w_rejection_loop eps fuel None dist_max 0).
(* inferences.py:1003-1027 *)
Fixpoint w_resample_loop (eps : num) (n : nat) (mgr : option (pop Vec)) (fuel : nat) (theta : Vec) (d : num) (counter : nat) : prog (Vec * num * nat) :=
  if nlt eps d then
    match fuel with
    | 0 => Done (Err OutOfFuel)
    | S f =>
        match mgr with
        | None => Prior (Get (fun th => Simu (fun y =>
            match y with None => Done (Err TypeError) | Some y => w_resample_loop eps n mgr f th (dist y) (S counter) end)))
        | Some p => Rand (choice n (p_w p)) (fun i => pbind (w_propose (pop Vec) kupd fuel p i) (fun th => Simu (fun y =>
            match y with None => Done (Err TypeError) | Some y => w_resample_loop eps n mgr f th (dist y) (S counter) end)))
        end
    end
  else Done (Ok (theta, d, counter)).
(* inferences.py:974-1033  PMCABC._resample_parameter *)
Definition w_resample (eps : num) (n : nat) (mgr : option (pop Vec)) (fuel : nat) (seed : Z) : prog (Vec * num * nat) :=
  Rand (fun _ => Ok (reseed (mkrng seed), tt)) (fun _ => Get (fun theta => w_resample_loop eps n mgr fuel theta dist_max 0)).
(* inferences.py:1035-1067  PMCABC._calculate_weight *)
Definition w_weight (n : nat) (mgr : option (pop Vec)) (th : Vec) : prog num :=
  match mgr with
  | None => Done (Ok (M_Infer.ndiv (Fin 1) (Fin (inject_Z (Z.of_nat n)))))
  | Some p => Dens th (fun prior_prob =>
      if length (p_rows p) <? n then Done (Err IndexError)
      else if negb (length (p_w p) =? n) then Done (Err ValueError)
      else let denominator := M_Infer.nsum (map (fun wr => nmul (fst wr) (kpdf p (snd wr) th)) (combine (p_w p) (firstn n (p_rows p)))) in
           Done (Ok (M_Infer.ndiv (nmul (Fin 1) prior_prob) denominator)))
  end.
(* inferences.py:882-969  one iteration of PMCABC; see M_PMCABC.step *)
Definition w_step (n steps : nat) (a : Q) (full_output : nat) (restarted : bool) (fuel : nat) (aStep : nat) (seeds : list Z) (s : state Vec) : prog (state Vec) :=
  match nth_error (s_eps _ s) aStep with
  | None => Done (Err IndexError)
  | Some None => Done (Err TypeError)
  | Some (Some eps) =>
    let mgr := match s_acc _ s with Some p => Some p | None => s_mgr _ s end in
    pbind (pmap (w_resample eps n mgr fuel) seeds) (fun results =>
    match results with
    | [] => Done (Err ValueError)
    | _ =>
      let rows := map (fun x => fst (fst x)) results in
      let ds := map (fun x => snd (fst x)) results in
      let count := fold_left (fun a x => a + snd x) results (s_count _ s) in
      match (if aStep <? steps - 1 then
               match percentile ds a with
               | Err e => Err e
               | Ok pc => match nth_error (s_eps _ s) (aStep + 1) with
                          | None => Err IndexError
                          | Some None => Ok (lset (s_eps _ s) (aStep + 1) (Some pc))
                          | Some (Some u) => Ok (lset (s_eps _ s) (aStep + 1) (Some (nmax pc u)))
                          end
               end
             else Ok (s_eps _ s)) with
      | Err e => Done (Err e)
      | Ok eps' =>
        pbind (pmap (w_weight n mgr) rows) (fun ws =>
          let p := mkpop rows (normalise ws) in
          let r := mkrec rows ds (normalise ws) count in
          let '(eps'', conf') := if restarted then match s_conf _ s with
                                                   | NoConf => (eps', Alias)
                                                   | Alias => (eps' ++ eps', Alias)
                                                   | Own c => (eps', Own (c ++ eps'))
                                                   end
                                 else (eps', Alias) in
          Get (fun cur => Done (Ok (M_PMCABC.mkst _ eps'' (Some p) (Some p) count cur conf' (s_used _ s ++ [eps]) (s_hist _ s ++ [r])
            (if ((full_output =? 1) && (aStep <=? steps - 1)) || ((full_output =? 0) && (aStep =? steps - 1)) then s_recs _ s ++ [r] else s_recs _ s)))))
      end
    end)
  end.
Fixpoint w_iterate (n steps : nat) (a : Q) (full_output : nat) (restarted : bool) (fuel : nat) (aStep : nat) (seeds : list (list Z)) (s : state Vec) : prog (state Vec) :=
  match seeds with
  | [] => Done (Ok s)
  | sd :: seeds' => pbind (w_step n steps a full_output restarted fuel aStep sd s) (fun s' => w_iterate n steps a full_output restarted fuel (S aStep) seeds' s')
  end.
End Schemes.
