(** What a run of PMCABC is supposed to be. *)
From Verif Require Import M_Base M_Num M_Infer M_PMCABC.

Section Spec.
Variables Theta Rng Y : Type.
Variable setp : Theta -> Theta -> bool * Theta.
Variable pdfv : Theta -> Theta -> num.
Variable kupd : pop Theta -> nat -> Rng -> Rng * Theta.
Variable kpdf : pop Theta -> Theta -> Theta -> num.
Variable prior : Rng -> Rng * Theta.
Variable simc : Theta -> Rng -> Rng * option Y.
Variable dist : Y -> num.
Variable dist_max : num.
Variable choice : nat -> list num -> Rng -> res (Rng * nat).
Variable n : nat.   (* n_samples *)
Variable a : Q.     (* epsilon_percentile *)

(** the distance d reported for parameters th is that of data simulated while the graph held th, or held what a refused assignment of th
    left behind *)
Definition Simulated (th : Theta) (d : num) : Prop :=
  exists c r r' y, simc c r = (r', Some y) /\ d = dist y /\ (c = th \/ exists c0, setp th c0 = (false, c)).
(** where new parameters come from: the prior, or a perturbation, of non-zero prior density, of a particle drawn with the given weights *)
Definition Drawn (mgr : option (pop Theta)) (th : Theta) : Prop :=
  match mgr with
  | None => exists r r', prior r = (r', th)
  | Some p => exists i r0 r1 r r' c, choice n (p_w p) r0 = Ok (r1, i) /\ kupd p i r = (r', th) /\ neqb (pdfv th c) (Fin 0) = false
  end.
(** a particle accepted at threshold eps (none is simulated when dist_max itself is not above eps) *)
Definition Particle (mgr : option (pop Theta)) (eps : num) (th : Theta) (d : num) : Prop :=
  nlt eps d = false /\ (d = dist_max \/ (Drawn mgr th /\ Simulated th d)).
(** unnormalised weight of th: 1/n without a previous population; otherwise prior density divided by the mixture density
    sum_i w_i K(th | th_i) of the previous population *)
Definition RawWeight (mgr : option (pop Theta)) (th : Theta) (w : num) : Prop :=
  match mgr with
  | None => w = ndiv (Fin 1) (Fin (inject_Z (Z.of_nat n)))
  | Some p => length (p_w p) = n /\ n <= length (p_rows p)
      /\ exists c, w = ndiv (nmul (Fin 1) (pdfv th (snd (setp th c))))
                            (nsum (map (fun wr => nmul (fst wr) (kpdf p (snd wr) th)) (combine (p_w p) (firstn n (p_rows p)))))
  end.
(** one iteration with previous population [mgr], [count] earlier simulations, threshold [eps] and these worker seeds; worker j adds
    ks_j simulations, at least one when dist_max is above the threshold *)
Definition Iter (mgr : option (pop Theta)) (count : nat) (eps : num) (seeds : list Z) (r : rec Theta) : Prop :=
  seeds <> [] /\ length (r_rows r) = length seeds /\ Forall2 (Particle mgr eps) (r_rows r) (r_ds r)
  /\ (exists ks, length ks = length seeds /\ (nlt eps dist_max = true -> Forall (fun k => 0 < k) ks) /\ r_nsim r = count + list_sum ks)
  /\ exists raw, Forall2 (RawWeight mgr) (r_rows r) raw /\ r_w r = map (fun w => ndiv w (nsum raw)) raw.
(** all iterations: the next threshold is the percentile of the distances just accepted, or the larger of it and the user's value; the
    next population is the one just accepted *)
Inductive Run : option (pop Theta) -> nat -> num -> list (option num) -> list (list Z) -> list num -> list (rec Theta) -> Prop :=
| run_last mgr count eps seeds r : Iter mgr count eps seeds r -> Run mgr count eps [] [seeds] [eps] [r]
| run_more mgr count eps u us seeds seeds' r pc es rs :
    Iter mgr count eps seeds r -> percentile (r_ds r) a = Ok pc ->
    Run (Some (mkpop (r_rows r) (r_w r))) (r_nsim r) (match u with None => pc | Some u => nmax pc u end) us seeds' es rs ->
    Run mgr count eps (u :: us) (seeds :: seeds') (eps :: es) (r :: rs).
End Spec.
Arguments Simulated {Theta Rng Y} setp simc dist th d.
Arguments Drawn {Theta Rng} pdfv kupd prior choice n mgr th.
Arguments Particle {Theta Rng Y} setp pdfv kupd prior simc dist dist_max choice n mgr eps th d.
Arguments RawWeight {Theta} setp pdfv kpdf n mgr th w.
Arguments Iter {Theta Rng Y} setp pdfv kupd kpdf prior simc dist dist_max choice n mgr count eps seeds r.
Arguments Run {Theta Rng Y} setp pdfv kupd kpdf prior simc dist dist_max choice n a _ _ _ _ _ _ _.

(** user thresholds of the later iterations: none given, or numbers none of which is larger than its predecessor *)
Fixpoint nonincreasing (e : num) (us : list (option num)) : Prop :=
  match us with
  | [] => True
  | None :: us' => Forall (fun u => u = None) us'
  | Some u :: us' => is_nan u = false /\ nle u e = true /\ nonincreasing u us'
  end.
Definition qsum (l : list Q) : Q := fold_right Qplus 0%Q l.
(** one strictly positive weight per particle, summing to one *)
Definition good_weights {Theta} (r : rec Theta) : Prop :=
  exists ws, r_w r = map Fin ws /\ length ws = length (r_rows r) /\ Forall (fun x => 0 < x)%Q ws /\ (qsum ws == 1)%Q.
