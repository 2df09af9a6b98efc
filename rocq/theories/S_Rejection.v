(** What one rejection loop is supposed to do. *)
From Verif Require Import M_Base M_Num M_Journal.

Section Spec.
Variables Rng Y Theta : Type.
Variable prior : Rng -> Rng * Theta.
Variable sim : Theta -> Rng -> Rng * option Y.
Variable dist : Y -> num.
Variable dist_max : num.
(** [Attempt r r' th d]: from generator state r, th is drawn from the prior, a data set is simulated from that th, and d is its
    distance to the observations (dist_max if the simulator gave nothing). *)
Definition Attempt (r r' : Rng) (th : Theta) (d : num) : Prop :=
  exists r1 y, prior r = (r1, th) /\ sim th r1 = (r', y) /\ d = match y with Some y => dist y | None => dist_max end.
(** [FirstHit eps r k th d]: among successive attempts started in r, the k-th is the first one whose distance is not above eps. *)
Inductive FirstHit (eps : num) : Rng -> nat -> Theta -> num -> Prop :=
| hit r r' th d : Attempt r r' th d -> nlt eps d = false -> FirstHit eps r 1 th d
| miss r r' th0 d0 k th d : Attempt r r' th0 d0 -> nlt eps d0 = true -> FirstHit eps r' k th d -> FirstHit eps r (S k) th d.
(** [Draws mkrng eps seeds rows ds ks]: for the i-th seed, row i, distance i and number of attempts i are those of the first hit of
    the generator made from that seed. *)
Definition Draws (mkrng : Z -> Rng) (eps : num) (seeds : list Z) (rows : list Theta) (ds : list num) (ks : list nat) : Prop :=
  length rows = length seeds /\ length ds = length seeds /\ length ks = length seeds
  /\ forall i seed, nth_error seeds i = Some seed ->
       exists k th d, nth_error rows i = Some th /\ nth_error ds i = Some d /\ nth_error ks i = Some k /\ FirstHit eps (mkrng seed) k th d.
End Spec.
Arguments Draws {Rng Y Theta} prior sim dist dist_max mkrng eps seeds rows ds ks.
Arguments Attempt {Rng Y Theta} prior sim dist dist_max r r' th d.
Arguments FirstHit {Rng Y Theta} prior sim dist dist_max eps r k th d.

(** [Kept neqb cols rows ds q threshold ns j]: journal j holds the pairs (row, distance) whose distance is strictly below the cut-off
    (quantile q of all distances, or the threshold), in order, with one weight 1 each, and the simulation counts ns. *)
Definition Kept {E Name} (neqb : Name -> Name -> bool) (cols : list (Name * (list E -> E)))
    (rows : list (list E)) (ds : list num) (q : option Q) (threshold : num) (ns : list nat) (j : journal Name E unit unit (list num)) : Prop :=
  exists cutoff rows' ds',
  match q with Some q => quantile ds q = Ok cutoff | None => cutoff = threshold end
  /\ combine rows' ds' = filter (fun rd => nlt (snd rd) cutoff) (combine rows ds) /\ length rows' = length ds' /\ rows' <> []
  /\ get_accepted_parameters j None = Ok rows' /\ get_distances j None = Ok ds' /\ get_weights j None = Ok (Col (repeat 1%Q (length rows')))
  /\ get_parameters j None = Ok (dict_of neqb (map (fun c => (fst c, map (fun row => [snd c row]) rows')) cols))
  /\ j_nsim j = ns /\ j_nsamples j = Some (length rows').
(** pairwise different numbers *)
Definition distinct (l : list Q) : Prop := forall i j, (i < j)%nat -> (j < length l)%nat -> ~ (nth i l 0 == nth j l 0)%Q.
