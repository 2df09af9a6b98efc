(** What the plots of a journal should show (C80). *)
From Coq Require Import QArith.
From Verif Require Import M_Base M_Journal M_Kernel M_Plot.

(** the weighted mean of numbers *)
Definition weighted_mean (ws xs : list Q) : Q :=
  (fold_right Qplus 0 (map (fun p => fst p * snd p) (combine ws xs)) / fold_right Qplus 0 ws)%Q.
(** the range from the smallest to the largest number, widened on both sides by a twentieth of its length *)
Definition Padded (xs : list Q) (lim : Q * Q) : Prop :=
  exists m M, In m xs /\ In M xs /\ (forall x, In x xs -> m <= x <= M)%Q /\ lim = (m - (1 # 20) * (M - m), M + (1 # 20) * (M - m))%Q.
(** a journal entry with one number for every sample of every parameter *)
Definition univariate {Name} (all : list Name) (col : Name -> list Q) : list (Name * list (list kval)) :=
  map (fun n => (n, map (fun x => [KA [x]]) (col n))) all.

Section Read.
Context {Name S C D : Type}.
Variable neqb : Name -> Name -> bool.
(** the iteration can be read: the parameters [all] with one number per sample, one weight for each of at least two samples, the weights do not cancel *)
Definition Readable (j : journal Name kval S C D) (it : option Z) (all : list Name) (col : Name -> list Q) (ws : list Q) : Prop :=
  get_parameters j it = Ok (univariate all col) /\ get_weights j it = Ok (Col ws) /\ length (j_weights j) = length (j_names j)
  /\ 2 <= length ws /\ (forall n, In n all -> length (col n) = length ws) /\ ~ (fold_right Qplus 0 ws == 0)%Q.
(** the given ranges of displayed parameters are a list of two numbers, a tuple of two numbers or an array of shape (2, 1) *)
Definition RightRange (v : limits) (lim : Q * Q) : Prop :=
  match v with
  | LList l => map snd l = [fst lim; snd lim] /\ exists q, nth_error l 0 = Some (true, q)
  | LTuple l => l = [fst lim; snd lim]
  | LArray shape l => shape = [2; 1] /\ l = [fst lim; snd lim]
  end.
(** every displayed range is the given one, or the padded range of the samples *)
Definition Ranged (given : list (Name * limits)) (names : list Name) (col : Name -> list Q) (lim : Name -> Q * Q) : Prop :=
  forall n, In n names -> match dget neqb given n with Some v => RightRange v (lim n) | None => Padded (col n) (lim n) end.
(** the names to display: those of the first entry of the journal, or some of them *)
Definition Displayed (j : journal Name kval S C D) (show : option (list Name)) (names : list Name) : Prop :=
  exists d0, nth_error (j_names j) 0 = Some d0 /\ match show with None => names = map fst d0 | Some l => names = l /\ incl l (map fst d0) end.
Definition given (r : option (list (Name * limits))) : list (Name * limits) := match r with Some r => r | None => [] end.
(** what the caller has to provide *)
Definition Setting (j : journal Name kval S C D) (show : option (list Name)) (r : option (list (Name * limits))) (it : option Z) (truth : option (list Q))
    (all : list Name) (col : Name -> list Q) (ws : list Q) (names : list Name) : Prop :=
  Readable j it all col ws /\ Displayed j show names /\ names <> [] /\ NoDup names /\ incl names all
  /\ (forall n v, In n names -> dget neqb (given r) n = Some v -> exists lim, RightRange v lim)
  /\ match truth with Some t => length t = length names | None => True end.
(** the samples are drawn if asked for, by default if all weights are one *)
Definition SamplesShown (sh : option bool) (ws : list Q) (b : bool) : Prop := b = true <-> match sh with Some x => x = true | None => Forall (fun w => w == 1)%Q ws end.
(** the dictionary of ranges afterwards: the given ranges, and the displayed ranges of the displayed parameters without one *)
Definition RangesAfter (r0 r1 : list (Name * limits)) (names : list Name) (lim : Name -> Q * Q) : Prop :=
  forall n, match dget neqb r0 n with
            | Some v => dget neqb r1 n = Some v
            | None => (In n names -> exists v, dget neqb r1 n = Some v /\ RightRange v (lim n)) /\ (~ In n names -> dget neqb r1 n = None)
            end.
(** a warning for samples drawn although they are weighted, and one for a range of a parameter that is not displayed *)
Definition Warned (sh : option bool) (ws : list Q) (r0 : list (Name * limits)) (names : list Name) (w : list warning) : Prop :=
  (In WSamples w <-> sh = Some true /\ ~ Forall (fun w => w == 1)%Q ws) /\ (In WRange w <-> exists n, In n (map fst r0) /\ ~ In n names).
End Read.

Section Shown.
Context {Name : Type}.
(** the displayed names, the samples of a parameter, the weights, the plotted range and the mean of a parameter, the true values, three options *)
Variables (names : list Name) (col : Name -> list Q) (ws : list Q) (lim : Name -> Q * Q) (mean : Name -> Q) (truth : option (list Q)) (samples show_mean write_mean : bool).
Definition named (i : nat) (n : Name) : Prop := nth_error names i = Some n.
Definition true_value (i : nat) (v : Q) : Prop := exists t, truth = Some t /\ nth_error t i = Some v.
(** the joint marginal of the y-th parameter (horizontal) and the x-th (vertical) *)
Inductive PairShown (x y : nat) (nx ny : Name) : art Name -> Prop :=
| pair_points : samples = true -> PairShown x y nx ny (Points (col ny) (col nx))
| pair_contour : PairShown x y nx ny (Contour (col ny) (col nx) ws (lim ny) (lim nx))
| pair_limits : PairShown x y nx ny (Limits (lim ny) (lim nx))
| pair_mean_h : show_mean = true -> PairShown x y nx ny (HLine Red (V0 (mean nx)) (lim ny))
| pair_mean_v : show_mean = true -> PairShown x y nx ny (VLine Red (V0 (mean ny)) (lim nx))
| pair_true_h v : true_value x v -> PairShown x y nx ny (HLine Green (V0 v) (lim ny))
| pair_true_v v : true_value y v -> PairShown x y nx ny (VLine Green (V0 v) (lim nx)).
(** the marginal of the i-th parameter *)
Inductive SingleShown (i : nat) (n : Name) : art Name -> Prop :=
| single_curve : SingleShown i n (Curve (col n) ws (lim n))
| single_limits : SingleShown i n (XLimits (lim n))
| single_mean : show_mean = true -> SingleShown i n (Marker Red (V0 (mean n)))
| single_true v : true_value i v -> SingleShown i n (Marker Green (V0 v))
| single_text : write_mean = true -> SingleShown i n (MeanText (mean n)).
(** all marginals and joint marginals, in a square of panels *)
Inductive MatrixShown : nat * nat -> art Name -> Prop :=
| m_pair x y nx ny a : x <> y -> named x nx -> named y ny -> PairShown x y nx ny a -> MatrixShown (x, y) a
| m_single i n a : named i n -> SingleShown i n a -> MatrixShown (i, i) a
| m_title i n : named i n -> MatrixShown (0, i) (Title n)
| m_ylabel i n : named i n -> 1 < length names -> MatrixShown (i, 0) (YLabel n)
| m_xlabel i n : named i n -> 1 < length names -> MatrixShown (length names - 1, i) (XLabel n)
| m_density : length names = 1 -> MatrixShown (0, 0) YDensity.
(** the marginals only, in a row *)
Inductive SinglesShown : nat * nat -> art Name -> Prop :=
| s_single i n a : named i n -> SingleShown i n a -> SinglesShown (0, i) a
| s_title i n : named i n -> SinglesShown (0, i) (Title n)
| s_density : SinglesShown (0, 0) YDensity.
(** every pair of parameters once, in a row: first the pair 1, 0, then 2, 0 and 2, 1, ... *)
Inductive DoublesShown : nat * nat -> art Name -> Prop :=
| d_pair k x y nx ny a : y < x -> 2 * k = x * (x - 1) + 2 * y -> named x nx -> named y ny -> PairShown x y nx ny a -> DoublesShown (0, k) a
| d_ylabel k x y nx : y < x -> 2 * k = x * (x - 1) + 2 * y -> named x nx -> DoublesShown (0, k) (YLabel nx)
| d_xlabel k x y nx ny : y < x -> 2 * k = x * (x - 1) + 2 * y -> named x nx -> named y ny -> DoublesShown (0, k) (XLabel ny).
End Shown.
(** the figure shows exactly this *)
Definition shows {Name} (f : figure Name) (P : nat * nat -> art Name -> Prop) : Prop := forall pos a, In (pos, a) (f_arts f) <-> P pos a.
