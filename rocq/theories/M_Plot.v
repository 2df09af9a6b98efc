(** Plots of a journal: [Journal.plot_posterior_distr] (abcpy/output.py 471-855), [plot_ESS] (857-884) and [traceplot] (962-1012).  A figure is the list of
    what is drawn into each of its axes.  Numbers are rationals, entries and weights are finite.  Not modelled: sizes, fonts, ticks, saving the figure; the
    kernel density estimate itself ([scipy.stats.gaussian_kde] on the recorded samples and weights, assumed not to raise), np.array of means of different shapes is an array of objects; and the upper limit of the vertical axis of
    a single marginal, which depends on it. *)
From Coq Require Import QArith ZArith.
From Verif Require Import M_Base M_MMD M_Journal M_Kernel.
Open Scope nat_scope.

(** A range given by the caller: a Python list (each entry with the flag "int or float"; numpy's integers are not), a tuple, a numpy array with its shape *)
Inductive limits := LList (l : list (bool * Q)) | LTuple (l : list Q) | LArray (shape : list nat) (l : list Q).
(* output.py:608-617  the test of a range; a shape is a tuple and never equal to the number 2; nothing is tested for a tuple *)
Definition limits_ok (r : limits) : bool :=
  match r with
  | LList l => (length l =? 2) && match l with (b, _) :: _ => b | [] => false end
  | LTuple _ => true
  | LArray shape _ => match shape with [a; b] => (a =? 2) && (b =? 1) | _ => false end
  end.
(* output.py:680, 681, 721, 800, 801  xmin, xmax = ranges_parameters[name] *)
Definition unpack (r : limits) : res (Q * Q) :=
  match r with
  | LList [(_, a); (_, b)] | LTuple [a; b] | LArray _ [a; b] => Ok (a, b)
  | _ => Err ValueError
  end.

(** what is drawn into an axes object *)
Inductive color := Red | Green.
Inductive art (Name : Type) :=
| Points (xs ys : list Q)                                   (* samples *)
| Contour (xs ys ws : list Q) (xlim ylim : Q * Q)           (* weighted density of the pairs, on a grid over the limits *)
| HLine (c : color) (v : avg) (span : Q * Q)                (* horizontal line at height v *)
| VLine (c : color) (v : avg) (span : Q * Q)
| Limits (xlim ylim : Q * Q)
| Curve (xs ws : list Q) (xlim : Q * Q)                     (* weighted density of the samples, on 100 points between the limits *)
| Marker (c : color) (v : avg)                              (* vertical line as high as the axes *)
| MeanText (q : Q)
| XLimits (xlim : Q * Q)
| Title (n : Name) | XLabel (n : Name) | YLabel (n : Name) | YDensity.
Arguments Points {Name}.
Arguments Contour {Name}.
Arguments HLine {Name}.
Arguments VLine {Name}.
Arguments Limits {Name}.
Arguments Curve {Name}.
Arguments Marker {Name}.
Arguments MeanText {Name}.
Arguments XLimits {Name}.
Arguments Title {Name}.
Arguments XLabel {Name}.
Arguments YLabel {Name}.
Arguments YDensity {Name}.
(** numbers of rows and columns, and what is drawn where, in order *)
Record figure (Name : Type) := mkfig { f_rows : nat; f_cols : nat; f_arts : list ((nat * nat) * art Name) }.
Arguments mkfig {Name}.
Arguments f_rows {Name} _.
Arguments f_cols {Name} _.
Arguments f_arts {Name} _.
Inductive warning := WSamples | WRange.

(** Python's [x is not y] for two integers produced by two loops: integers up to 256 are single objects *)
Definition is_not (x y : nat) : bool := negb (x =? y) || (256 <? x).

Section Plot.
Variables Name S C D : Type.
Variable neqb : Name -> Name -> bool.
Notation journal := (journal Name kval S C D).
Definition rdict := list (Name * limits).

Definition has {V} (d : list (Name * V)) (n : Name) : bool := match dget neqb d n with Some _ => true | None => false end.
Definition at_key {V} (d : list (Name * V)) (n : Name) : res V := match dget neqb d n with Some v => Ok v | None => Err KeyError end.
Definition at_index {A} (l : list A) (i : nat) : res A := match nth_error l i with Some x => Ok x | None => Err IndexError end.
Definition flat (v : kval) : list Q := match v with KS q => [q] | KA l => l end.

(* output.py:384-416  posterior_mean for entries that are numbers or arrays (np.array(...).squeeze() of a column) *)
Definition mean_of (j : journal) (it : option Z) : res (list (Name * avg)) :=
  let i := match it with Some i => i | None => (Z.of_nat (length (j_names j)) - 1)%Z end in
  rthen (pyget (j_names j) i) (fun params =>
  rthen (pyget (j_weights j) i) (fun w =>
  mapR (fun kc => rthen (average (squeeze (map (flat_map flat) (snd kc))) (wvals w)) (fun v => Ok (fst kc, v))) params)).

(** [np.concatenate] of the samples of a parameter: an array with two dimensions if the entries are arrays, with one if they are numbers *)
Inductive stack := Line (l : list Q) | Table (d : nat) (rows : list (list Q)).
Definition concatenate (col : list (list kval)) : res stack :=
  match concat col with
  | [] => Err ValueError
  | KS _ :: _ => rthen (mapR (fun v => match v with KS q => Ok q | KA _ => Err ValueError end) (concat col)) (fun l => Ok (Line l))
  | KA l0 :: _ => rthen (mapR (fun v => match v with KA l => if length l =? length l0 then Ok l else Err ValueError | KS _ => Err ValueError end) (concat col))
                        (fun rows => Ok (Table (length l0) rows))
  end.
Definition numbers (a : stack) : list Q := match a with Line l => l | Table _ rows => concat rows end.
(* output.py:574  np.concatenate(self.get_weights(iteration)): the rows of an (n, 1) array; numbers cannot be concatenated *)
Definition weights_of (j : journal) (it : option Z) : res (list Q) :=
  rthen (get_weights j it) (fun w => match w with Col [] => Err ValueError | Col l => Ok l | Flat _ => Err ValueError end).
(** [np.hstack(...)] and its transpose (593-594): the rows of datat; numbers one after the other have a single dimension *)
Fixpoint side_by_side (rows : list (list Q)) (l : list stack) : res (list (list Q)) :=
  match l with
  | [] => Ok rows
  | Table _ rows' :: l' => if length rows =? length rows' then side_by_side (map (fun p => fst p ++ snd p) (combine rows rows')) l' else Err ValueError
  | Line _ :: _ => Err ValueError
  end.
Definition width (l : list stack) : nat := list_sum (map (fun a => match a with Table d _ => d | Line _ => 0 end) l).
(** [Ok None]: an array with one dimension *)
Definition hstack_t (l : list stack) : res (option (list (list Q))) :=
  match l with
  | [] => Err ValueError
  | Line _ :: l' => if forallb (fun a => match a with Line _ => true | Table _ _ => false end) l' then Ok None else Err ValueError
  | Table _ rows :: l' => rthen (side_by_side rows l') (fun rows => Ok (Some (map (fun k => map (fun r => nth k r 0%Q) rows) (seq 0 (width l)))))
  end.

Definition qmin (l : list Q) : Q := match l with [] => 0 | x :: l' => fold_left (fun a b => if Qle_bool a b then a else b) l' x end.
Definition qmax (l : list Q) : Q := match l with [] => 0 | x :: l' => fold_left (fun a b => if Qle_bool a b then b else a) l' x end.
(* output.py:621-623 *)
Definition default_limits (xs : list Q) : res limits :=
  match xs with
  | [] => Err ValueError
  | _ => let difference := (qmax xs - qmin xs)%Q in
         Ok (LList [(true, (qmin xs - (1 # 20) * difference)%Q); (true, (qmax xs + (1 # 20) * difference)%Q)])
  end.
(* output.py:607-623  the loop changes the dictionary it is given *)
Fixpoint fill_ranges (post : list (Name * stack)) (names : list Name) (r : rdict) : rdict * res unit :=
  match names with
  | [] => (r, Ok tt)
  | n :: names' =>
      match dget neqb r n with
      | Some v => if limits_ok v then fill_ranges post names' r else (r, Err TypeError)
      | None => match rthen (at_key post n) (fun a => default_limits (numbers a)) with
                | Ok v => fill_ranges post names' (dset neqb r n v)
                | Err e => (r, Err e)
                end
      end
  end.

Section Draw.
Variables (samples show_mean write_mean : bool) (truth : option (list Q)) (ws : list Q) (ranges : rdict) (mean : list avg) (names : list Name) (data : list (list Q)).
Definition when {A} (b : bool) (l : list A) : list A := if b then l else [].
Definition limits_at (n : Name) : res (Q * Q) := rthen (at_key ranges n) unpack.
(* output.py:676-707 and 796-827  the joint marginal of rows y (horizontal) and x (vertical) *)
Definition pair_arts (x y : nat) : res (list (art Name)) :=
  rthen (at_index data y) (fun dy =>
  rthen (at_index data x) (fun dx =>
  rthen (rthen (at_index names y) limits_at) (fun xlim =>
  rthen (rthen (at_index names x) limits_at) (fun ylim =>
  rthen (if show_mean then rthen (at_index mean x) (fun mx => rthen (at_index mean y) (fun my => Ok [HLine Red mx xlim; VLine Red my ylim])) else Ok []) (fun mlines =>
  rthen (match truth with
         | Some t => rthen (at_index t x) (fun tx => rthen (at_index t y) (fun ty => Ok [HLine Green (V0 tx) xlim; VLine Green (V0 ty) ylim]))
         | None => Ok [] end) (fun tlines =>
  Ok (when samples [Points dy dx] ++ mlines ++ tlines ++ [Contour dy dx ws xlim ylim; Limits xlim ylim]))))))).
(* output.py:720-738  the marginal of row i; [ax]: what indexing the axes and drawing gives *)
Definition single_arts (ax : res unit) (i : nat) (label : Name) : res (list (art Name)) :=
  rthen (limits_at label) (fun xlim =>
  rthen (at_index data i) (fun d =>
  rthen ax (fun _ =>
  rthen (at_index mean i) (fun m =>
  rthen (match truth with Some t => rthen (at_index t i) (fun t => Ok [Marker Green (V0 t)]) | None => Ok [] end) (fun tmark =>
  rthen (if write_mean then match m with V0 q => Ok [MeanText q] | V1 _ => Err TypeError end else Ok []) (fun text =>
  Ok (Curve d ws xlim :: when show_mean [Marker Red m] ++ tmark ++ text ++ [XLimits xlim]))))))).
Definition numbered {A} (l : list A) : list (nat * A) := combine (seq 0 (length l)) l.
Definition put_at (pos : nat * nat) (l : list (art Name)) : list ((nat * nat) * art Name) := map (fun a => (pos, a)) l.
(* output.py:629-770  scatterplot_matrix.  One axes object is returned bare by plt.subplots: a second name makes [axes.flat] an AttributeError and [axes[0]] a TypeError;
   with one name and several rows the enveloped array hands out arrays instead of axes: AttributeError *)
Definition scatterplot_matrix (single : bool) : res (figure Name) :=
  let nv := length data in
  let nn := length names in
  if negb single && (1 <? nn) && (nv =? 1) then Err AttributeError else
  rthen (if single then Ok []
         else rthen (mapR (fun x => rthen (mapR (fun y => if is_not x y then rthen (pair_arts x y) (fun l => Ok (put_at (x, y) l)) else Ok []) (seq 0 nv))
                                          (fun l => Ok (concat l))) (seq 0 nv)) (fun l => Ok (concat l))) (fun pairs =>
  let ax := if single && (nn =? 1) && (1 <? nv) then Err AttributeError else if single && (1 <? nn) && (nv =? 1) then Err TypeError else Ok tt in
  rthen (mapR (fun il => rthen (single_arts ax (fst il) (snd il)) (fun l => Ok (put_at (if single then (0, fst il) else (fst il, fst il)) l))) (numbered names)) (fun diagonal =>
  let labels := if single then map (fun jl => ((0, fst jl), Title (snd jl))) (numbered names) ++ [((0, 0), YDensity)]
                else flat_map (fun jl => ((0, fst jl), Title (snd jl)) ::
                        (if 1 <? nn then [((fst jl, 0), YLabel (snd jl)); ((nv - 1, fst jl), XLabel (snd jl))] else [((fst jl, 0), YDensity)])) (numbered names) in
  Ok (mkfig (if single then 1 else nv) nv (pairs ++ concat diagonal ++ labels)))).
(* output.py:772-844  double_marginals_plot: no pairs is a division by zero *)
Definition double_marginals_plot : res (figure Name) :=
  let nv := length data in
  let pairs := flat_map (fun x => map (fun y => (x, y)) (seq 0 x)) (seq 0 nv) in
  match pairs with
  | [] => Err ZeroDivisionError
  | _ => rthen (mapR (fun kxy => let '(k, (x, y)) := kxy in
                 rthen (pair_arts x y) (fun l => rthen (at_index names x) (fun nx => rthen (at_index names y) (fun ny =>
                 Ok (put_at (0, k) (l ++ [YLabel nx; XLabel ny])))))) (numbered pairs)) (fun l =>
         Ok (mkfig 1 (length pairs) (concat l)))
  end.
End Draw.

Definition all_one (ws : list Q) : bool := forallb (fun w => Qeq_bool w 1) ws.
(* output.py:471-855.  The second component is the caller's dictionary afterwards (without one, a new dictionary that is lost) *)
Definition plot_posterior_distr (j : journal) (parameters_to_show : option (list Name)) (ranges_parameters : option rdict) (iteration : option Z) (show_samples : option bool)
    (single_only double_only write_mean show_mean : bool) (truth : option (list Q)) : list warning * rdict * res (figure Name) :=
  let r0 := match ranges_parameters with Some r => r | None => [] end in
  match (match parameters_to_show with
         | None => rthen (pyget (j_names j) 0) (fun d => Ok (map fst d))
         | Some l => rthen (mapR (fun n => rthen (pyget (j_names j) 0) (fun d => if has d n then Ok n else Err KeyError)) l) Ok
         end) with
  | Err e => ([], r0, Err e)
  | Ok names =>
      if single_only && double_only then ([], r0, Err RuntimeError) else
      if (length names =? 1) && double_only then ([], r0, Err RuntimeError) else
      if match truth with Some t => negb (length t =? length names) | None => false end then ([], r0, Err RuntimeError) else
      match rthen (mapR (fun x => rthen (mean_of j iteration) (fun d => at_key d x)) names) (fun mean =>
            rthen (mapR (fun n => rthen (get_parameters j iteration) (fun d => rthen (at_key d n) (fun col => rthen (concatenate col) (fun a => Ok (n, a))))) names) (fun post =>
            rthen (weights_of j iteration) (fun ws => Ok (mean, dict_of neqb post, ws)))) with
      | Err e => ([], r0, Err e)
      | Ok (mean, post, ws) =>
          let samples := match show_samples with Some b => b | None => all_one ws end in
          let w1 := match show_samples with Some true => if all_one ws then [] else [WSamples] | _ => [] end in
          match hstack_t (map snd post) with
          | Err e => (w1, r0, Err e)
          | Ok datat =>
              let w2 := if forallb (fun kv => has post (fst kv)) r0 then [] else [WRange] in
              match fill_ranges post names r0 with
              | (r1, Err e) => (w1 ++ w2, r1, Err e)
              | (r1, Ok _) =>
                  (w1 ++ w2, r1,
                   match datat with
                   | None => Err ValueError
                   | Some data => if double_only then double_marginals_plot samples show_mean truth ws r1 mean names data
                                  else scatterplot_matrix samples show_mean write_mean truth ws r1 mean names data single_only
                   end)
              end
          end
      end
  end.

(** plot_ESS: the points and the height of the horizontal line *)
(* output.py:857-884 *)
Definition plot_ESS (j : journal) : res (list (nat * option Q) * nat) :=
  if jtype j =? 0 then Err RuntimeError else
  rthen (pyget (j_weights j) (-1)) (fun w => Ok (map (fun p => (Datatypes.S (fst p), snd p)) (numbered (j_ess j)), length (wvals w))).
(** traceplot: the squeezed values of each parameter *)
(* output.py:962-1012; [mcmc]: the configuration has the key "acceptance_rates" *)
Definition traceplot (mcmc : bool) (j : journal) (parameters_to_show : option (list Name)) (iteration : option Z) : res (list (Name * squeezed)) :=
  if negb mcmc then Err RuntimeError else
  rthen (match parameters_to_show with
         | None => rthen (pyget (j_names j) 0) (fun d => Ok (map fst d))
         | Some l => rthen (mapR (fun n => rthen (pyget (j_names j) 0) (fun d => if has d n then Ok n else Err KeyError)) l) Ok
         end) (fun names =>
  rthen (get_parameters j iteration) (fun d =>
  mapR (fun n => rthen (at_key d n) (fun col => Ok (n, squeeze (map (flat_map flat) col)))) names)).
End Plot.
