(** C80: the plot of a posterior shows the samples, the weights, the mean and the range of every parameter in its own panel. *)
From Coq Require Import QArith ZArith Lqa Lia.
From Verif Require Import M_Base M_MMD M_Journal M_Kernel M_Plot S_Plot L_Plot.
Open Scope nat_scope.

Section C80.
Variables Name S C D : Type.
Variable neqb : Name -> Name -> bool.
Hypothesis neqb_spec : forall a b, reflect (a = b) (neqb a b).
Variables (j : journal Name kval S C D) (show : option (list Name)) (r : option (list (Name * limits))) (it : option Z) (sh : option bool) (wm sm : bool) (truth : option (list Q)).
Variables (all : list Name) (col : Name -> list Q) (ws : list Q) (names : list Name).
Local Notation mean := (fun n => weighted_mean ws (col n)).

(** All panels: in row x and column y the joint marginal, on the diagonal the marginals *)
Theorem C80_matrix : Setting neqb j show r it truth all col ws names -> length names <= 257 ->
  exists w r1 f lim samples, plot_posterior_distr Name S C D neqb j show r it sh false false wm sm truth = (w, r1, Ok f)
  /\ SamplesShown sh ws samples /\ Warned sh ws (given r) names w /\ Ranged neqb (given r) names col lim /\ RangesAfter neqb (given r) r1 names lim
  /\ f_rows f = length names /\ f_cols f = length names /\ shows f (MatrixShown names col ws lim mean truth samples sm wm).
Proof using neqb_spec.
  intros H Hb. destruct (setting_ok Name S C D neqb neqb_spec j show r it sh false false wm sm truth all col ws names H eq_refl) as (w & r1 & lim & smp & A1 & A2 & A3 & A4 & A5 & E); [discriminate|].
  destruct H as (_ & _ & Hne & _ & _ & _ & Ht). destruct (matrix_gen Name neqb names col ws lim mean truth smp sm wm r1 A5 Ht Hne) as (f & F & R1 & C1 & SH). cbn beta in F. rewrite F in E.
  exists w, r1, f, lim, smp. repeat (split; [eassumption|]). intros pos a. rewrite SH. split; [|auto]. intros [X|(x & n & B & Hx & _)]; [exact X|]. apply named_lt in Hx. lia.
Qed.
(** More than 257 parameters: "x is not y" holds for equal numbers above 256, the joint marginal of a parameter with itself is drawn over its marginal *)
Theorem C80_matrix_many_refuted : Setting neqb j show r it truth all col ws names -> 257 < length names ->
  exists w r1 f lim n, plot_posterior_distr Name S C D neqb j show r it sh false false wm sm truth = (w, r1, Ok f)
  /\ nth_error names 257 = Some n /\ In ((257, 257), Contour (col n) (col n) ws lim lim) (f_arts f) /\ In ((257, 257), Curve (col n) ws lim) (f_arts f).
Proof using neqb_spec.
  intros H Hb. destruct (setting_ok Name S C D neqb neqb_spec j show r it sh false false wm sm truth all col ws names H eq_refl) as (w & r1 & lim & smp & A1 & A2 & A3 & A4 & A5 & E); [discriminate|].
  destruct H as (_ & _ & Hne & _ & _ & _ & Ht). destruct (matrix_gen Name neqb names col ws lim mean truth smp sm wm r1 A5 Ht Hne) as (f & F & R1 & C1 & SH). cbn beta in F. rewrite F in E.
  destruct (nth_named names 257 Hb) as (n & En). exists w, r1, f, (lim n), n. split; [exact E|]. split; [exact En|]. split; apply SH.
  - right. exists 257, n. split; [lia|]. split; [exact En|]. split; [reflexivity|]. apply pair_contour.
  - left. apply (m_single _ _ _ _ _ _ _ _ _ 257 n); [exact En|]. apply single_curve.
Qed.
(** The marginals only *)
Theorem C80_singles : Setting neqb j show r it truth all col ws names ->
  exists w r1 f lim, plot_posterior_distr Name S C D neqb j show r it sh true false wm sm truth = (w, r1, Ok f)
  /\ Warned sh ws (given r) names w /\ Ranged neqb (given r) names col lim /\ RangesAfter neqb (given r) r1 names lim
  /\ f_rows f = 1 /\ f_cols f = length names /\ shows f (SinglesShown names col ws lim mean truth sm wm).
Proof using neqb_spec.
  intros H. destruct (setting_ok Name S C D neqb neqb_spec j show r it sh true false wm sm truth all col ws names H eq_refl) as (w & r1 & lim & smp & A1 & A2 & A3 & A4 & A5 & E); [discriminate|].
  destruct H as (_ & _ & Hne & _ & _ & _ & Ht). destruct (singles_ok Name neqb names col ws lim mean truth smp sm wm r1 A5 Ht Hne) as (f & F & R1 & C1 & SH). cbn beta in F. rewrite F in E.
  exists w, r1, f, lim. repeat (split; [eassumption|]). exact SH.
Qed.
(** The joint marginals only *)
Theorem C80_doubles : Setting neqb j show r it truth all col ws names -> 2 <= length names ->
  exists w r1 f lim samples, plot_posterior_distr Name S C D neqb j show r it sh false true wm sm truth = (w, r1, Ok f)
  /\ SamplesShown sh ws samples /\ Warned sh ws (given r) names w /\ Ranged neqb (given r) names col lim /\ RangesAfter neqb (given r) r1 names lim
  /\ f_rows f = 1 /\ 2 * f_cols f = length names * (length names - 1) /\ shows f (DoublesShown names col ws lim mean truth samples sm).
Proof using neqb_spec.
  intros H H2. destruct (setting_ok Name S C D neqb neqb_spec j show r it sh false true wm sm truth all col ws names H eq_refl) as (w & r1 & lim & smp & A1 & A2 & A3 & A4 & A5 & E); [auto|].
  destruct H as (_ & _ & Hne & _ & _ & _ & Ht). destruct (doubles_ok Name neqb names col ws lim mean truth smp sm r1 A5 Ht H2) as (f & F & R1 & C1 & SH). cbn beta in F. rewrite F in E.
  exists w, r1, f, lim, smp. repeat (split; [eassumption|]). exact SH.
Qed.
(** A range that is not given holds all samples, and is a tenth longer than their spread *)
Theorem C80_padded xs lim : Padded xs lim -> (forall x, In x xs -> fst lim <= x <= snd lim)%Q /\ exists m M, In m xs /\ In M xs /\ (snd lim - fst lim == (11 # 10) * (M - m))%Q.
Proof using Type.
  intros (m & M & Hm & HM & H & ->). cbn [fst snd]. split.
  - intros x Hx. pose proof (H x Hx). pose proof (H m Hm). lra.
  - exists m, M. split; [exact Hm|]. split; [exact HM|]. lra.
Qed.
(** What is refused: an unknown name, both options together, one parameter for joint marginals, true values of another number; the dictionary is as before *)
Theorem C80_errors r0 single double :
  (forall l d0 n, show = Some l -> nth_error (j_names j) 0 = Some d0 -> In n l -> ~ In n (map fst d0) ->
     plot_posterior_distr Name S C D neqb j show (Some r0) it sh single double wm sm truth = ([], r0, Err KeyError))
  /\ (Displayed j show names -> (single = true /\ double = true) \/ (length names = 1 /\ double = true) \/ (exists t, truth = Some t /\ length t <> length names) ->
     plot_posterior_distr Name S C D neqb j show (Some r0) it sh single double wm sm truth = ([], r0, Err RuntimeError)).
Proof using neqb_spec.
  split.
  - intros l d0 n -> H0 Hn Hd. unfold plot_posterior_distr. fold (resolved Name S C D neqb j (Some l)). rewrite (resolved_unknown Name S C D neqb neqb_spec j l d0 n); [reflexivity| |exact Hn|exact Hd].
    destruct (j_names j) as [|d ds]; [discriminate H0|]. injection H0 as ->. reflexivity.
  - intros HD H. unfold plot_posterior_distr. fold (resolved Name S C D neqb j show). rewrite (displayed_resolved Name S C D neqb neqb_spec j show names HD).
    destruct (single && double) eqn:E1; [reflexivity|]. destruct ((length names =? 1) && double) eqn:E2; [reflexivity|].
    destruct H as [[-> ->]|[[Hl ->]|(t & -> & Hl)]]; [discriminate E1|rewrite Hl in E2; discriminate E2|]. destruct (Nat.eqb_spec (length t) (length names)); [contradiction|]. reflexivity.
Qed.
(** An array of two numbers is refused as a range, though the documentation asks for an array-like of length 2 *)
Theorem C80_array_range_refuted single double n a b :
  Readable j it all col ws -> Displayed j show names -> NoDup names -> incl names all -> In n names -> dget neqb (given r) n = Some (LArray [2] [a; b]) ->
  match truth with Some t => length t = length names | None => True end -> single && double = false -> (double = true -> 2 <= length names) ->
  snd (plot_posterior_distr Name S C D neqb j show r it sh single double wm sm truth) = Err TypeError.
Proof using neqb_spec.
  intros HR HD Hnd Hi Hn Hv Ht Hs Hd. exact (plot_refused Name S C D neqb neqb_spec j show r it sh single double wm sm truth all col ws names n _ HR (displayed_resolved Name S C D neqb neqb_spec j show names HD) Hnd Hi Hn Hv eq_refl Ht Hs Hd).
Qed.
(** The trace plot shows the samples of every displayed parameter in their order; only for journals with acceptance rates *)
Theorem C80_traceplot : Readable j it all col ws -> Displayed j show names -> incl names all ->
  traceplot Name S C D neqb true j show it = Ok (map (fun n => (n, Q1 (col n))) names) /\ traceplot Name S C D neqb false j show it = Err RuntimeError.
Proof using neqb_spec. intros HR HD Hi. split; [exact (trace_ok Name S C D neqb neqb_spec j show it all col ws names HR (displayed_resolved Name S C D neqb neqb_spec j show names HD) Hi)|reflexivity]. Qed.
(** The plot of the effective sample sizes: the k-th recorded estimate at k, and a line at the number of final weights; only for journals with all iterations *)
Theorem C80_ess : (jtype j = 0 -> plot_ESS Name S C D j = Err RuntimeError)
  /\ (forall l w, jtype j = 1 -> j_weights j = l ++ [w] -> exists points, plot_ESS Name S C D j = Ok (points, length (wvals w))
       /\ forall k e, In (k, e) points <-> 1 <= k /\ nth_error (j_ess j) (k - 1) = Some e).
Proof using Type.
  unfold plot_ESS. split; [intros ->; reflexivity|]. intros l w -> Hw. cbn [Nat.eqb]. rewrite Hw.
  assert (P : pyget (l ++ [w]) (-1) = Ok w) by (rewrite L_Journal.pyget_spec, L_Journal.at_last; unfold S_Journal.latest; rewrite rev_app_distr; reflexivity).
  rewrite P. cbn [rthen]. eexists. split; [reflexivity|]. intros k e. rewrite in_map_iff. split.
  - intros ([i x] & E & Hin). cbn [fst snd] in E. injection E as <- <-. apply in_numbered in Hin. split; [lia|]. cbn [Nat.sub]. rewrite Nat.sub_0_r. exact Hin.
  - intros [Hk H]. exists (k - 1, e). cbn [fst snd]. split; [f_equal; lia|apply in_numbered, H].
Qed.
End C80.
Print Assumptions C80_matrix.
Print Assumptions C80_matrix_many_refuted.
Print Assumptions C80_singles.
Print Assumptions C80_doubles.
Print Assumptions C80_padded.
Print Assumptions C80_errors.
Print Assumptions C80_array_range_refuted.
Print Assumptions C80_traceplot.
Print Assumptions C80_ess.

(** Concrete journals: parameters are numbers, nothing else is recorded *)
Module Case.
Definition jr (d : list (nat * list (list kval))) (w : list Q) : journal nat kval unit unit unit := mkj 1 [] [d] [] [] [Col w] [] [] [] None false.
Definition col (n : nat) : list Q := match n with 0 => [1; 3]%Q | 1 => [2; 10]%Q | _ => [5; 7]%Q end.
Definition all := [0; 1; 2].
Definition ws := [1; 3]%Q.
Definition j := jr (univariate all col) ws.
Definition plot j := plot_posterior_distr nat unit unit unit Nat.eqb j.
Definition r : list (nat * limits) := [(1, LTuple [0; 12]%Q)].
Lemma readable : Readable j None all col ws.
Proof. split; [reflexivity|]. split; [reflexivity|]. split; [reflexivity|]. split; [cbn; lia|]. split; [intros n H; cbn in H; intuition (subst; reflexivity)|]. intros H. vm_compute in H. discriminate. Qed.
(** parameters 2 and 1 are shown, with true values; a range is given for the second *)
Lemma setting : Setting Nat.eqb j (Some [2; 1]) (Some r) None (Some [6; 4]%Q) all col ws [2; 1].
Proof.
  split; [exact readable|]. split; [|split; [discriminate|split; [|split; [|split; [|reflexivity]]]]].
  - exists (univariate all col). split; [reflexivity|]. split; [reflexivity|]. intros n H. cbn in *. intuition.
  - repeat constructor; cbn; intuition discriminate.
  - intros n H. cbn in *. intuition.
  - intros n v H E. cbn in H. destruct H as [<-|[<-|[]]]; cbn in E; [discriminate E|]. injection E as <-. exists (0, 12)%Q. reflexivity.
Qed.
Lemma many_setting : Setting Nat.eqb (jr (univariate (seq 0 258) col) ws) None None None None (seq 0 258) col ws (seq 0 258).
Proof.
  split; [|split; [|split; [discriminate|split; [apply seq_NoDup|split; [apply incl_refl|split; [discriminate|exact I]]]]]].
  - split; [reflexivity|]. split; [reflexivity|]. split; [reflexivity|]. split; [cbn; lia|]. split; [intros [|[|n]] H; reflexivity|]. intros H. vm_compute in H. discriminate.
  - eexists. split; [reflexivity|]. unfold univariate. rewrite map_map. cbn [fst]. rewrite map_id. reflexivity.
Qed.
Example singles_drawn : plot j (Some [2; 1]) (Some r) None None true false true true (Some [6; 4]%Q) =
  ([], [(1, LTuple [0; 12]%Q); (2, LList [(true, 5 - (1 # 20) * (7 - 5)); (true, 7 + (1 # 20) * (7 - 5))]%Q)],
   Ok (mkfig 1 2 [((0, 0), Curve [5; 7]%Q [1; 3]%Q (5 - (1 # 20) * (7 - 5), 7 + (1 # 20) * (7 - 5))%Q); ((0, 0), Marker Red (V0 (26 # 4))); ((0, 0), Marker Green (V0 6%Q)); ((0, 0), MeanText (26 # 4));
     ((0, 0), XLimits (5 - (1 # 20) * (7 - 5), 7 + (1 # 20) * (7 - 5))%Q);
     ((0, 1), Curve [2; 10]%Q [1; 3]%Q (0, 12)%Q); ((0, 1), Marker Red (V0 (32 # 4))); ((0, 1), Marker Green (V0 4%Q)); ((0, 1), MeanText (32 # 4)); ((0, 1), XLimits (0, 12)%Q);
     ((0, 0), Title 2); ((0, 1), Title 1); ((0, 0), YDensity)])).
Proof. vm_compute. reflexivity. Qed.
Example unknown : plot j (Some [2; 4]) (Some r) None None true false true true None = ([], r, Err KeyError).
Proof. reflexivity. Qed.
Example both : plot j None (Some r) None None true true true true None = ([], r, Err RuntimeError).
Proof. reflexivity. Qed.
Example array_case : snd (plot j None (Some [(1, LArray [2] [0; 12]%Q)]) None None false false true true None) = Err TypeError.
Proof.
  refine (C80_array_range_refuted nat unit unit unit Nat.eqb Nat.eqb_spec j None (Some [(1, LArray [2] [0; 12]%Q)]) None None true true None all col ws all false false 1 0%Q 12%Q readable _ _ (incl_refl _) _ eq_refl I eq_refl _).
  - exists (univariate all col). split; reflexivity.
  - repeat constructor; cbn; intuition discriminate.
  - cbn. auto.
  - discriminate.
Qed.
Example trace : traceplot nat unit unit unit Nat.eqb true j None None = Ok [(0, Q1 [1; 3]%Q); (1, Q1 [2; 10]%Q); (2, Q1 [5; 7]%Q)].
Proof. reflexivity. Qed.
Example ess : plot_ESS nat unit unit unit (mkj 1 [] [] [] [] [Col [1]; Col ws]%Q [Some (3 # 2); Some 2]%Q [] [] None false) = Ok ([(1, Some (3 # 2)%Q); (2, Some 2%Q)], 2).
Proof. reflexivity. Qed.
End Case.
Example matrix_case : exists w r1 f lim samples, Case.plot Case.j (Some [2; 1]) (Some Case.r) None None false false true true (Some [6; 4]%Q) = (w, r1, Ok f)
  /\ SamplesShown None Case.ws samples /\ Warned None Case.ws Case.r [2; 1] w /\ Ranged Nat.eqb Case.r [2; 1] Case.col lim /\ RangesAfter Nat.eqb Case.r r1 [2; 1] lim
  /\ f_rows f = 2 /\ f_cols f = 2 /\ shows f (MatrixShown [2; 1] Case.col Case.ws lim (fun n => weighted_mean Case.ws (Case.col n)) (Some [6; 4]%Q) samples true true).
Proof. exact (C80_matrix nat unit unit unit Nat.eqb Nat.eqb_spec _ _ _ _ None true true _ _ _ _ _ Case.setting ltac:(cbn; lia)). Qed.
Example doubles_case : exists w r1 f lim samples, Case.plot Case.j (Some [2; 1]) (Some Case.r) None None false true true true (Some [6; 4]%Q) = (w, r1, Ok f)
  /\ SamplesShown None Case.ws samples /\ Warned None Case.ws Case.r [2; 1] w /\ Ranged Nat.eqb Case.r [2; 1] Case.col lim /\ RangesAfter Nat.eqb Case.r r1 [2; 1] lim
  /\ f_rows f = 1 /\ 2 * f_cols f = 2 /\ shows f (DoublesShown [2; 1] Case.col Case.ws lim (fun n => weighted_mean Case.ws (Case.col n)) (Some [6; 4]%Q) samples true).
Proof. exact (C80_doubles nat unit unit unit Nat.eqb Nat.eqb_spec _ _ _ _ None true true _ _ _ _ _ Case.setting ltac:(cbn; lia)). Qed.
Example many_case : exists w r1 f lim n, Case.plot (Case.jr (univariate (seq 0 258) Case.col) Case.ws) None None None None false false true true None = (w, r1, Ok f)
  /\ nth_error (seq 0 258) 257 = Some n /\ In ((257, 257), Contour (Case.col n) (Case.col n) Case.ws lim lim) (f_arts f) /\ In ((257, 257), Curve (Case.col n) Case.ws lim) (f_arts f).
Proof. apply (C80_matrix_many_refuted nat unit unit unit Nat.eqb Nat.eqb_spec _ _ _ _ None true true _ _ _ _ _ Case.many_setting). rewrite seq_length. lia. Qed.
Example padded_case : Padded [3; 1; 2]%Q (1 - (1 # 20) * (3 - 1), 3 + (1 # 20) * (3 - 1))%Q.
Proof. exists 1%Q, 3%Q. split; [cbn; auto|]. split; [cbn; auto|]. split; [|reflexivity]. intros x H. cbn in H. destruct H as [<-|[<-|[<-|[]]]]; lra. Qed.

(** The dictionary of ranges given by the caller is filled by the first plot; a second plot with it, of another journal, cuts off all samples *)
Theorem C80_ranges_kept_refuted : exists (j1 j2 : journal nat kval unit unit unit) c1 c2 w r1 f1 w2 r2 f2 xlim,
  Readable j1 None [0] c1 [1; 1]%Q /\ Readable j2 None [0] c2 [1; 1]%Q
  /\ Case.plot j1 None (Some []) None None true false true true None = (w, r1, Ok f1)
  /\ Case.plot j2 None (Some r1) None None true false true true None = (w2, r2, Ok f2)
  /\ In ((0, 0), XLimits xlim) (f_arts f2) /\ (forall x, In x (c2 0) -> (snd xlim < x)%Q).
Proof.
  exists (Case.jr (univariate [0] (fun _ => [1; 3]%Q)) [1; 1]%Q), (Case.jr (univariate [0] (fun _ => [10; 20]%Q)) [1; 1]%Q), (fun _ => [1; 3]%Q), (fun _ => [10; 20]%Q).
  eexists _, _, _, _, _, _, _. split; [|split; [|split; [vm_compute; reflexivity|split; [vm_compute; reflexivity|split; [cbn [f_arts]; do 3 right; left; reflexivity|]]]]].
  - split; [reflexivity|]. split; [reflexivity|]. split; [reflexivity|]. split; [cbn; lia|]. split; [intros n H; reflexivity|]. intros H. vm_compute in H. discriminate.
  - split; [reflexivity|]. split; [reflexivity|]. split; [reflexivity|]. split; [cbn; lia|]. split; [intros n H; reflexivity|]. intros H. vm_compute in H. discriminate.
  - intros x [<-|[<-|[]]]; reflexivity.
Qed.
Print Assumptions C80_ranges_kept_refuted.
(** Two parameters with two coordinates each, marginals only: the panel of the second parameter shows the second coordinate of the first *)
Theorem C80_two_coordinates_refuted : exists (j : journal nat kval unit unit unit) w r f lim,
  get_parameters j None = Ok [(0, [[KA [1; 2]]; [KA [3; 4]]]%Q); (1, [[KA [5; 6]]; [KA [7; 8]]]%Q)]
  /\ Case.plot j None None None None true false false true None = (w, r, Ok f)
  /\ In ((0, 1), Title 1) (f_arts f) /\ In ((0, 1), Curve [2; 4]%Q [1; 1]%Q lim) (f_arts f).
Proof.
  exists (Case.jr [(0, [[KA [1; 2]]; [KA [3; 4]]]%Q); (1, [[KA [5; 6]]; [KA [7; 8]]]%Q)] [1; 1]%Q). eexists _, _, _, _. split; [reflexivity|]. split; [vm_compute; reflexivity|]. cbn [f_arts In]. split; [tauto|]. do 3 right; left. reflexivity.
Qed.
Print Assumptions C80_two_coordinates_refuted.
(** A name given twice: joint marginals show the samples of another parameter under its name *)
Theorem C80_twice_refuted : exists w r f lim lim',
  Case.plot Case.j (Some [0; 0; 1]) None None None false true true true None = (w, r, Ok f)
  /\ In ((0, 0), YLabel 0) (f_arts f) /\ In ((0, 0), Contour (Case.col 0) (Case.col 1) Case.ws lim lim') (f_arts f).
Proof. eexists _, _, _, _, _. split; [vm_compute; reflexivity|]. cbn [f_arts In]. split; [tauto|]. do 2 right; left. reflexivity. Qed.
Print Assumptions C80_twice_refuted.
(** Parameters recorded as plain numbers, or weights recorded as a flat array, cannot be plotted *)
Theorem C80_flat_refuted : exists (j1 j2 : journal nat kval unit unit unit),
  get_parameters j1 None = Ok [(0, [[KS 1]; [KS 3]]%Q)] /\ get_weights j1 None = Ok (Col [1; 1]%Q)
  /\ snd (Case.plot j1 None None None None false false true true None) = Err ValueError
  /\ get_parameters j2 None = Ok (univariate [0] Case.col) /\ get_weights j2 None = Ok (Flat [1; 1]%Q)
  /\ snd (Case.plot j2 None None None None false false true true None) = Err ValueError.
Proof.
  exists (Case.jr [(0, [[KS 1]; [KS 3]]%Q)] [1; 1]%Q), (mkj 1 [] [univariate [0] Case.col] [] [] [Flat [1; 1]%Q] [] [] [] None false).
  split; [reflexivity|]. split; [reflexivity|]. split; [vm_compute; reflexivity|]. split; [reflexivity|]. split; [reflexivity|]. vm_compute. reflexivity.
Qed.
Print Assumptions C80_flat_refuted.
