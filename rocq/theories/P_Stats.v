(** Property C35. *)
From Coq Require Import Reals Lra.
From Verif Require Import M_Base M_Num M_XReal L_PMC M_Stats S_Stats L_Stats.
Open Scope nat_scope.

(** C35.  Whatever the pipeline of statistics objects: one row per observation, all rows equally long, and the row at position i is what the same
    object returns for observation i alone: the rows come in input order and do not influence each other. *)
Theorem C35_rows : forall s l m, nets_ok s -> statistics s (PList l) = Ok m ->
  length (mrows m) = length l /\ Forall (fun row => length row = mcols m) (mrows m)
  /\ forall i d, nth_error l i = Some d -> exists row, nth_error (mrows m) i = Some row /\ statistics s (PList [d]) = Ok (mkmat (mcols m) [row]).
Proof.
  intros s l m Hn H. destruct (statistics_rect s l m Hn H) as [Hr Hl]. split; [exact Hl|]. split; [exact Hr|]. intros i d Hi.
  destruct (statistics_rowwise s) as (g & (w & f & Hg) & E). rewrite E in H. destruct (check_input (PList l)) as [m0|] eqn:Ec; [|discriminate].
  rewrite Hg in H. destruct (w (mcols m0)) as [p|] eqn:Ew; [|discriminate]. injection H as <-. cbn [mrows mcols].
  assert (H1 : exists r0, nth_error (mrows m0) i = Some r0 /\ check_input (PList [d]) = Ok (mkmat (mcols m0) [r0])).
  { apply input_inv in Ec. destruct Ec as [(xs & -> & ->) | (q & vs & _ & Hf & -> & ->)]; cbn [mrows mcols]; rewrite nth_error_map' in Hi.
    - destruct (nth_error xs i) as [x|] eqn:Ex; [|discriminate]. injection Hi as <-. exists [x]. rewrite nth_error_map', Ex. split; reflexivity.
    - destruct (nth_error vs i) as [v|] eqn:Ex; [|discriminate]. injection Hi as <-. exists v. split; [reflexivity|]. apply (input_vecs q [v]); [discriminate|]. constructor; [|constructor]. rewrite Forall_forall in Hf. apply Hf. eapply nth_error_In. exact Ex. }
  destruct H1 as (r0 & Hr0 & Hd). exists (f (mcols m0) r0). rewrite nth_error_map', Hr0. split; [reflexivity|]. rewrite E, Hd, Hg. cbn [mcols mrows]. rewrite Ew. reflexivity.
Qed.
Print Assumptions C35_rows.

(** C35.  Each object of a pipeline takes the result of the previous one (the formatted data for the first), applies its own transformation, then
    the polynomial expansion and finally the rescaling, with the number and meaning of the columns given by [Expanded] and [Rescaled]. *)
Theorem C35_stage : forall k d c sd prev l out, nets_ok (mkstats k d c sd prev) -> statistics (mkstats k d c sd prev) (PList l) = Ok out ->
  exists m m' e, (match prev with Some s => statistics s (PList l) | None => check_input (PList l) end) = Ok m
  /\ apply_kind k m = Ok m' /\ Rect m' /\ Expanded d c m' e /\ Rescaled sd e out.
Proof.
  intros k d c sd prev l out Hn H. cbn [statistics] in H.
  destruct (match prev with Some s => statistics s (PList l) | None => check_input (PList l) end) as [m|] eqn:Em; [|discriminate].
  destruct (apply_kind k m) as [m'|] eqn:Ek; [|discriminate]. exists m, m', (poly d c m'). split; [reflexivity|]. split; [exact Ek|].
  assert (Hr : Rect m). { destruct prev as [s|]; [apply (statistics_rect s l m); [exact (proj2 Hn) | exact Em] | eapply input_rect; exact Em]. }
  destruct (kind_rect k m m' (proj1 Hn) Hr Ek) as [Hr' _]. split; [exact Hr'|]. split; [apply poly_spec; exact Hr'|]. eapply rescale_spec; [apply poly_rect; exact Hr' | exact H].
Qed.
Print Assumptions C35_stage.

(** C35.  What is accepted: a list of numbers (one column) or a list of equally long arrays (one row each); anything but a list is refused. *)
Theorem C35_input : forall s k d c sd,
  (forall xs, check_input (PList (map Num xs)) = Ok (mkmat 1 (map (fun x => [x]) xs)))
  /\ (forall p vs, vs <> [] -> Forall (fun v => length v = p) vs -> check_input (PList (map Vec vs)) = Ok (mkmat p vs))
  /\ (forall l m, check_input (PList l) = Ok m -> (exists xs, l = map Num xs) \/ (exists p vs, l = map Vec vs /\ Forall (fun v => length v = p) vs))
  /\ statistics (mkstats k d c sd None) POther = Err TypeError /\ (statistics s POther = Err TypeError -> statistics (mkstats k d c sd (Some s)) POther = Err TypeError).
Proof.
  intros s k d c sd. split; [apply input_nums|]. split; [apply input_vecs|]. split.
  { intros l m H. apply input_inv in H. destruct H as [(xs & -> & _) | (p & vs & _ & Hf & -> & _)]; [left; eauto | right; eauto]. }
  split; [reflexivity|]. cbn [statistics]. intros ->. reflexivity.
Qed.
Print Assumptions C35_input.

(** C35.  Identity statistics of n real vectors of length p, in full: entry k*p+j is the (k+1)-th power of feature j, then the pairwise products. *)
Theorem C35_identity : forall p d c (rows : list (list R)), rows <> [] -> Forall (fun v => length v = p) rows ->
  exists out, statistics (mkstats Ident d c None None) (PList (map (fun v => Vec (map XR v)) rows)) = Ok out
  /\ mcols out = p * Nat.max d 1 + (if c then p * (p - 1) / 2 else 0) /\ length (mrows out) = length rows
  /\ forall i v, nth_error rows i = Some v -> exists o, nth_error (mrows out) i = Some o /\ length o = mcols out
     /\ (forall k j x, k < Nat.max d 1 -> nth_error v j = Some x -> nth_error o (k * p + j) = Some (XR (x ^ S k)))
     /\ (c = true -> forall a b x y, a < b -> nth_error v a = Some x -> nth_error v b = Some y ->
           nth_error o (p * Nat.max d 1 + a * (2 * p - a - 1) / 2 + (b - a - 1)) = Some (XR (x * y))).
Proof.
  intros p d c rows Hne Hf. assert (Hin : check_input (PList (map (fun v => Vec (map XR v)) rows)) = Ok (mkmat p (map (map XR) rows))).
  { rewrite <- (map_map (map XR) Vec). apply input_vecs; [destruct rows; [congruence | discriminate]|]. apply Forall_map. revert Hf. apply Forall_impl. intros v Hv. rewrite map_length. exact Hv. }
  cbn [statistics]. rewrite Hin. cbn [apply_kind rescale].
  assert (Hr : Rect (mkmat p (map (map XR) rows))) by (unfold Rect; cbn [mcols mrows]; apply Forall_map; revert Hf; apply Forall_impl; intros v Hv; rewrite map_length; exact Hv).
  eexists. split; [reflexivity|]. destruct (poly_spec d c _ Hr) as (H1 & H2 & H3). cbn [mcols mrows] in *. split; [exact H1|]. split; [rewrite H2; apply map_length|].
  intros i v Hv. destruct (H3 i (map XR v)) as (o & Ho & Hl & Hp & Hc); [rewrite nth_error_map', Hv; reflexivity|]. exists o. split; [exact Ho|]. split; [exact Hl|]. split.
  - intros k j x Hk Hj. rewrite (Hp k j (XR x) Hk) by (rewrite nth_error_map', Hj; reflexivity). rewrite iter_fin. reflexivity.
  - intros Hct a b x y Hab Ha Hb. rewrite (Hc Hct a b (XR x) (XR y) Hab); [reflexivity | rewrite nth_error_map', Ha; reflexivity | rewrite nth_error_map', Hb; reflexivity].
Qed.
Print Assumptions C35_identity.

(** C35.  LinearTransformation: row times matrix, refusing other sizes. *)
Theorem C35_linear : forall q (coef : list (list R)) (m : mat),
  (mcols m <> length coef -> apply_kind (Linear (mkmat q (map (map XR) coef))) m = Err ValueError)
  /\ (Forall (fun r => length r = q) coef -> forall rows, m = mkmat (length coef) (map (map XR) rows) -> Forall (fun v => length v = length coef) rows ->
      apply_kind (Linear (mkmat q (map (map XR) coef))) m
      = Ok (mkmat q (map (fun v => map (fun j => XR (total (map (fun i => nth i v 0 * nth j (nth i coef []) 0)%R (seq 0 (length coef))))) (seq 0 q)) rows))).
Proof.
  intros q coef m. cbn [apply_kind mrows mcols]. rewrite map_length. split.
  - intros H. destruct (Nat.eqb_spec (mcols m) (length coef)); [congruence | reflexivity].
  - intros Hc rows -> Hr. cbn [mcols mrows]. rewrite Nat.eqb_refl. cbn [negb]. f_equal. f_equal. rewrite map_map. apply map_ext_in. intros v Hv. unfold dotrow. cbn [mcols mrows].
    apply map_ext_in. intros j Hj. apply in_seq in Hj. assert (Hl : length v = length coef) by (rewrite Forall_forall in Hr; apply Hr; exact Hv).
    rewrite <- total_rsum, <- xsum_fin. f_equal. clear - Hc Hl Hj. revert v Hl. induction Hc as [|r coef Hrq Hc IH]; intros [|x v] Hl; try discriminate; [reflexivity|].
    cbn [map combine length seq]. f_equal.
    + cbn [fst snd nth]. assert (E : nth j (map XR r) XNaN = XR (nth j r 0%R)).
      { rewrite (nth_indep _ XNaN (XR 0)) by (rewrite map_length; lia). apply (map_nth XR). }
      rewrite E. reflexivity.
    + rewrite IH by (cbn in Hl; lia). rewrite <- seq_shift, !map_map. apply map_ext. intros i. reflexivity.
Qed.
Print Assumptions C35_linear.

(** C35.  Stored deviations of another size are refused. *)
Theorem C35_size : forall k d c s prev l m, statistics (mkstats k d c None prev) (PList l) = Ok m ->
  (length s <> mcols m -> statistics (mkstats k d c (Some s) prev) (PList l) = Err RuntimeError)
  /\ (length s = mcols m -> exists out, statistics (mkstats k d c (Some s) prev) (PList l) = Ok out).
Proof.
  intros k d c s prev l m H. cbn [statistics] in *. destruct (match prev with Some s0 => statistics s0 (PList l) | None => check_input (PList l) end) as [m0|]; [|discriminate].
  destruct (apply_kind k m0) as [m1|]; [|discriminate]. cbn [rescale] in H. injection H as ->. split; intros E.
  - apply rescale_fails. exact E.
  - unfold rescale. rewrite E, Nat.eqb_refl. cbn [negb]. eauto.
Qed.
Print Assumptions C35_size.

Lemma std0_nth m j : j < mcols m -> nth_error (std0 m) j = Some (xstd (column m j)).
Proof. intros H. unfold std0. rewrite nth_error_map', nth_error_seq' by exact H. reflexivity. Qed.
Lemma column_rescale s m out j t : Rect m -> rescale (Some s) m = Ok out -> nth_error s j = Some t -> j < mcols m -> column out j = map (fun x => xdiv x t) (column m j).
Proof.
  intros Hr H Ht Hj. unfold rescale in H. destruct (negb _); [discriminate|]. injection H as <-. unfold column. cbn [mrows]. rewrite !map_map. apply map_ext_in. intros row Hin.
  unfold Rect in Hr. rewrite Forall_forall in Hr. specialize (Hr row Hin). destruct (nth_error row j) as [x|] eqn:Ex; [|apply nth_error_None in Ex; lia].
  rewrite (nth_error_nth _ _ _ Ex). apply nth_error_nth. rewrite nth_error_map'.
  assert (Hc : nth_error (combine row s) j = Some (x, t)).
  { clear - Ex Ht. revert s j Ex Ht. induction row as [|y row IH]; intros [|u s] [|j] Hx Ht; try discriminate; cbn in *; [congruence | apply IH; assumption]. }
  rewrite Hc. reflexivity.
Qed.
Lemma init_split k d c prev refs s : init_stats k d c prev (Some refs) = Ok s ->
  exists m, statistics (mkstats k d c None prev) (PList refs) = Ok m /\ s = mkstats k d c (Some (std0 m)) prev.
Proof. unfold init_stats. destruct (statistics _ _) as [m|]; [|discriminate]. intros H. injection H as <-. eauto. Qed.
Lemma with_sd k d c prev s l out : statistics (mkstats k d c (Some s) prev) (PList l) = Ok out ->
  exists m, statistics (mkstats k d c None prev) (PList l) = Ok m /\ rescale (Some s) m = Ok out.
Proof.
  cbn [statistics]. destruct (match prev with Some s0 => statistics s0 (PList l) | None => check_input (PList l) end) as [m0|]; [|discriminate].
  destruct (apply_kind k m0) as [m1|]; [|discriminate]. intros H. exists (poly d c m1). auto.
Qed.

(** C35.  With reference simulations, every column of real statistics that is not constant on them has standard deviation one on them; on
    other data it is divided by the standard deviation of the reference column. *)
Theorem C35_standardised : forall k d c prev refs s m, nets_ok (mkstats k d c None prev) ->
  init_stats k d c prev (Some refs) = Ok s -> statistics (mkstats k d c None prev) (PList refs) = Ok m ->
  forall j ref, j < mcols m -> ref <> [] -> column m j = map XR ref -> ~ (forall x y, In x ref -> In y ref -> x = y) ->
  (0 < deviation ref)%R
  /\ (exists out, statistics s (PList refs) = Ok out /\ column out j = map (fun x => XR (x / deviation ref)) ref /\ deviation (map (fun x => x / deviation ref)%R ref) = 1%R)
  /\ forall l out xs, statistics s (PList l) = Ok out ->
       (exists m', statistics (mkstats k d c None prev) (PList l) = Ok m' /\ column m' j = map XR xs) -> column out j = map (fun x => XR (x / deviation ref)) xs.
Proof.
  intros k d c prev refs s m Hn Hi Hm j ref Hj Hne Hcol Hconst. destruct (init_split _ _ _ _ _ _ Hi) as (m0 & Hm0 & ->). rewrite Hm in Hm0. injection Hm0 as <-.
  assert (Hpos : (0 < deviation ref)%R).
  { destruct (Req_dec (deviation ref) 0) as [E|E]; [|pose proof (deviation_nonneg ref); lra]. exfalso. apply Hconst. apply deviation_zero in E; [|exact Hne]. rewrite Forall_forall in E. intros x y Hx Hy. rewrite (E x Hx), (E y Hy). reflexivity. }
  assert (Hs : nth_error (std0 m) j = Some (XR (deviation ref))) by (rewrite std0_nth by exact Hj; rewrite Hcol, xstd_fin by exact Hne; reflexivity).
  assert (Hgen : forall l out xs, statistics (mkstats k d c (Some (std0 m)) prev) (PList l) = Ok out ->
       (exists m', statistics (mkstats k d c None prev) (PList l) = Ok m' /\ column m' j = map XR xs) -> column out j = map (fun x => XR (x / deviation ref)) xs).
  { intros l out xs Ho (m' & Hm' & Hx). destruct (with_sd _ _ _ _ _ _ _ Ho) as (m1 & Hm1 & Hr). rewrite Hm' in Hm1. injection Hm1 as <-.
    destruct (statistics_rect _ l m' Hn Hm') as [Hrect _]. assert (Hjl : j < mcols m').
    { unfold rescale in Hr. destruct (Nat.eqb_spec (mcols m') (length (std0 m))) as [E|]; [|discriminate]. rewrite E. unfold std0. rewrite map_length, seq_length. exact Hj. }
    rewrite (column_rescale _ _ _ j _ Hrect Hr Hs Hjl), Hx, map_map. apply map_ext. intros x. apply xdiv_fin. lra. }
  split; [exact Hpos|]. split; [|exact Hgen].
  destruct (proj2 (C35_size k d c (std0 m) prev refs m Hm)) as (out & Ho); [unfold std0; rewrite map_length, seq_length; reflexivity|]. exists out. split; [exact Ho|]. split.
  - apply (Hgen refs out ref Ho). exists m. auto.
  - rewrite deviation_scale by assumption. field. lra.
Qed.
Print Assumptions C35_standardised.

(** C35 as first claimed fails for a column that is constant on the reference simulations: it is divided by zero, so that no value of the column is a
    number, for any data. *)
Theorem C35_constant_refuted : forall k d c prev refs s m, nets_ok (mkstats k d c None prev) ->
  init_stats k d c prev (Some refs) = Ok s -> statistics (mkstats k d c None prev) (PList refs) = Ok m ->
  forall j ref, j < mcols m -> ref <> [] -> column m j = map XR ref -> (forall x y, In x ref -> In y ref -> x = y) ->
  forall l out, statistics s (PList l) = Ok out -> forall r, ~ In (XR r) (column out j).
Proof.
  intros k d c prev refs s m Hn Hi Hm j ref Hj Hne Hcol Hconst l out Ho r. destruct (init_split _ _ _ _ _ _ Hi) as (m0 & Hm0 & ->). rewrite Hm in Hm0. injection Hm0 as <-.
  assert (Hz : deviation ref = 0%R).
  { apply deviation_zero; [exact Hne|]. apply Forall_forall. intros x Hx. unfold average. assert (E : total ref = (INR (length ref) * x)%R).
    { assert (Hall : forall y, In y ref -> y = x) by (intros y Hy; apply Hconst; assumption). clear - Hall. induction ref as [|y ref IH]; [cbn; ring|]. change (total (y :: ref)) with (y + total ref)%R. rewrite IH by (intros z Hz; apply Hall; right; exact Hz). cbn [length]. rewrite S_INR. rewrite (Hall y (or_introl eq_refl)). ring. }
    rewrite E. field. apply Rgt_not_eq, INR_len_pos. exact Hne. }
  assert (Hs : nth_error (std0 m) j = Some (XR 0)) by (rewrite std0_nth by exact Hj; rewrite Hcol, xstd_fin, Hz by exact Hne; reflexivity).
  destruct (with_sd _ _ _ _ _ _ _ Ho) as (m' & Hm' & Hr). destruct (statistics_rect _ l m' Hn Hm') as [Hrect _]. assert (Hjl : j < mcols m').
  { unfold rescale in Hr. destruct (Nat.eqb_spec (mcols m') (length (std0 m))) as [E|]; [|discriminate]. rewrite E. unfold std0. rewrite map_length, seq_length. exact Hj. }
  rewrite (column_rescale _ _ _ j _ Hrect Hr Hs Hjl). intros Hin. apply in_map_iff in Hin. destruct Hin as (x & Hx & _).
  destruct x as [x| | |]; cbn in Hx; rewrite ?rsign_zero in Hx; try discriminate. destruct (rsign x) as [[|]|]; discriminate.
Qed.
Print Assumptions C35_constant_refuted.

(** Cases: two observations of two features, degree 2 with products. *)
Example C35_case : exists out, statistics (mkstats Ident 2 true None None) (PList [Vec [XR 2; XR 3]; Vec [XR 5; XR 7]]) = Ok out
  /\ mcols out = 5 /\ nth_error (mrows out) 1 = Some [XR 5; XR 7; XR (5 * 5); XR (7 * 7); XR (5 * 7)].
Proof. eexists. split; [reflexivity|]. split; reflexivity. Qed.
Example C35_hyps : [[2; 3]; [5; 7]]%R <> [] /\ Forall (fun v : list R => length v = 2) [[2; 3]; [5; 7]]%R.
Proof. split; [discriminate|]. repeat constructor. Qed.
(** a pipeline: a network with two outputs, then products; and a linear map of a wrong size *)
Definition net (row : list xr) : list xr := [xsum row; XR 1].
Example C35_pipe : nets_ok (mkstats Ident 1 true None (Some (mkstats (Embed 3 2 net) 1 false None None)))
  /\ statistics (mkstats Ident 1 true None (Some (mkstats (Embed 3 2 net) 1 false None None))) (PList [Vec [XR 1; XR 2; XR 3]]) = Ok (mkmat 3 [[XR (0 + 1 + 2 + 3); XR 1; XR ((0 + 1 + 2 + 3) * 1)]])
  /\ statistics (mkstats (Linear (mkmat 1 [[XR 1]; [XR 1]])) 1 true None (Some (mkstats (Embed 3 2 net) 2 false None None))) (PList [Vec [XR 1; XR 2; XR 3]]) = Err ValueError.
Proof. split; [|split; reflexivity]. split; [exact I|]. split; [intros row _; reflexivity | exact I]. Qed.
(** reference simulations 1 and 3 of a single number *)
Example C35_refs : exists s m, init_stats Ident 1 false None (Some [Num (XR 1); Num (XR 3)]) = Ok s /\ statistics (mkstats Ident 1 false None None) (PList [Num (XR 1); Num (XR 3)]) = Ok m
  /\ column m 0 = map XR [1; 3]%R /\ ~ (forall x y, In x [1; 3]%R -> In y [1; 3]%R -> x = y).
Proof.
  eexists. eexists. split; [reflexivity|]. split; [reflexivity|]. split; [reflexivity|]. intros H. assert (1 = 3)%R by (apply H; cbn; auto). lra.
Qed.
