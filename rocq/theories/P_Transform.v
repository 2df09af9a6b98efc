(** Properties C30, C31. *)
From Coq Require Import Reals Lra.
From Verif Require Import M_Base M_Num M_XReal L_PMC M_MCMC S_MCMC P_MCMC M_Transform S_Transform L_Transform.
Open Scope R_scope.

Section Statements.
Variable f32 : R -> R.
Notation transform := (transform f32).
Notation inverse_transform := (inverse_transform f32).
Notation jac_log_det := (jac_log_det f32).
Notation jac_log_det_inverse := (jac_log_det_inverse f32).
Definition fine (b : bnd) : Prop := supported b /\ exact f32 b.

Lemma check_all bs xs : Forall fine bs -> Forall2 inside bs xs -> existsb (fun bv => negb (in_check f32 (fst bv) (snd bv))) (combine bs (map XR xs)) = false.
Proof.
  intros Hf H. induction H as [|b x bs xs Hx H IH]; [reflexivity|]. cbn [map combine existsb fst snd]. destruct (Forall_inv Hf) as [Hs He]. rewrite (proj2 (check_iff f32 b x Hs He) Hx). exact (IH (Forall_inv_tail Hf)).
Qed.
Lemma fine_inside bs xs : Forall fine bs -> Forall2 inside bs xs -> Forall2 (fun b x => fine b /\ inside b x) bs xs.
Proof. intros Hf H. induction H as [|b x bs xs Hx H IH]; constructor; [split; [exact (Forall_inv Hf) | exact Hx] | exact (IH (Forall_inv_tail Hf))]. Qed.
Lemma F2l {A B} (Pr : A -> B -> Prop) l m : Forall2 Pr l m -> length l = length m.
Proof. induction 1; cbn; congruence. Qed.
Lemma fine_all bs : forall ys : list R, Forall fine bs -> length ys = length bs -> Forall2 (fun b (_ : R) => fine b) bs ys.
Proof. induction bs as [|b bs IH]; intros [|y ys] Hf H; try discriminate; constructor; [exact (Forall_inv Hf) | apply IH; [exact (Forall_inv_tail Hf) | cbn in H; congruence]]. Qed.
Lemma store_false v : store false v = v.
Proof. reflexivity. Qed.

(** C30.  Two or more variables strictly inside their bounds are transformed to the logarithms of the distances to a lower bound and of the
    ratios of the distances to two bounds, in the list structure of the argument. *)
Theorem C30_transform : forall bs k xs, Forall fine bs -> Forall2 inside bs xs -> (length xs <> 1)%nat ->
  transform bs false (pack k xs) = Ok (pack k (map (fun bx => t (fst bx) (snd bx)) (combine bs xs))).
Proof.
  intros bs k xs Hf Hi H1. unfold M_Transform.transform. rewrite array_pack, map_length, (F2l _ _ _ Hi), Nat.eqb_refl. cbn [negb]. rewrite (check_all bs xs Hf Hi).
  rewrite (each_fin _ t (fun b x => fine b /\ inside b x) bs xs); [|intros b x [[Hs He] Hx]; cbn [store]; apply fwd_fin; assumption | apply fine_inside; assumption].
  unfold tf_back. rewrite map_length, (vmap_len t bs xs (F2l _ _ _ Hi)). rewrite (proj2 (Nat.eqb_neq _ _) H1). apply list_pack. apply vmap_len, (F2l _ _ _ Hi).
Qed.
Lemma inverse_fin bs k ys : Forall fine bs -> length ys = length bs -> (length ys <> 1)%nat -> inverse_transform bs false (pack k ys) = Ok (pack k (vmap tinv bs ys)).
Proof.
  intros Hf Hl H1. unfold M_Transform.inverse_transform. rewrite array_pack, map_length, Hl, Nat.eqb_refl. cbn [negb].
  rewrite (each_fin _ tinv (fun b _ => fine b) bs ys); [|intros b x [Hs He]; apply bwd_fin; assumption | apply fine_all; assumption].
  unfold tf_back. rewrite map_length, (vmap_len tinv bs ys (eq_sym Hl)). rewrite (proj2 (Nat.eqb_neq _ _) H1). apply list_pack. apply vmap_len, eq_sym, Hl.
Qed.
(** C30.  inverse_transform undoes transform ... *)
Theorem C30_roundtrip : forall bs k xs, Forall fine bs -> Forall2 inside bs xs -> (length xs <> 1)%nat ->
  exists ys, transform bs false (pack k xs) = Ok (pack k ys) /\ inverse_transform bs false (pack k ys) = Ok (pack k xs).
Proof.
  intros bs k xs Hf Hi H1. exists (vmap t bs xs). split; [apply C30_transform; assumption|]. pose proof (F2l _ _ _ Hi) as Hl. rewrite inverse_fin; [|exact Hf | rewrite vmap_len; congruence | rewrite vmap_len; assumption].
  f_equal. f_equal. apply (vmap_cancel t tinv (fun b x => fine b /\ inside b x)); [|apply fine_inside; assumption]. intros b x [[Hs _] Hx]. apply tinv_t; assumption.
Qed.
(** ... and maps every point of the transformed space strictly inside the bounds, where transform undoes it. *)
Theorem C30_onto : forall bs k ys, Forall fine bs -> length ys = length bs -> (length ys <> 1)%nat ->
  exists xs, inverse_transform bs false (pack k ys) = Ok (pack k xs) /\ Forall2 inside bs xs /\ transform bs false (pack k xs) = Ok (pack k ys).
Proof.
  intros bs k ys Hf Hl H1. exists (vmap tinv bs ys). split; [apply inverse_fin; assumption|].
  assert (Hi : Forall2 inside bs (vmap tinv bs ys)). { unfold vmap. clear H1. revert ys Hl. induction bs as [|b bs IH]; intros [|y ys] Hl; try discriminate; constructor; [apply tinv_inside, (Forall_inv Hf) | apply IH; [exact (Forall_inv_tail Hf) | cbn in Hl; congruence]]. }
  split; [exact Hi|]. rewrite C30_transform; [|exact Hf | exact Hi | rewrite vmap_len by congruence; exact H1]. f_equal. f_equal. apply (vmap_cancel tinv t (fun b _ => fine b)); [|apply fine_all; assumption].
  intros b y [Hs _]. apply t_tinv. exact Hs.
Qed.
(** C30.  Points on or outside a bound are refused, by transform and by jac_log_det. *)
Theorem C30_refused : forall bs k xs, Forall fine bs -> length xs = length bs -> ~ Forall2 inside bs xs ->
  transform bs false (pack k xs) = Err RuntimeError /\ jac_log_det bs false (pack k xs) = Err RuntimeError.
Proof.
  intros bs k xs Hf Hl Hn. unfold M_Transform.transform, M_Transform.jac_log_det. rewrite array_pack, map_length, Hl, Nat.eqb_refl. cbn [negb].
  assert (E : existsb (fun bv => negb (in_check f32 (fst bv) (snd bv))) (combine bs (map XR xs)) = true).
  { revert xs Hl Hn. induction bs as [|b bs IH]; intros [|x xs] Hl Hn; try discriminate; [exfalso; apply Hn; constructor|]. cbn [map combine existsb fst snd]. destruct (Forall_inv Hf) as [Hs He].
    destruct (in_check f32 b (XR x)) eqn:Ec; [|reflexivity]. cbn [negb orb]. apply IH; [exact (Forall_inv_tail Hf) | cbn in Hl; congruence|]. intros H. apply Hn. constructor; [|exact H]. apply (check_iff f32 b x Hs He). exact Ec. }
  rewrite E. auto.
Qed.
(** bounds of one side above only are not supported, arrays of bounds must have one length *)
Theorem C30_init : forall lower upper, (forall bs, tf_init lower upper = Ok bs <-> length lower = length upper /\ bs = combine lower upper /\ forall i hi, nth_error lower i = Some None -> nth_error upper i <> Some (Some hi))
  /\ (length lower <> length upper -> tf_init lower upper = Err RuntimeError).
Proof.
  intros lower upper. unfold tf_init. destruct (Nat.eqb_spec (length lower) (length upper)) as [E|E]; cbn [negb].
  - split; [|intros H; congruence]. intros bs.
    assert (Hx : existsb (fun b : bnd => match b with (None, Some _) => true | _ => false end) (combine lower upper) = true <-> exists i hi, nth_error lower i = Some None /\ nth_error upper i = Some (Some hi)).
    { clear. split.
      - revert upper. induction lower as [|a lower IH]; intros [|b upper] H; try discriminate. cbn [combine existsb] in H. apply orb_true_iff in H. destruct H as [H|H]; [destruct a, b; try discriminate; exists 0%nat; cbn; eauto|]. destruct (IH upper H) as (i & hi & H'). exists (S i), hi. exact H'.
      - intros (i & hi & H1 & H2). revert upper i H1 H2. induction lower as [|a lower IH]; intros [|b upper] [|i] H1 H2; try discriminate; cbn in *; [injection H1 as ->; injection H2 as ->; reflexivity|]. rewrite (IH upper i H1 H2). apply orb_true_r. }
    destruct (existsb _ _) eqn:Eb.
    + split; [discriminate|]. intros (_ & _ & H). destruct (proj1 Hx eq_refl) as (i & hi & H1 & H2). exfalso. exact (H i hi H1 H2).
    + split; [intros H; injection H as <-|intros (_ & -> & _); reflexivity]. split; [exact E|]. split; [reflexivity|]. intros i hi H1 H2. assert (false = true); [|discriminate]. apply Hx. eauto.
  - split; [|reflexivity]. intros bs. split; [discriminate | intros (H & _); congruence].
Qed.
(** C30.  Refuted for a single variable: the one-element array is squeezed and cannot be indexed (transformers.py:83,140). *)
Theorem C30_single_refuted : forall b k x, fine b -> inside b x -> transform [b] false (pack k [x]) = Err IndexError /\ inverse_transform [b] false (pack k [x]) = Err IndexError.
Proof.
  intros b k x Hf Hx. unfold M_Transform.transform, M_Transform.inverse_transform. rewrite array_pack. cbn [map length Nat.eqb negb]. destruct Hf as [Hs He]. split; [|reflexivity].
  cbn [combine existsb fst snd]. rewrite (proj2 (check_iff f32 b x Hs He) Hx). reflexivity.
Qed.
(** C30.  The check compares with the bound as given, the transformation subtracts its float32 rounding (transformers.py:56,70,80): if
    rounding moves the lower of two bounds up, there are points the check accepts that are transformed to NaN. *)
Theorem C30_float32 : forall lo hi, lo < f32 lo -> f32 lo < f32 hi -> 0 < f32 (f32 hi - f32 lo) ->
  exists x, lo < x < f32 hi /\ in_check f32 (Some lo, Some hi) (XR x) = true /\ fwd f32 (Some lo, Some hi) (XR x) = XNaN.
Proof.
  intros lo hi H1 H2 H3. exists ((lo + f32 lo) / 2). split; [lra|]. split.
  - cbn [in_check xle]. destruct (Rle_dec _ lo); [lra|]. destruct (Rle_dec (f32 hi) _); [lra|]. reflexivity.
  - cbn [fwd]. unfold width. cbn [xsub xadd xopp]. rewrite xdiv_fin by lra. unfold logit. cbn [xlog]. rewrite rsign_neg; [reflexivity|]. apply Ropp_lt_cancel. rewrite Ropp_0. replace (- (((lo + f32 lo) / 2 + - f32 lo) / f32 (f32 hi - f32 lo))) with ((f32 lo - lo) / 2 / f32 (f32 hi - f32 lo)) by (field; lra).
    apply div_pos; lra.
Qed.

(** C31 *)
Definition tder (b : bnd) (x : R) : R := match b with (Some lo, None) => / (x - lo) | (Some lo, Some hi) => (hi - lo) / ((x - lo) * (hi - x)) | _ => 1 end.
Lemma t_derives b x : supported b -> inside b x -> derivable_pt_lim (t b) x (tder b x) /\ 0 < tder b x.
Proof.
  intros Hs [Hl Hh]. destruct b as [[lo|] [hi|]]; cbn [fst snd supported] in *; [| | destruct Hs |].
  - specialize (Hl lo eq_refl). specialize (Hh hi eq_refl). split; [|cbn; apply div_pos; [lra | apply Rmult_lt_0_compat; lra]].
    set (f := (fun z => (z - lo) / (hi - z))).
    assert (Hd : derivable_pt_lim f x ((hi - lo) / ((hi - x) * (hi - x)))).
    { unfold f. assert (H1 : derivable_pt_lim (fun z => z - lo) x 1) by (replace 1 with (1 - 0) by ring; apply (derivable_pt_lim_minus id (fun _ => lo)); [apply derivable_pt_lim_id | apply derivable_pt_lim_const]).
      assert (H2 : derivable_pt_lim (fun z => hi - z) x (-1)) by (replace (-1) with (0 - 1) by ring; apply (derivable_pt_lim_minus (fun _ => hi) id); [apply derivable_pt_lim_const | apply derivable_pt_lim_id]).
      assert (Hne : hi - x <> 0) by lra. pose proof (derivable_pt_lim_div _ _ x _ _ H1 H2 Hne) as H. cbv beta in H.
      replace ((hi - lo) / ((hi - x) * (hi - x))) with ((1 * (hi - x) - -1 * (x - lo)) / (hi - x)²); [exact H|]. unfold Rsqr. field. lra. }
    assert (Hp : 0 < f x) by (unfold f; apply div_pos; lra). pose proof (derivable_pt_lim_comp f ln x _ _ Hd (derivable_pt_lim_ln (f x) Hp)) as H. cbn [tder].
    replace ((hi - lo) / ((x - lo) * (hi - x))) with (/ f x * ((hi - lo) / ((hi - x) * (hi - x)))); [exact H|]. unfold f. field. lra.
  - specialize (Hl lo eq_refl). split; [|cbn; apply Rinv_0_lt_compat; lra]. cbn [tder].
    assert (H1 : derivable_pt_lim (fun z => z - lo) x 1) by (replace 1 with (1 - 0) by ring; apply (derivable_pt_lim_minus id (fun _ => lo)); [apply derivable_pt_lim_id | apply derivable_pt_lim_const]).
    assert (Hp : 0 < x - lo) by lra. pose proof (derivable_pt_lim_comp (fun z => z - lo) ln x _ _ H1 (derivable_pt_lim_ln (x - lo) Hp)) as H. rewrite Rmult_1_r in H. exact H.
  - split; [apply derivable_pt_lim_id | cbn; lra].
Qed.
Lemma ldj_fin b x : fine b -> inside b x -> ldj_term f32 b (XR x) = XR (ln (tder b x)).
Proof.
  intros [Hs He] [Hl Hh]. destruct b as [[lo|] [hi|]]; cbn [fst snd supported ldj_term tder] in *; [| | destruct Hs | rewrite ln_1; reflexivity].
  - specialize (Hl lo eq_refl). specialize (Hh hi eq_refl). destruct (width_exact _ _ _ He) as (E1 & E2 & E3). rewrite E1, E2, E3. cbn [xsub xadd xopp xmul].
    assert (Hm : 0 < (x + - lo) * (hi + - x)) by (apply Rmult_lt_0_compat; lra). rewrite xdiv_fin by lra. rewrite xlog_pos by (apply div_pos; lra). reflexivity.
  - specialize (Hl lo eq_refl). rewrite (low_exact _ _ He). cbn [xsub xadd xopp]. rewrite xlog_pos by lra. cbn [xopp]. f_equal. rewrite ln_Rinv by lra. reflexivity.
Qed.
Definition rprod (l : list R) : R := fold_right Rmult 1 l.
Lemma ln_prod l : Forall (fun x => 0 < x) l -> 0 < rprod l /\ ln (rprod l) = rsum (map ln l).
Proof. induction 1 as [|x l Hx Hl [IH1 IH2]]; [cbn; split; [lra | apply ln_1]|]. split; [cbn; apply Rmult_lt_0_compat; assumption|]. change (ln (x * rprod l) = ln x + rsum (map ln l)). rewrite ln_mult, <- IH2 by assumption. reflexivity. Qed.
(** C31.  jac_log_det is the logarithm of the absolute product of the derivatives of the coordinate transformations. *)
Theorem C31_jacobian : forall bs k xs, Forall fine bs -> Forall2 inside bs xs ->
  exists ds, Forall2 (fun bx d => derivable_pt_lim (t (fst bx)) (snd bx) d) (combine bs xs) ds /\ Forall (fun d => d <> 0) ds
  /\ jac_log_det bs false (pack k xs) = Ok (XR (ln (Rabs (rprod ds)))).
Proof.
  intros bs k xs Hf Hi. exists (map (fun bx => tder (fst bx) (snd bx)) (combine bs xs)). pose proof (fine_inside _ _ Hf Hi) as Hfi.
  assert (Hpos : Forall (fun d => 0 < d) (map (fun bx => tder (fst bx) (snd bx)) (combine bs xs))).
  { clear Hf Hi. induction Hfi as [|b x bs xs [[Hs He] Hx] H IH]; constructor; [apply (t_derives b x Hs Hx) | exact IH]. }
  split; [|split].
  - clear Hf Hi Hpos. induction Hfi as [|b x bs xs [[Hs He] Hx] H IH]; constructor; [apply (t_derives b x Hs Hx) | exact IH].
  - eapply Forall_impl; [|exact Hpos]. intros d Hd. lra.
  - unfold M_Transform.jac_log_det. rewrite array_pack, map_length, (F2l _ _ _ Hi), Nat.eqb_refl. cbn [negb]. rewrite (check_all bs xs Hf Hi).
    rewrite (each_fin _ (fun b x => ln (tder b x)) (fun b x => fine b /\ inside b x) bs xs); [|intros b x [Hb Hx]; apply ldj_fin; assumption | exact Hfi]. rewrite xsum_fin. do 2 f_equal. destruct (ln_prod _ Hpos) as [Hp E]. rewrite Rabs_pos_eq by lra. rewrite E. unfold vmap. rewrite map_map. reflexivity.
Qed.
(** the log-Jacobian of the inverse, variable by variable *)
Definition lnw_ok (delta : R) (b : bnd) : Prop := forall lo hi, b = (Some lo, Some hi) -> Rabs (f32 (ln (hi - lo)) - ln (hi - lo)) <= delta.
Lemma exp_le x y : x <= y -> exp x <= exp y.
Proof. intros [H|H]; [apply Rlt_le, exp_increasing, H | rewrite H; lra]. Qed.
Lemma ln1p_small z : 0 < z -> 0 <= ln (1 + z) <= z.
Proof.
  intros Hz. split; [rewrite <- ln_1; apply Rlt_le, ln_increasing; lra|]. apply Rlt_le. rewrite <- (ln_exp z) at 2. apply ln_increasing; [lra|]. apply exp_ineq1. lra.
Qed.
Lemma ln1p_flip y : ln (1 + exp y) = y + ln (1 + exp (- y)).
Proof.
  pose proof (exp_pos y). rewrite <- (ln_exp y) at 2. rewrite <- ln_mult; [|apply exp_pos | apply exp1_pos]. f_equal. rewrite Rmult_plus_distr_l, <- exp_plus, Rplus_opp_r, exp_0. ring.
Qed.
Lemma ildj_fin b y delta : fine b -> lnw_ok delta b -> 0 <= delta -> exists r, ildj_term f32 b (XR y) = XR r /\ Rabs (r - ln (tder b (tinv b y))) <= delta + exp (- 100)
  /\ (delta = 0 -> -100 < y < 100 -> r = ln (tder b (tinv b y))).
Proof.
  intros [Hs He] Hw H0. pose proof (exp_pos y) as Hp. pose proof (exp_pos (- 100)) as Hc. destruct b as [[lo|] [hi|]]; cbn [fst snd supported ildj_term] in *; [| | destruct Hs |].
  - destruct (width_exact _ _ _ He) as (E1 & E2 & E3). rewrite E3, xlog_pos by lra. specialize (Hw lo hi eq_refl).
    assert (Ex : ln (tder (Some lo, Some hi) (tinv (Some lo, Some hi) y)) = - ln (hi - lo) + ln (1 + exp y) + ln (1 + exp (- y))).
    { cbn [tder tinv]. rewrite (ln1p_flip (- y)), Ropp_involutive. replace ((hi - lo) / (((hi - lo) * exp y / (1 + exp y) + lo - lo) * (hi - ((hi - lo) * exp y / (1 + exp y) + lo)))) with ((1 + exp y) * (1 + exp y) / ((hi - lo) * exp y)).
      - rewrite ln_div, !ln_mult, ln_exp; try apply Rmult_lt_0_compat; try apply exp1_pos; try lra. 
      - replace ((hi - lo) * exp y / (1 + exp y) + lo - lo) with ((hi - lo) * exp y / (1 + exp y)) by ring. replace (hi - ((hi - lo) * exp y / (1 + exp y) + lo)) with ((hi - lo) / (1 + exp y)) by (field; lra). field. repeat split; lra. }
    assert (Hone : xadd (XR 1) (xexp (XR y)) = XR (1 + exp y) /\ xadd (XR 1) (xexp (xopp (XR y))) = XR (1 + exp (- y))) by (split; reflexivity). destruct Hone as [-> ->]. rewrite !xlog_pos by apply exp1_pos. cbn [xopp xlt xadd].
    destruct (Rlt_dec y 100) as [A|A], (Rlt_dec (- 100) y) as [B|B]; cbn [xadd]; eexists; (split; [reflexivity|]); rewrite Ex.
    + split; [|intros -> _; f_equal; f_equal; assert (f32 (ln (hi - lo)) - ln (hi - lo) = 0); [|lra]; apply Rabs_def2 in Hw || (destruct (Req_dec (f32 (ln (hi - lo)) - ln (hi - lo)) 0) as [Z|Z]; [exact Z | apply Rabs_pos_lt in Z; lra])].
      replace (- f32 (ln (hi - lo)) + ln (1 + exp y) + ln (1 + exp (- y)) - (- ln (hi - lo) + ln (1 + exp y) + ln (1 + exp (- y)))) with (- (f32 (ln (hi - lo)) - ln (hi - lo))) by ring. rewrite Rabs_Ropp. lra.
    + split; [|intros _ H; lra]. rewrite (ln1p_flip (- y)), Ropp_involutive.
      replace (- f32 (ln (hi - lo)) + ln (1 + exp y) + - y - (- ln (hi - lo) + ln (1 + exp y) + (- y + ln (1 + exp y)))) with (- (f32 (ln (hi - lo)) - ln (hi - lo)) + - ln (1 + exp y)) by ring.
      eapply Rle_trans; [apply Rabs_triang|]. rewrite !Rabs_Ropp. pose proof (ln1p_small (exp y) Hp). assert (exp y <= exp (- 100)) by (apply exp_le; lra). rewrite (Rabs_pos_eq (ln (1 + exp y))) by lra. lra.
    + split; [|intros _ H; lra]. rewrite (ln1p_flip y). pose proof (exp_pos (- y)) as Hn.
      replace (- f32 (ln (hi - lo)) + y + ln (1 + exp (- y)) - (- ln (hi - lo) + (y + ln (1 + exp (- y))) + ln (1 + exp (- y)))) with (- (f32 (ln (hi - lo)) - ln (hi - lo)) + - ln (1 + exp (- y))) by ring.
      eapply Rle_trans; [apply Rabs_triang|]. rewrite !Rabs_Ropp. pose proof (ln1p_small (exp (- y)) Hn). assert (exp (- y) <= exp (- 100)) by (apply exp_le; lra). rewrite (Rabs_pos_eq (ln (1 + exp (- y)))) by lra. lra.
    + exfalso. lra.
  - exists (- y). split; [reflexivity|]. assert (E : ln (tder (Some lo, None) (tinv (Some lo, None) y)) = - y). { cbn [tder tinv]. replace (exp y + lo - lo) with (exp y) by ring. rewrite ln_Rinv, ln_exp by exact Hp. reflexivity. }
    rewrite E. split; [|reflexivity]. replace (- y - - y) with 0 by ring. rewrite Rabs_R0. lra.
  - exists 0. split; [reflexivity|]. cbn [tder]. rewrite ln_1. split; [|reflexivity]. rewrite Rminus_0_r, Rabs_R0. lra.
Qed.
Lemma inverse_core bs k ys delta : Forall fine bs -> length ys = length bs -> Forall (lnw_ok delta) bs -> 0 <= delta ->
  exists ji j, Forall2 inside bs (vmap tinv bs ys) /\ jac_log_det_inverse bs false (pack k ys) = Ok (XR ji) /\ jac_log_det bs false (pack k (vmap tinv bs ys)) = Ok (XR j)
  /\ Rabs (ji - j) <= INR (length ys) * (delta + exp (- 100)) /\ (delta = 0 -> Forall (fun y => -100 < y < 100) ys -> ji = j).
Proof.
  intros Hf Hl Hw H0.
  assert (Hi : Forall2 inside bs (vmap tinv bs ys)). { unfold vmap. clear Hw. revert ys Hl. induction bs as [|b bs IH]; intros [|y ys] Hl; try discriminate; constructor; [apply tinv_inside, (Forall_inv Hf) | apply IH; [exact (Forall_inv_tail Hf) | cbn in Hl; congruence]]. }
  assert (Hr : exists rs, each (fun b a => store false (ildj_term f32 b a)) bs (map XR ys) = map XR rs /\ Rabs (rsum rs - rsum (vmap (fun b x => ln (tder b x)) bs (vmap tinv bs ys))) <= INR (length ys) * (delta + exp (- 100))
    /\ (delta = 0 -> Forall (fun y => -100 < y < 100) ys -> rsum rs = rsum (vmap (fun b x => ln (tder b x)) bs (vmap tinv bs ys)))).
  { clear Hi. revert ys Hl. induction bs as [|b bs IH]; intros [|y ys] Hl; try discriminate.
    - exists []. split; [reflexivity|]. split; [|reflexivity]. cbn. rewrite Rminus_0_r, Rabs_R0. lra.
    - cbn in Hl. injection Hl as Hl. destruct (IH (Forall_inv_tail Hf) (Forall_inv_tail Hw) ys Hl) as (rs & E & Hb & Hx). destruct (ildj_fin b y delta (Forall_inv Hf) (Forall_inv Hw) H0) as (r & Er & Hrb & Hrx).
      exists (r :: rs). split; [unfold each in *; cbn [map combine fst snd store]; rewrite Er; f_equal; exact E|]. unfold vmap in *. cbn [map combine fst snd rsum fold_right] in *. fold (rsum rs). split.
      + change (length (y :: ys)) with (S (length ys)). rewrite S_INR. match goal with |- Rabs (r + rsum rs - (?a + ?b)) <= _ => replace (r + rsum rs - (a + b)) with ((r - a) + (rsum rs - b)) by ring end. eapply Rle_trans; [apply Rabs_triang|]. unfold rsum in *. lra.
      + intros Hd Hy. rewrite (Hrx Hd (Forall_inv Hy)). f_equal. exact (Hx Hd (Forall_inv_tail Hy)). }
  destruct Hr as (rs & E & Hb & Hx). exists (rsum rs), (rsum (vmap (fun b x => ln (tder b x)) bs (vmap tinv bs ys))).
  split; [exact Hi|]. split; [|split; [|split; [exact Hb | exact Hx]]].
  - unfold M_Transform.jac_log_det_inverse. rewrite array_pack, map_length, Hl, Nat.eqb_refl. cbn [negb]. rewrite E, xsum_fin. reflexivity.
  - unfold M_Transform.jac_log_det. rewrite array_pack, map_length, (F2l _ _ _ Hi), Nat.eqb_refl. cbn [negb]. rewrite (check_all bs _ Hf Hi).
    rewrite (each_fin _ (fun b x => ln (tder b x)) (fun b x => fine b /\ inside b x) bs _); [|intros b x [Hb' Hx']; apply ldj_fin; assumption | apply fine_inside; assumption]. rewrite xsum_fin. reflexivity.
Qed.
(** C31.  jac_log_det_inverse_transform at y is jac_log_det at the point y comes from, up to the float32 rounding of log(upper - lower)
    (error at most delta) and the cutoff at 100 (error at most exp(-100)) per variable; without rounding error and within the cutoff it is exact. *)
Theorem C31_inverse : forall bs k ys delta, Forall fine bs -> length ys = length bs -> Forall (lnw_ok delta) bs -> 0 <= delta ->
  exists xs ji j, Forall2 inside bs xs /\ ((length ys <> 1)%nat -> inverse_transform bs false (pack k ys) = Ok (pack k xs))
  /\ jac_log_det_inverse bs false (pack k ys) = Ok (XR ji) /\ jac_log_det bs false (pack k xs) = Ok (XR j)
  /\ Rabs (ji - j) <= INR (length ys) * (delta + exp (- 100)) /\ (delta = 0 -> Forall (fun y => -100 < y < 100) ys -> ji = j).
Proof.
  intros bs k ys delta Hf Hl Hw H0. destruct (inverse_core bs k ys delta Hf Hl Hw H0) as (ji & j & Hi & H). exists (vmap tinv bs ys), ji, j. split; [exact Hi|]. split; [intros H1; apply inverse_fin; assumption | exact H].
Qed.
(** C31 and C28: the factor exp(-jac_log_det) in the acceptance rule is the volume factor of inverse_transform, so the chain's target in the
    transformed space is the density of the transformed posterior *)
Lemma tinv_derives b y : supported b -> derivable_pt_lim (tinv b) y (/ tder b (tinv b y)).
Proof.
  intros Hs. pose proof (exp_pos y) as Hp. destruct b as [[lo|] [hi|]]; cbn [supported] in Hs; [| | destruct Hs |].
  - cbn [tder tinv]. replace (/ ((hi - lo) / (((hi - lo) * exp y / (1 + exp y) + lo - lo) * (hi - ((hi - lo) * exp y / (1 + exp y) + lo))))) with ((hi - lo) * exp y / ((1 + exp y) * (1 + exp y)) + 0).
    2: { replace ((hi - lo) * exp y / (1 + exp y) + lo - lo) with ((hi - lo) * exp y / (1 + exp y)) by ring. replace (hi - ((hi - lo) * exp y / (1 + exp y) + lo)) with ((hi - lo) / (1 + exp y)) by (field; lra). field. repeat split; lra. }
    apply (derivable_pt_lim_plus (fun z => (hi - lo) * exp z / (1 + exp z)) (fun _ => lo)); [|apply derivable_pt_lim_const].
    assert (H1 : derivable_pt_lim (fun z => (hi - lo) * exp z) y ((hi - lo) * exp y)) by (apply (derivable_pt_lim_scal exp), derivable_pt_lim_exp).
    assert (H2 : derivable_pt_lim (fun z => 1 + exp z) y (exp y)) by (replace (exp y) with (0 + exp y) at 1 by ring; apply (derivable_pt_lim_plus (fun _ => 1) exp); [apply derivable_pt_lim_const | apply derivable_pt_lim_exp]).
    assert (Hne : 1 + exp y <> 0) by lra. pose proof (derivable_pt_lim_div _ _ y _ _ H1 H2 Hne) as H. cbv beta in H.
    replace ((hi - lo) * exp y / ((1 + exp y) * (1 + exp y))) with (((hi - lo) * exp y * (1 + exp y) - exp y * ((hi - lo) * exp y)) / (1 + exp y)²); [exact H|]. unfold Rsqr. field. lra.
  - cbn [tder tinv]. replace (exp y + lo - lo) with (exp y) by ring. rewrite Rinv_inv. replace (exp y) with (exp y + 0) by ring. apply (derivable_pt_lim_plus exp (fun _ => lo)); [apply derivable_pt_lim_exp | apply derivable_pt_lim_const].
  - cbn [tder tinv]. rewrite Rinv_1. apply derivable_pt_lim_id.
Qed.
Theorem C31_volume : forall bs k ys, Forall fine bs -> length ys = length bs ->
  exists xs j es, Forall2 inside bs xs /\ ((length ys <> 1)%nat -> inverse_transform bs false (pack k ys) = Ok (pack k xs)) /\ jac_log_det bs false (pack k xs) = Ok (XR j)
  /\ Forall2 (fun bz e => exists g, (forall z, bwd f32 (fst bz) (XR z) = XR (g z)) /\ derivable_pt_lim g (snd bz) e) (combine bs ys) es
  /\ exp (- j) = Rabs (rprod es).
Proof.
  intros bs k ys Hf Hl. assert (Hi : Forall2 inside bs (vmap tinv bs ys)). { unfold vmap. revert ys Hl. induction bs as [|b bs IH]; intros [|y ys] Hl; try discriminate; constructor; [apply tinv_inside, (Forall_inv Hf) | apply IH; [exact (Forall_inv_tail Hf) | cbn in Hl; congruence]]. }
  exists (vmap tinv bs ys), (rsum (vmap (fun b x => ln (tder b x)) bs (vmap tinv bs ys))), (map (fun bz => / tder (fst bz) (tinv (fst bz) (snd bz))) (combine bs ys)).
  split; [exact Hi|]. split; [intros H1; apply inverse_fin; assumption|]. split; [|split].
  - unfold M_Transform.jac_log_det. rewrite array_pack, map_length, (F2l _ _ _ Hi), Nat.eqb_refl. cbn [negb]. rewrite (check_all bs _ Hf Hi).
    rewrite (each_fin _ (fun b x => ln (tder b x)) (fun b x => fine b /\ inside b x) bs _); [|intros b x [Hb' Hx']; apply ldj_fin; assumption | apply fine_inside; assumption]. rewrite xsum_fin. reflexivity.
  - clear Hi. revert ys Hl. induction bs as [|b bs IH]; intros [|y ys] Hl; try discriminate; constructor; [|apply IH; [exact (Forall_inv_tail Hf) | cbn in Hl; congruence]]. destruct (Forall_inv Hf) as [Hs He]. exists (tinv b). split; [intros z; apply bwd_fin; assumption | apply tinv_derives; exact Hs].
  - assert (H : 0 < rprod (map (fun bz => / tder (fst bz) (tinv (fst bz) (snd bz))) (combine bs ys)) /\ exp (- rsum (vmap (fun b x => ln (tder b x)) bs (vmap tinv bs ys))) = rprod (map (fun bz => / tder (fst bz) (tinv (fst bz) (snd bz))) (combine bs ys))).
    { clear Hi. unfold vmap, rsum, rprod. revert ys Hl. induction bs as [|b bs IH]; intros [|y ys] Hl; try discriminate; cbn [map combine fst snd fold_right]; [split; [lra | rewrite Ropp_0; apply exp_0]|].
      destruct (IH (Forall_inv_tail Hf) ys (f_equal pred Hl)) as [IH1 IH2]. destruct (Forall_inv Hf) as [Hs _]. destruct (t_derives b (tinv b y) Hs (tinv_inside b y Hs)) as [_ Hp]. split; [apply Rmult_lt_0_compat; [apply Rinv_0_lt_compat, Hp | exact IH1]|].
      rewrite Ropp_plus_distr, exp_plus, IH2, exp_Ropp, exp_ln by exact Hp. reflexivity. }
    destruct H as [Hp ->]. rewrite Rabs_pos_eq by lra. reflexivity.
Qed.
(** C28 for bounded variables: with jac_log_det of this transformer as Jacobian terms, the acceptance rule balances prior times likelihood
    times the volume factor of inverse_transform. *)
Theorem C28_bounded : forall Theta (s s' : pt Theta xr) bs k ys ys' p l p' l', Forall fine bs -> length ys = length bs -> length ys' = length bs -> (length bs <> 1)%nat ->
  q_pdf Theta xr s = XR p -> q_ll Theta xr s = XR l -> q_pdf Theta xr s' = XR p' -> q_ll Theta xr s' = XR l' -> 0 < p -> 0 < p' ->
  (exists x, inverse_transform bs false (pack k ys) = Ok x /\ jac_log_det bs false x = Ok (q_ldj Theta xr s)) ->
  (exists x, inverse_transform bs false (pack k ys') = Ok x /\ jac_log_det bs false x = Ok (q_ldj Theta xr s')) ->
  exists pr pr' v v',
    (forall u, 0 <= u < 1 -> accepts xadd xsub xmul xdiv xexp xlt s s' (XR u) = true <-> u < pr) /\ (forall u, 0 <= u < 1 -> accepts xadd xsub xmul xdiv xexp xlt s' s (XR u) = true <-> u < pr')
    /\ (forall zs w, (zs = ys /\ w = v) \/ (zs = ys' /\ w = v') -> exists es, w = Rabs (rprod es) /\ Forall2 (fun bz e => exists g, (forall z, bwd f32 (fst bz) (XR z) = XR (g z)) /\ derivable_pt_lim g (snd bz) e) (combine bs zs) es)
    /\ forall q, (p * exp l * v) * q * pr = (p' * exp l' * v') * q * pr'.
Proof.
  intros Theta s s' bs k ys ys' p l p' l' Hf Hl Hl' H1 Ep El Ep' El' Hp Hp' (x & Ex & Ej) (x' & Ex' & Ej').
  destruct (C31_volume bs k ys Hf Hl) as (xs & j & es & _ & Hinv & Hj & Hes & Hv). destruct (C31_volume bs k ys' Hf Hl') as (xs' & j' & es' & _ & Hinv' & Hj' & Hes' & Hv').
  rewrite Hinv in Ex by congruence. rewrite Hinv' in Ex' by congruence. injection Ex as <-. injection Ex' as <-. rewrite Hj in Ej. rewrite Hj' in Ej'. injection Ej as Ej. injection Ej' as Ej'.
  destruct (C28_balance Theta s s' p l j p' l' j') as (pr & pr' & _ & _ & Ha & Ha' & Hb & _); try assumption; [unfold at_point; auto | unfold at_point; auto|].
  exists pr, pr', (exp (- j)), (exp (- j')). split; [exact Ha|]. split; [exact Ha'|]. split; [|exact Hb].
  intros zs w [[-> ->] | [-> ->]]; [exists es | exists es']; auto.
Qed.
End Statements.
Print Assumptions C30_transform.
Print Assumptions C30_roundtrip.
Print Assumptions C30_onto.
Print Assumptions C30_refused.
Print Assumptions C30_init.
Print Assumptions C30_single_refuted.
Print Assumptions C30_float32.
Print Assumptions C31_jacobian.
Print Assumptions C31_inverse.
Print Assumptions C31_volume.
Print Assumptions C28_bounded.

(** an unbounded, a lower bounded and a two-sided variable *)
Definition case_bounds : list bnd := [(None, None); (Some 0, None); (Some 0, Some 1)].
Example C30_case : Forall (fine (fun r => r)) case_bounds /\ Forall2 inside case_bounds [5; 2; / 2] /\ Forall (lnw_ok (fun r => r) 0) case_bounds
  /\ transform (fun r => r) case_bounds false (pack true [5; 2; / 2]) = Ok (pack true [5; ln 2; 0]).
Proof.
  assert (H1 : Forall (fine (fun r => r)) case_bounds) by (unfold case_bounds; repeat constructor; cbn; lra).
  assert (H2 : Forall2 inside case_bounds [5; 2; / 2]) by (unfold case_bounds; repeat constructor; cbn; intros z E; try discriminate; injection E as <-; lra).
  split; [exact H1|]. split; [exact H2|]. split. { apply Forall_forall. intros b _ lo hi _. replace (ln (hi - lo) - ln (hi - lo)) with 0 by ring; rewrite Rabs_R0; lra. }
  rewrite (C30_transform (fun r => r) case_bounds true [5; 2; / 2] H1 H2) by (cbn; discriminate). f_equal. unfold case_bounds. cbn [combine map fst snd t]. rewrite Rminus_0_r. replace ((/ 2 - 0) / (1 - / 2)) with 1 by field. rewrite ln_1. reflexivity.
Qed.
(** C30.  Refuted for integer parameters: an array of integers keeps only the integer parts of the transformed values (transformers.py:78). *)
Theorem C30_integer_refuted : ~ (forall bs xs ys zs, Forall (fine (fun r => r)) bs -> Forall2 inside bs xs -> (forall x, In x xs -> exists z, x = IZR z) ->
  transform (fun r => r) bs true (pack false xs) = Ok ys -> inverse_transform (fun r => r) bs false ys = Ok zs -> zs = pack false xs).
Proof.
  intros H. assert (Hln : 0 < ln 2 < 1).
  { split; [rewrite <- ln_1; apply ln_increasing; lra|]. rewrite <- (ln_exp 1). apply ln_increasing; [lra|]. pose proof (exp_ineq1 1 ltac:(lra)). lra. }
  assert (Hip : Int_part (ln 2) = 0%Z).
  { unfold Int_part. replace (up (ln 2)) with 1%Z; [reflexivity|]. apply tech_up; cbn; lra. }
  assert (Hip3 : Int_part 3 = 3%Z). { unfold Int_part. replace (up 3) with 4%Z; [reflexivity|]. apply tech_up; lra. }
  assert (E : transform (fun r => r) [(None, None); (Some 0, None)] true (pack false [3; 2]) = Ok (pack false [3; 0])).
  { unfold transform. rewrite array_pack. cbn [map length Nat.eqb negb combine existsb fst snd in_check xle orb]. destruct (Rle_dec 2 0) as [A|_]; [lra|]. cbn [negb]. unfold tf_back, each. cbn [map combine fst snd fwd store xsub xadd xopp length Nat.eqb].
    replace (2 + - 0) with 2 by ring. rewrite xlog_pos by lra. cbn [xtrunc]. destruct (Rlt_dec 3 0) as [A|_]; [lra|]. destruct (Rlt_dec (ln 2) 0) as [A|_]; [lra|]. rewrite Hip, Hip3. reflexivity. }
  assert (E' : inverse_transform (fun r => r) [(None, None); (Some 0, None)] false (pack false [3; 0]) = Ok (pack false [3; 1])).
  { unfold inverse_transform. rewrite array_pack. cbn. rewrite exp_0, Rplus_0_r. reflexivity. }
  assert (pack false [3; 1] = pack false [3; 2]); [|injection H0; lra].
  apply (H [(None, None); (Some 0, None)] [3; 2] (pack false [3; 0]) (pack false [3; 1])); [| | |exact E | exact E'].
  - repeat constructor; cbn; congruence.
  - repeat constructor; cbn; intros z Ez; try discriminate; injection Ez as <-; lra.
  - intros x [<-|[<-|[]]]; [exists 3%Z | exists 2%Z]; reflexivity.
Qed.
Print Assumptions C30_integer_refuted.
(** with float32(0.1) = 13421773/2^27 the point 0.1000000001 between 0.1 and 1 passes the check and has no transform *)
Definition f32_case (r : R) : R := if Req_EM_T r (/ 10) then 13421773 / 134217728 else r.
Example C30_float32_case : / 10 < f32_case (/ 10) /\ in_check f32_case (Some (/ 10), Some 1) (XR (1000000001 / 10000000000)) = true /\ fwd f32_case (Some (/ 10), Some 1) (XR (1000000001 / 10000000000)) = XNaN.
Proof.
  assert (E : f32_case (/ 10) = 13421773 / 134217728) by (unfold f32_case; destruct (Req_EM_T (/ 10) (/ 10)); congruence).
  assert (E1 : f32_case 1 = 1) by (unfold f32_case; destruct (Req_EM_T 1 (/ 10)) as [A|]; [lra | reflexivity]). assert (E2 : width f32_case (/ 10) 1 = 1 - 13421773 / 134217728).
  { unfold width. rewrite E, E1. unfold f32_case. destruct (Req_EM_T _ (/ 10)) as [A|]; [lra | reflexivity]. }
  split; [rewrite E; lra|]. split; [cbn [in_check xle]; rewrite E1; destruct (Rle_dec _ (/ 10)); [lra|]; destruct (Rle_dec 1 _); [lra | reflexivity]|].
  cbn [fwd]. rewrite E2, E. cbn [xsub xadd xopp]. rewrite xdiv_fin by lra. unfold logit. cbn [xlog]. rewrite rsign_neg; [reflexivity | lra].
Qed.

(** C30, C31.  The transformer used without bounds changes nothing, and its log determinants are 0, those of the identity; C28: the acceptance rule then balances
    prior times likelihood. *)
Theorem C30_dummy : forall x, dummy_inverse (dummy_transform x) = x /\ dummy_transform (dummy_inverse x) = x /\ dummy_transform x = x /\ dummy_ldj x = XR 0.
Proof. intros x. split; [reflexivity|]. split; [reflexivity|]. split; reflexivity. Qed.
Print Assumptions C30_dummy.
Theorem C28_dummy : forall Theta (s s' : pt Theta xr) x x' p l p' l', q_pdf Theta xr s = XR p -> q_ll Theta xr s = XR l -> q_ldj Theta xr s = dummy_ldj x ->
  q_pdf Theta xr s' = XR p' -> q_ll Theta xr s' = XR l' -> q_ldj Theta xr s' = dummy_ldj x' -> 0 < p -> 0 < p' ->
  exists pr pr', (forall u, 0 <= u < 1 -> accepts xadd xsub xmul xdiv xexp xlt s s' (XR u) = true <-> u < pr)
    /\ (forall u, 0 <= u < 1 -> accepts xadd xsub xmul xdiv xexp xlt s' s (XR u) = true <-> u < pr') /\ (p * exp l) * pr = (p' * exp l') * pr'.
Proof.
  intros Theta s s' x x' p l p' l' E1 E2 E3 E1' E2' E3' Hp Hp'. apply (C28_untransformed Theta s s' p l p' l'); [| |exact Hp | exact Hp']; unfold at_point; (split; [assumption|split; assumption]).
Qed.
Print Assumptions C28_dummy.
Example C30_dummy_case : dummy_inverse (dummy_transform [Sc (XR 2); Ar [XR 3]]) = [Sc (XR 2); Ar [XR 3]].
Proof. reflexivity. Qed.
