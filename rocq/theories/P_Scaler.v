(** Property C55. *)
From Coq Require Import Reals Lra.
From Verif Require Import M_Base M_Num M_XReal L_PMC M_Transform S_Transform L_Transform P_Transform M_Scaler.
Open Scope R_scope.

Section Statements.
Variable f32 : R -> R.
Notation fine := (fine f32).
(** a matrix of real numbers *)
Definition mat (X : list (list R)) : matrix := map (map XR) X.

Lemma check_rows bs X : Forall fine bs -> Forall (Forall2 inside bs) X -> sc_check f32 bs (mat X) = Ok tt.
Proof.
  intros Hf HX. unfold sc_check.
  assert (E1 : existsb (fun row => negb (length row =? length bs)%nat) (mat X) = false).
  { unfold mat. induction HX as [|x X Hx HX IH]; [reflexivity|]. cbn [map existsb]. rewrite map_length, <- (F2l _ _ _ Hx), Nat.eqb_refl. exact IH. }
  rewrite E1.
  assert (E2 : existsb (fun row => existsb (fun bv => negb (in_check f32 (fst bv) (snd bv))) (combine bs row)) (mat X) = false).
  { unfold mat. clear E1. induction HX as [|x X Hx HX IH]; [reflexivity|]. cbn [map existsb]. rewrite (check_all f32 bs x Hf Hx). exact IH. }
  rewrite E2. reflexivity.
Qed.
Lemma fwd_rows bs X : Forall fine bs -> Forall (Forall2 inside bs) X -> map (each (fwd f32) bs) (mat X) = mat (map (vmap t bs) X).
Proof.
  intros Hf HX. unfold mat. rewrite !map_map. induction HX as [|x X Hx HX IH]; [reflexivity|]. cbn [map]. f_equal; [|exact IH].
  apply (each_fin (fwd f32) t (fun b x => fine b /\ inside b x)); [intros b y [[Hs He] Hy]; apply fwd_fin; assumption | apply fine_inside; assumption].
Qed.
Lemma fold_min l : forall x, exists m, fold_left xmin2n (map XR l) (XR x) = XR m /\ m <= x /\ Forall (fun y => m <= y) l /\ (m = x \/ In m l).
Proof.
  induction l as [|y l IH]; intros x; cbn [map fold_left]; [exists x; split; [reflexivity|]; split; [lra|]; split; [constructor | left; reflexivity]|].
  cbn [xmin2n]. destruct (IH (Rmin x y)) as (m & -> & Hm & Hl & Hin). exists m. pose proof (Rmin_l x y). pose proof (Rmin_r x y). split; [reflexivity|]. split; [lra|]. split; [constructor; [lra | exact Hl]|].
  destruct Hin as [->|Hin]; [|right; right; exact Hin]. unfold Rmin. destruct (Rle_dec x y); [left; reflexivity | right; left; reflexivity].
Qed.
Lemma fold_max l : forall x, exists m, fold_left xmax2n (map XR l) (XR x) = XR m /\ x <= m /\ Forall (fun y => y <= m) l /\ (m = x \/ In m l).
Proof.
  induction l as [|y l IH]; intros x; cbn [map fold_left]; [exists x; split; [reflexivity|]; split; [lra|]; split; [constructor | left; reflexivity]|].
  cbn [xmax2n]. destruct (IH (Rmax x y)) as (m & -> & Hm & Hl & Hin). exists m. pose proof (Rmax_l x y). pose proof (Rmax_r x y). split; [reflexivity|]. split; [lra|]. split; [constructor; [lra | exact Hl]|].
  destruct Hin as [->|Hin]; [|right; right; exact Hin]. unfold Rmax. destruct (Rle_dec x y); [right; left; reflexivity | left; reflexivity].
Qed.
(** scale and shift of a column *)
Lemma mm_fit_spec a b x l : a < b -> exists s m, mm_fit a b (map XR (x :: l)) = (XR s, XR m) /\ 0 < s /\ Forall (fun y => a <= y * s + m <= b) (x :: l)
  /\ (exists y, In y (x :: l) /\ y * s + m = a) /\ ((exists y z, In y (x :: l) /\ In z (x :: l) /\ y <> z) -> exists y, In y (x :: l) /\ y * s + m = b).
Proof.
  intros Hab. unfold mm_fit. cbn [map fold_left xmin2n xmax2n]. destruct (fold_min l x) as (lo & -> & Hlx & Hl & Hlin). destruct (fold_max l x) as (hi & -> & Hhx & Hh & Hhin). cbn [xsub xadd xopp].
  assert (Hall : forall y, In y (x :: l) -> lo <= y <= hi).
  { intros y [<-|Hy]; [lra|]. rewrite Forall_forall in Hl, Hh. split; [apply Hl | apply Hh]; exact Hy. }
  destruct (Req_EM_T (hi + - lo) 0) as [E|E].
  - rewrite xdiv_fin by lra. cbn [xmul xopp xadd]. exists ((b - a) / 1), (a + - (lo * ((b - a) / 1))). split; [reflexivity|]. split; [lra|]. split; [|split].
    + apply Forall_forall. intros y Hy. specialize (Hall y Hy). assert (y = lo) by lra. subst y. lra.
    + exists lo. split; [destruct Hlin as [->|H]; [left; reflexivity | right; exact H] | lra].
    + intros (y & z & Hy & Hz & Hyz). exfalso. apply Hyz. specialize (Hall y Hy) as H1. specialize (Hall z Hz) as H2. lra.
  - assert (Hr : 0 < hi + - lo) by (assert (lo <= hi) by lra; lra). rewrite xdiv_fin by exact E. cbn [xmul xopp xadd]. set (s := (b - a) / (hi + - lo)). assert (Hs : 0 < s) by (apply div_pos; lra). assert (Es : (hi - lo) * s = b - a) by (unfold s; field; exact E).
    exists s, (a + - (lo * s)). split; [reflexivity|]. split; [exact Hs|]. split; [|split].
    + apply Forall_forall. intros y Hy. specialize (Hall y Hy). split.
      * assert (0 <= (y - lo) * s) by (apply Rmult_le_pos; lra). lra.
      * assert (0 <= (hi - y) * s) by (apply Rmult_le_pos; lra). lra.
    + exists lo. split; [destruct Hlin as [->|H]; [left; reflexivity | right; exact H] | lra].
    + intros _. exists hi. split; [destruct Hhin as [->|H]; [left; reflexivity | right; exact H] | lra].
Qed.
Definition scaling (p : xr * xr) : Prop := exists s m, p = (XR s, XR m) /\ s <> 0.
Lemma column_mat Y j d : Forall (fun row => (j < length row)%nat) Y -> column (mat Y) j = map XR (map (fun row => nth j row d) Y).
Proof.
  intros H. unfold column, mat. rewrite !map_map. induction H as [|row Y Hr H IH]; [reflexivity|]. cbn [map]. f_equal; [|exact IH]. rewrite (nth_indep _ XNaN (XR d)) by (rewrite map_length; exact Hr). apply map_nth.
Qed.
(** C55.  Fitting data inside the bounds gives every column a positive scale; the rescaled training data lie in the feature range, whose lower
    end every column attains, and whose upper end every column with two different values attains. *)
Theorem C55_fit : forall bs a b x X, Forall fine bs -> Forall (Forall2 inside bs) (x :: X) -> a < b ->
  exists ps Y, sc_fit f32 bs true a b (mat (x :: X)) = Ok (Some ps) /\ length ps = length bs /\ Forall scaling ps
  /\ sc_transform f32 bs (Some ps) (mat (x :: X)) = Ok (mat Y) /\ Forall (Forall (fun y => a <= y <= b)) Y /\ length Y = length (x :: X) /\ Forall (fun row => length row = length bs) Y.
Proof.
  intros bs a b x X Hf HX Hab. unfold sc_fit, sc_transform. rewrite (check_rows bs (x :: X) Hf HX), (fwd_rows bs (x :: X) Hf HX). destruct (Rle_dec b a) as [|_]; [lra|].
  set (T := map (vmap t bs) (x :: X)). assert (HT : Forall (fun row => length row = length bs) T).
  { unfold T. clear T Hab. induction HX as [|r R Hr HR IH]; constructor; [|exact IH]. pose proof (F2l _ _ _ Hr). rewrite vmap_len; congruence. }
  change (mat (x :: X)) with (map XR x :: mat X). cbv iota. change (map XR x :: mat X) with (mat (x :: X)).
  assert (Hj : forall j, (j < length bs)%nat -> exists s m, mm_fit a b (column (mat T) j) = (XR s, XR m) /\ 0 < s /\ Forall (fun row => a <= nth j row 0 * s + m <= b) T).
  { intros j Hj. rewrite (column_mat T j 0) by (eapply Forall_impl; [|exact HT]; cbv beta; intros row ->; exact Hj). unfold T. cbn [map]. destruct (mm_fit_spec a b (nth j (vmap t bs x) 0) (map (fun row => nth j row 0) (map (vmap t bs) X)) Hab) as (s & m & E & Hs & Hr & _).
    cbn [map] in E. exists s, m. split; [exact E|]. split; [exact Hs|]. constructor; [exact (Forall_inv Hr)|]. apply Forall_inv_tail in Hr. rewrite Forall_map in Hr. exact Hr. }
  set (ps := map (fun j => mm_fit a b (column (mat T) j)) (seq 0 (length bs))).
  assert (Hps : forall row, In row T -> exists y, mm_row ps (map XR row) = map XR y /\ Forall (fun v => a <= v <= b) y /\ length y = length bs).
  { intros row Hrow. assert (Hlen : length row = length bs) by (rewrite Forall_forall in HT; apply HT, Hrow).
    assert (Hg : forall n k rest, (k + n <= length bs)%nat -> rest = skipn k row -> exists y, mm_row (map (fun j => mm_fit a b (column (mat T) j)) (seq k n)) (map XR rest) = map XR y /\ Forall (fun v => a <= v <= b) y /\ (length rest = n -> length y = n)).
    { induction n as [|n IH]; intros k rest Hk ->; [exists []; split; [reflexivity|]; split; [constructor | reflexivity]|]. cbn [seq map].
      destruct (skipn k row) as [|v rest] eqn:Es; [exfalso; apply (f_equal (@length R)) in Es; rewrite skipn_length in Es; cbn in Es; lia|].
      assert (Ev : v = nth k row 0 /\ rest = skipn (S k) row). { clear - Es. revert k Es. induction row as [|z row IH]; intros [|k] Es; cbn in Es; try discriminate; [injection Es as <- <-; auto|]. cbn [nth skipn]. apply IH, Es. }
      destruct Ev as [-> ->]. destruct (IH (S k) (skipn (S k) row)) as (y & Ey & Hy & Hly); [lia | reflexivity|]. destruct (Hj k) as (s & m & Em & Hs & Hr); [lia|]. rewrite Forall_forall in Hr. specialize (Hr row Hrow).
      exists (nth k row 0 * s + m :: y). unfold mm_row in *. cbn [map combine fst snd]. rewrite Em. cbn [fst snd xmul xadd]. split; [f_equal; exact Ey|]. split; [constructor; assumption|]. intros Hl. cbn [length] in *. injection Hl as Hl. f_equal. apply Hly. exact Hl. }
    destruct (Hg (length bs) 0%nat row) as (y & Ey & Hy & Hl); [lia | reflexivity|]. exists y. split; [exact Ey|]. split; [exact Hy | apply Hl, Hlen]. }
  assert (HY : forall Z, (forall row, In row Z -> In row T) -> exists Y, map (mm_row ps) (mat Z) = mat Y /\ Forall (Forall (fun y => a <= y <= b)) Y /\ length Y = length Z /\ Forall (fun row => length row = length bs) Y).
  { induction Z as [|z Z IH]; intros HZ; [exists []; cbn; auto|]. destruct (IH (fun row H => HZ row (or_intror H))) as (Y & E & HYr & Hl & HYl). destruct (Hps z (HZ z (or_introl eq_refl))) as (y & Ey & Hy & Hly).
    exists (y :: Y). unfold mat in *. cbn [map]. rewrite Ey, E. split; [reflexivity|]. split; [constructor; assumption|]. split; [cbn; congruence | constructor; assumption]. }
  destruct (HY T (fun _ H => H)) as (Y & E & HYr & Hl & HYl). exists ps, Y. split; [reflexivity|]. split; [unfold ps; rewrite map_length, seq_length; reflexivity|]. split.
  { apply Forall_forall. intros p Hp. unfold ps in Hp. apply in_map_iff in Hp. destruct Hp as (j & <- & Hj'). apply in_seq in Hj'. destruct (Hj j) as (s & m & Em & Hs & _); [lia|]. exists s, m. split; [exact Em | lra]. }
  split; [rewrite E; reflexivity|]. split; [exact HYr|]. split; [rewrite Hl; unfold T; apply map_length | exact HYl].
Qed.
Lemma mm_cancel ps row : Forall scaling ps -> length row = length ps -> exists z, mm_row ps (map XR row) = map XR z /\ length z = length row /\ mm_inv ps (map XR z) = map XR row.
Proof.
  intros Hp. revert row. induction Hp as [|p ps (s & m & -> & Hs) Hp IH]; intros [|v row] Hl; try discriminate; [exists []; auto|]. cbn in Hl. injection Hl as Hl. destruct (IH row Hl) as (z & E1 & E2 & E3).
  exists (v * s + m :: z). unfold mm_row, mm_inv in *. cbn [map combine fst snd xmul xadd]. split; [f_equal; exact E1|]. split; [cbn; congruence|]. cbn [xsub xopp xadd]. rewrite xdiv_fin by exact Hs. f_equal; [f_equal; field; exact Hs | exact E3].
Qed.
Lemma mm_onto ps row : Forall scaling ps -> length row = length ps -> exists z, mm_inv ps (map XR row) = map XR z /\ length z = length row /\ mm_row ps (map XR z) = map XR row.
Proof.
  intros Hp. revert row. induction Hp as [|p ps (s & m & -> & Hs) Hp IH]; intros [|v row] Hl; try discriminate; [exists []; auto|]. cbn in Hl. injection Hl as Hl. destruct (IH row Hl) as (z & E1 & E2 & E3).
  exists ((v - m) / s :: z). unfold mm_row, mm_inv in *. cbn [map combine fst snd xsub xopp xadd]. rewrite xdiv_fin by exact Hs. split; [f_equal; exact E1|]. split; [cbn; congruence|]. cbn [xmul xadd]. f_equal; [f_equal; field; exact Hs | exact E3].
Qed.
(** C55.  inverse_transform undoes transform on data inside the bounds, with or without rescaling; one variable is no exception here. *)
Theorem C55_roundtrip : forall bs fitted X, Forall fine bs -> Forall (Forall2 inside bs) X -> (forall ps, fitted = Some ps -> Forall scaling ps /\ length ps = length bs) ->
  exists Y, sc_transform f32 bs fitted (mat X) = Ok (mat Y) /\ sc_inverse f32 bs fitted (mat Y) = mat X.
Proof.
  intros bs fitted X Hf HX Hp. unfold sc_transform, sc_inverse. rewrite (check_rows bs X Hf HX), (fwd_rows bs X Hf HX).
  assert (Hb : forall x, Forall2 inside bs x -> each (bwd f32) bs (map XR (vmap t bs x)) = map XR x).
  { intros x Hx. assert (Hl : length (vmap t bs x) = length bs) by (pose proof (F2l _ _ _ Hx); rewrite vmap_len; congruence). rewrite (each_fin (bwd f32) tinv (fun b _ => fine b)); [|intros b y [Hs He]; apply bwd_fin; assumption | apply fine_all; assumption].
    f_equal. apply (vmap_cancel t tinv (fun b x => fine b /\ inside b x)); [intros b y [[Hs _] Hy]; apply tinv_t; assumption | apply fine_inside; assumption]. }
  destruct fitted as [ps|].
  - destruct (Hp ps eq_refl) as [Hsc Hlen]. unfold mat. induction HX as [|x X Hx HX IH]; [exists []; auto|]. destruct IH as (Y & E1 & E2). injection E1 as E1.
    assert (Hl : length (vmap t bs x) = length ps) by (pose proof (F2l _ _ _ Hx); rewrite vmap_len; congruence). destruct (mm_cancel ps _ Hsc Hl) as (z & Z1 & Z2 & Z3). exists (z :: Y). cbn [map]. rewrite Z1, E1, Z3, (Hb x Hx), E2. auto.
  - exists (map (vmap t bs) X). split; [reflexivity|]. unfold mat. rewrite !map_map. induction HX as [|x X Hx HX IH]; [reflexivity|]. cbn [map]. rewrite (Hb x Hx), IH. reflexivity.
Qed.
(** C55.  The Jacobian of the inverse at rescaled points is the Jacobian at the points they come from (up to the errors of C31_inverse); the
    rescaling itself is left out in both. *)
Theorem C55_jacobian : forall bs fitted k ys delta, Forall fine bs -> length ys = length bs -> (forall ps, fitted = Some ps -> Forall scaling ps /\ length ps = length bs) -> Forall (lnw_ok f32 delta) bs -> 0 <= delta ->
  exists xs ji j, sc_inverse f32 bs fitted [map XR ys] = [map XR xs] /\ Forall2 inside bs xs /\ sc_jac_inv f32 bs fitted (map XR ys) = XR ji /\ sc_jac f32 bs (map XR xs) = Ok (XR j)
  /\ jac_log_det f32 bs false (pack k xs) = Ok (XR j) /\ Rabs (ji - j) <= INR (length ys) * (delta + exp (- 100)).
Proof.
  intros bs fitted k ys delta Hf Hl Hp Hw H0.
  assert (Hz : exists zs, (match fitted with Some ps => mm_inv ps (map XR ys) | None => map XR ys end) = map XR zs /\ length zs = length ys).
  { destruct fitted as [ps|]; [|exists ys; auto]. destruct (Hp ps eq_refl) as [Hsc Hlen]. destruct (mm_onto ps ys Hsc (eq_trans Hl (eq_sym Hlen))) as (z & E1 & E2 & _). eauto. }
  destruct Hz as (zs & Ez & Hlz). destruct (inverse_core f32 bs k zs delta Hf (eq_trans Hlz Hl) Hw H0) as (ji & j & Hi & Hji & Hj & Hb & _). rewrite Hlz in Hb.
  exists (vmap tinv bs zs), ji, j. split; [|split; [exact Hi|]; split; [|split; [|split; [exact Hj | exact Hb]]]].
  - unfold sc_inverse. replace (match fitted with Some ps => map (mm_inv ps) [map XR ys] | None => [map XR ys] end) with [map XR zs] by (destruct fitted; cbn; rewrite <- Ez; reflexivity). cbn [map]. f_equal.
    apply (each_fin (bwd f32) tinv (fun b _ => fine b)); [intros b y [Hs He]; apply bwd_fin; assumption | apply fine_all; [exact Hf | congruence]].
  - unfold sc_jac_inv. rewrite Ez. unfold jac_log_det_inverse in Hji. rewrite array_pack, map_length in Hji. destruct (negb _); [discriminate|]. injection Hji as Hji. exact Hji.
  - unfold sc_jac. change [map XR (vmap tinv bs zs)] with (mat [vmap tinv bs zs]). rewrite (check_rows bs [vmap tinv bs zs] Hf) by (constructor; [exact Hi | constructor]).
    unfold jac_log_det in Hj. rewrite array_pack, map_length in Hj. destruct (negb _); [discriminate|]. destruct (existsb _ _); [discriminate|]. exact Hj.
Qed.
End Statements.
Print Assumptions C55_fit.
Print Assumptions C55_roundtrip.
Print Assumptions C55_jacobian.
(** two rows of one lower-bounded variable *)
Example C55_case : Forall (Forall2 inside [(Some 0, None)]) [[1]; [exp 1]] /\ Forall (fine (fun r => r)) [(Some 0, None)]
  /\ sc_fit (fun r => r) [(Some 0, None)] true 0 1 (mat [[1]; [exp 1]]) = Ok (Some [(XR 1, XR 0)]).
Proof.
  pose proof (exp_pos 1) as He. assert (H1 : Forall (Forall2 inside [(Some 0, None)]) [[1]; [exp 1]]) by (repeat constructor; cbn; intros z E; try discriminate; injection E as <-; lra).
  assert (H2 : Forall (fine (fun r => r)) [(Some 0, None)]) by (repeat constructor; cbn; congruence). split; [exact H1|]. split; [exact H2|].
  unfold sc_fit. rewrite (check_rows (fun r => r) [(Some 0, None)] [[1]; [exp 1]] H2 H1), (fwd_rows (fun r => r) [(Some 0, None)] [[1]; [exp 1]] H2 H1). destruct (Rle_dec 1 0) as [|_]; [lra|]. unfold mat. cbn [map]. do 2 f_equal. unfold vmap, column. cbn [map combine fst snd t length seq nth]. rewrite !Rminus_0_r, ln_1, ln_exp.
  unfold mm_fit. cbn [fold_left xmin2n xmax2n xsub xopp xadd]. rewrite (Rmax_right 0 1), (Rmin_left 0 1) by lra. destruct (Req_EM_T (1 + - 0) 0) as [|_]; [lra|]. rewrite xdiv_fin by lra. cbn [xmul xopp xadd]. repeat f_equal; field.
Qed.
