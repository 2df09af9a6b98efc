(** Proofs about the transformations. *)
From Coq Require Import Reals Lra.
From Verif Require Import M_Base M_Num M_XReal L_PMC M_Transform S_Transform.
Open Scope R_scope.

Lemma xlog_pos x : 0 < x -> xlog (XR x) = XR (ln x).
Proof. intros H. cbn. rewrite (rsign_pos x H). reflexivity. Qed.
Lemma ln_div a b : 0 < a -> 0 < b -> ln (a / b) = ln a - ln b.
Proof. intros Ha Hb. unfold Rdiv. rewrite ln_mult, ln_Rinv; try lra. apply Rinv_0_lt_compat, Hb. Qed.
Lemma div_pos a b : 0 < a -> 0 < b -> 0 < a / b.
Proof. intros. apply Rdiv_lt_0_compat; assumption. Qed.

Definition tinv (b : bnd) (y : R) : R :=
  match b with (Some lo, None) => exp y + lo | (Some lo, Some hi) => (hi - lo) * exp y / (1 + exp y) + lo | _ => y end.
Lemma exp1_pos y : 0 < 1 + exp y.
Proof. pose proof (exp_pos y). lra. Qed.
Lemma tinv_inside b y : supported b -> inside b (tinv b y).
Proof.
  destruct b as [[lo|] [hi|]]; cbn; intros H; split; cbn; intros z E; try discriminate; injection E as <-; pose proof (exp_pos y) as Hp.
  - assert (0 < (hi - lo) * exp y / (1 + exp y)); [|lra]. apply div_pos; [|lra]. apply Rmult_lt_0_compat; lra.
  - assert (E : (hi - lo) * exp y / (1 + exp y) + lo = hi - (hi - lo) / (1 + exp y)) by (field; lra). rewrite E. assert (0 < (hi - lo) / (1 + exp y)); [|lra]. apply div_pos; lra.
  - lra.
  - destruct H.
Qed.
Lemma t_tinv b y : supported b -> t b (tinv b y) = y.
Proof.
  destruct b as [[lo|] [hi|]]; cbn; intros H; try reflexivity; pose proof (exp_pos y) as Hp.
  - rewrite <- (ln_exp y) at 5. f_equal. assert ((hi - lo) / (1 + exp y) <> 0) by (apply Rgt_not_eq, div_pos; lra). field. split; [lra|]. replace (hi * (1 + exp y) - ((hi - lo) * exp y + lo * (1 + exp y))) with (hi - lo) by ring. lra.
  - replace (exp y + lo - lo) with (exp y) by ring. apply ln_exp.
Qed.
Lemma tinv_t b x : supported b -> inside b x -> tinv b (t b x) = x.
Proof.
  destruct b as [[lo|] [hi|]]; cbn; intros H [Hl Hh]; cbn in *; try reflexivity.
  - specialize (Hl lo eq_refl). specialize (Hh hi eq_refl). rewrite exp_ln by (apply div_pos; lra). field. lra.
  - specialize (Hl lo eq_refl). rewrite exp_ln by lra. lra.
Qed.
Section F32.
Variable f32 : R -> R.
Lemma width_exact lo hi : exact f32 (Some lo, Some hi) -> f32 lo = lo /\ f32 hi = hi /\ width f32 lo hi = hi - lo.
Proof. intros (H1 & H2 & H3). cbn in *. specialize (H1 lo eq_refl). specialize (H2 hi eq_refl). unfold width. rewrite H1, H2. auto. Qed.
Lemma low_exact lo : exact f32 (Some lo, None) -> f32 lo = lo.
Proof. intros (H1 & _). exact (H1 lo eq_refl). Qed.
Lemma fwd_fin b x : supported b -> exact f32 b -> inside b x -> fwd f32 b (XR x) = XR (t b x).
Proof.
  destruct b as [[lo|] [hi|]]; intros H He [Hl Hh]; cbn [fst snd] in *; try reflexivity.
  - cbn [supported] in H. destruct (width_exact _ _ He) as (E1 & E2 & E3). specialize (Hl lo eq_refl). specialize (Hh hi eq_refl). cbn [fwd t]. rewrite E1, E3. cbn [xsub xadd xopp]. rewrite xdiv_fin by lra. unfold logit.
    assert (Hp : 0 < (x + - lo) / (hi - lo)) by (apply div_pos; lra). assert (E : 1 + - ((x + - lo) / (hi - lo)) = (hi - x) / (hi - lo)) by (field; lra). assert (Hq : 0 < (hi - x) / (hi - lo)) by (apply div_pos; lra).
    rewrite xlog_pos by exact Hp. cbn [xsub xadd xopp]. rewrite E, xlog_pos by exact Hq. cbn [xsub xadd xopp]. f_equal. rewrite !ln_div by lra. replace (x + - lo) with (x - lo) by ring. ring.
  - specialize (Hl lo eq_refl). cbn [fwd t]. rewrite (low_exact _ He). cbn [xsub xadd xopp]. rewrite xlog_pos by lra. reflexivity.
Qed.
Lemma bwd_fin b y : supported b -> exact f32 b -> bwd f32 b (XR y) = XR (tinv b y).
Proof.
  destruct b as [[lo|] [hi|]]; intros H He; try reflexivity.
  - destruct (width_exact _ _ He) as (E1 & E2 & E3). cbn [bwd tinv]. rewrite E1, E3. cbn [xexp xmul xadd]. pose proof (exp1_pos y). rewrite xdiv_fin by lra. reflexivity.
  - cbn [bwd tinv]. rewrite (low_exact _ He). reflexivity.
Qed.
Lemma check_iff b x : supported b -> exact f32 b -> in_check f32 b (XR x) = true <-> inside b x.
Proof.
  unfold inside. destruct b as [[lo|] [hi|]]; intros H He; cbn [in_check fst snd].
  - destruct (width_exact _ _ He) as (E1 & E2 & E3). rewrite E2. cbn [xle]. destruct (Rle_dec x lo) as [A|A], (Rle_dec hi x) as [B|B]; cbn; (split; [intros E | intros [E F]; try reflexivity]); try discriminate; try (specialize (E lo eq_refl); lra); try (specialize (F hi eq_refl); lra).
    split; intros z Ez; injection Ez as <-; lra.
  - rewrite (low_exact _ He). cbn [xle]. destruct (Rle_dec x lo) as [A|A]; cbn; (split; [intros E | intros [E F]; try reflexivity]); try discriminate; try (specialize (E lo eq_refl); lra). split; intros z Ez; [injection Ez as <-; lra | discriminate].
  - cbn in H. destruct H.
  - split; [intros _; split; discriminate | reflexivity].
Qed.
End F32.
(** lists *)
Lemma arrays_pack xs : arrays 1 (pack true xs) = Some (map XR xs).
Proof. induction xs as [|x xs IH]; [reflexivity|]. unfold pack in *. cbn. rewrite IH. reflexivity. Qed.
Lemma scalars_pack xs : scalars (pack false xs) = Some (map XR xs).
Proof. induction xs as [|x xs IH]; [reflexivity|]. unfold pack in *. cbn. rewrite IH. reflexivity. Qed.
Lemma array_pack k xs : array_from_list (pack k xs) = Ok (map XR xs).
Proof.
  unfold array_from_list. destruct xs as [|x xs]; [reflexivity|]. destruct k.
  - change (match arrays 1 (pack true (x :: xs)) with Some l => Ok l | None => Err ValueError end = Ok (map XR (x :: xs))). rewrite arrays_pack. reflexivity.
  - change (match scalars (pack false (x :: xs)) with Some l => Ok l | None => Err ValueError end = Ok (map XR (x :: xs))). rewrite scalars_pack. reflexivity.
Qed.
Lemma list_pack k xs : forall ys, length ys = length xs -> list_from_array (map XR ys) (pack k xs) = Ok (pack k ys).
Proof.
  induction xs as [|x xs IH]; intros [|y ys] H; try discriminate; [reflexivity|]. cbn in H. injection H as H. cbn [pack map list_from_array]. specialize (IH ys H). unfold pack in IH. rewrite IH. destruct k; reflexivity.
Qed.
Definition vmap (f : bnd -> R -> R) (bs : list bnd) (xs : list R) : list R := map (fun bx => f (fst bx) (snd bx)) (combine bs xs).
Lemma each_fin (f : bnd -> xr -> xr) (g : bnd -> R -> R) (Pr : bnd -> R -> Prop) bs : forall xs, (forall b x, Pr b x -> f b (XR x) = XR (g b x)) -> Forall2 Pr bs xs -> each f bs (map XR xs) = map XR (vmap g bs xs).
Proof.
  intros xs Hf H. unfold each, vmap. induction H as [|b x bs xs Hx H IH]; [reflexivity|]. cbn. rewrite (Hf _ _ Hx). f_equal. exact IH.
Qed.
Lemma vmap_len g bs xs : length bs = length xs -> length (vmap g bs xs) = length xs.
Proof. intros H. unfold vmap. rewrite map_length, combine_length, H. lia. Qed.
Lemma vmap_cancel f g (Pr : bnd -> R -> Prop) bs xs : (forall b x, Pr b x -> g b (f b x) = x) -> Forall2 Pr bs xs -> vmap g bs (vmap f bs xs) = xs.
Proof. intros Hf H. unfold vmap. induction H as [|b x bs xs Hx H IH]; [reflexivity|]. cbn. rewrite (Hf _ _ Hx). f_equal. exact IH. Qed.
