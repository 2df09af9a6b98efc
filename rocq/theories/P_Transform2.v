(** C30, C31: arrays of integers. *)
From Coq Require Import Reals Lra Lia.
From Verif Require Import M_Base M_Num M_XReal M_MMD M_KNN M_Transform S_Stats S_Transform L_PMC L_Transform P_Transform.
Open Scope R_scope.

(** z is r without its fractional part *)
Definition Towards0 (r : R) (z : Z) : Prop := (0 <= r -> IZR z <= r < IZR z + 1) /\ (r < 0 -> IZR z - 1 < r <= IZR z) /\ (0 <= r -> (0 <= z)%Z) /\ (r < 0 -> (z <= 0)%Z).
Lemma int_part_bounds r : IZR (Int_part r) <= r < IZR (Int_part r) + 1.
Proof. destruct (base_Int_part r). lra. Qed.
Lemma trunc_ok r : exists z, xtrunc (XR r) = XR (IZR z) /\ Towards0 r z.
Proof.
  cbn [xtrunc]. destruct (Rlt_dec r 0) as [H|H].
  - exists (- Int_part (- r))%Z. rewrite opp_IZR. split; [reflexivity|]. pose proof (int_part_bounds (- r)) as B. unfold Towards0. rewrite !opp_IZR. split; [lra|]. split; [lra|]. split; [lra|]. intros _.
    assert (-1 < Int_part (- r))%Z by (apply lt_IZR; lra). lia.
  - exists (Int_part r). split; [reflexivity|]. pose proof (int_part_bounds r) as B. unfold Towards0. split; [lra|]. split; [lra|]. split; [|lra]. intros _. assert (-1 < Int_part r)%Z by (apply lt_IZR; lra). lia.
Qed.
(** every variable by itself, then truncated *)
Lemma each_ints (f : bnd -> xr -> xr) bs : forall ys, length ys = length bs -> (forall b y, In (b, y) (combine bs ys) -> exists r, f b (XR y) = XR r) ->
  exists rs zs, each f bs (map XR ys) = map XR rs /\ each (fun b a => store true (f b a)) bs (map XR ys) = map XR (map IZR zs) /\ Forall2 Towards0 rs zs.
Proof.
  induction bs as [|b bs IH]; intros [|y ys] Hl Hf; try discriminate.
  - exists [], []. split; [reflexivity|]. split; [reflexivity|constructor].
  - injection Hl as Hl. destruct (IH ys Hl) as (rs & zs & E1 & E2 & H); [intros b' y' Hin; apply Hf; right; exact Hin|].
    destruct (Hf b y (or_introl eq_refl)) as (r & Er). destruct (trunc_ok r) as (z & Ez & Hz). exists (r :: rs), (z :: zs). unfold each in *. cbn [map combine fst snd]. rewrite Er. cbn [store]. rewrite Ez.
    split; [f_equal; exact E1|]. split; [f_equal; exact E2|constructor; assumption].
Qed.

Lemma each_nth (f : bnd -> xr -> xr) bs : forall xs rs i b x r, each f bs (map XR xs) = map XR rs -> nth_error bs i = Some b -> nth_error xs i = Some x -> nth_error rs i = Some r -> f b (XR x) = XR r.
Proof.
  unfold each. induction bs as [|b0 bs IH]; intros [|x0 xs] [|r0 rs] [|i] b x r E Hb Hx Hr; try discriminate; cbn [map combine fst snd] in E; injection E as E0 E.
  - cbn in Hb, Hx, Hr. injection Hb as <-. injection Hx as <-. injection Hr as <-. exact E0.
  - exact (IH xs rs i b x r E Hb Hx Hr).
Qed.

Section Ints.
Variable f32 : R -> R.
Notation transform := (transform f32).
Notation inverse_transform := (inverse_transform f32).
Notation jac_log_det := (jac_log_det f32).
Notation jac_log_det_inverse := (jac_log_det_inverse f32).
Notation fine := (fine f32).

Lemma map_XR_inj l : forall l', map XR l = map XR l' -> l = l'.
Proof. induction l as [|x l IH]; intros [|y l'] H; try discriminate; [reflexivity|]. cbn in H. injection H as -> H. f_equal. apply IH, H. Qed.
Lemma each_len (f : bnd -> xr -> xr) bs (v : list xr) : length v = length bs -> length (each f bs v) = length v.
Proof. intros H. unfold each. rewrite map_length, combine_length, H. lia. Qed.
(** C30 (integers).  With an array of integers both maps give what they give for the same numbers as floats, each number without its fractional part. *)
Theorem C30_integers : forall bs k xs, Forall fine bs -> length xs = length bs -> (length xs <> 1)%nat ->
  (Forall2 inside bs xs -> exists rs zs, transform bs false (pack k xs) = Ok (pack k rs) /\ transform bs true (pack k xs) = Ok (pack k (map IZR zs)) /\ Forall2 Towards0 rs zs)
  /\ exists rs zs, inverse_transform bs false (pack k xs) = Ok (pack k rs) /\ inverse_transform bs true (pack k xs) = Ok (pack k (map IZR zs)) /\ Forall2 Towards0 rs zs.
Proof.
  intros bs k xs Hf Hl H1. split.
  - intros Hi. destruct (each_ints (fwd f32) bs xs Hl) as (rs & zs & E1 & E2 & H).
    { intros b y Hin. exists (t b y). assert (Hb : fine b /\ inside b y). { clear - Hf Hi Hin. induction Hi as [|b' x' bs xs Hx Hi IH]; [destruct Hin|]. destruct Hin as [E|Hin]; [injection E as -> ->; split; [exact (Forall_inv Hf)|exact Hx]|apply IH; [exact (Forall_inv_tail Hf)|exact Hin]]. }
      destruct Hb as [[Hs He] Hx]. apply fwd_fin; assumption. }
    assert (L1 : length rs = length xs). { apply (f_equal (@length xr)) in E1. rewrite each_len, !map_length in E1 by (rewrite map_length; exact Hl). congruence. }
    pose proof (F2l _ _ _ H) as L2. exists rs, zs. split; [|split; [|exact H]]; unfold M_Transform.transform; rewrite array_pack, map_length, Hl, Nat.eqb_refl; cbn [negb]; rewrite (check_all f32 bs xs Hf Hi).
    + change (each (fun b a => store false (fwd f32 b a)) bs (map XR xs)) with (each (fwd f32) bs (map XR xs)). rewrite E1. unfold tf_back. rewrite map_length, L1, (proj2 (Nat.eqb_neq _ _) H1). apply list_pack. exact L1.
    + rewrite E2. unfold tf_back. rewrite !map_length, <- L2, L1, (proj2 (Nat.eqb_neq _ _) H1). apply list_pack. rewrite map_length. congruence.
  - destruct (each_ints (bwd f32) bs xs Hl) as (rs & zs & E1 & E2 & H).
    { intros b y Hin. exists (tinv b y). apply in_combine_l in Hin. rewrite Forall_forall in Hf. destruct (Hf b Hin) as [Hs He]. apply bwd_fin; assumption. }
    assert (L1 : length rs = length xs). { apply (f_equal (@length xr)) in E1. rewrite each_len, !map_length in E1 by (rewrite map_length; exact Hl). congruence. }
    pose proof (F2l _ _ _ H) as L2. exists rs, zs. split; [|split; [|exact H]]; unfold M_Transform.inverse_transform; rewrite array_pack, map_length, Hl, Nat.eqb_refl; cbn [negb].
    + change (each (fun b a => store false (bwd f32 b a)) bs (map XR xs)) with (each (bwd f32) bs (map XR xs)). rewrite E1. unfold tf_back. rewrite map_length, L1, (proj2 (Nat.eqb_neq _ _) H1). apply list_pack. exact L1.
    + rewrite E2. unfold tf_back. rewrite !map_length, <- L2, L1, (proj2 (Nat.eqb_neq _ _) H1). apply list_pack. rewrite map_length. congruence.
Qed.
(** C31 (integers).  The log determinants add up those of the single variables, each without its fractional part; for floats they add up those of the single variables
    as they are. *)
Theorem C31_integers : forall bs k xs, Forall fine bs -> length xs = length bs ->
  (Forall2 inside bs xs -> exists rs zs, jac_log_det bs false (pack k xs) = Ok (XR (fold_right Rplus 0 rs)) /\ jac_log_det bs true (pack k xs) = Ok (XR (fold_right Rplus 0 (map IZR zs))) /\ Forall2 Towards0 rs zs /\ length rs = length xs
      /\ forall i b x r, nth_error bs i = Some b -> nth_error xs i = Some x -> nth_error rs i = Some r -> jac_log_det [b] false (pack k [x]) = Ok (XR r))
  /\ exists rs zs, jac_log_det_inverse bs false (pack k xs) = Ok (XR (fold_right Rplus 0 rs)) /\ jac_log_det_inverse bs true (pack k xs) = Ok (XR (fold_right Rplus 0 (map IZR zs))) /\ Forall2 Towards0 rs zs /\ length rs = length xs
      /\ forall i b x r, nth_error bs i = Some b -> nth_error xs i = Some x -> nth_error rs i = Some r -> jac_log_det_inverse [b] false (pack k [x]) = Ok (XR r).
Proof.
  intros bs k xs Hf Hl. split.
  - intros Hi. destruct (each_ints (ldj_term f32) bs xs Hl) as (rs & zs & E1 & E2 & H).
    { intros b y Hin. eexists. assert (Hb : fine b /\ inside b y). { clear - Hf Hi Hin. induction Hi as [|b' x' bs xs Hx Hi IH]; [destruct Hin|]. destruct Hin as [E|Hin]; [injection E as -> ->; split; [exact (Forall_inv Hf)|exact Hx]|apply IH; [exact (Forall_inv_tail Hf)|exact Hin]]. }
      destruct Hb as [Hb Hx]. exact (ldj_fin f32 b y Hb Hx). }
    exists rs, zs. split; [|split; [|split; [exact H|]]].
    + unfold M_Transform.jac_log_det. rewrite array_pack, map_length, Hl, Nat.eqb_refl. cbn [negb]. rewrite (check_all f32 bs xs Hf Hi). change (each (fun b a => store false (ldj_term f32 b a)) bs (map XR xs)) with (each (ldj_term f32) bs (map XR xs)). rewrite E1, xsum_fin. reflexivity.
    + unfold M_Transform.jac_log_det. rewrite array_pack, map_length, Hl, Nat.eqb_refl. cbn [negb]. rewrite (check_all f32 bs xs Hf Hi). rewrite E2, xsum_fin. reflexivity.
    + split; [apply (f_equal (@length xr)) in E1; rewrite each_len, !map_length in E1 by (rewrite map_length; exact Hl); congruence|].
      intros i b x r Hb Hx Hr. pose proof (each_nth _ _ _ _ _ _ _ _ E1 Hb Hx Hr) as E. unfold M_Transform.jac_log_det. rewrite array_pack. cbn [map length Nat.eqb negb].
      assert (Hfb : Forall fine [b]). { constructor; [|constructor]. rewrite Forall_forall in Hf. apply Hf. eapply nth_error_In, Hb. }
      assert (Hib : Forall2 inside [b] [x]). { constructor; [|constructor]. clear - Hi Hb Hx. revert i Hb Hx. induction Hi as [|b' x' bs xs Hh Hi IH]; intros [|i] Hb Hx; try discriminate; cbn in Hb, Hx; [injection Hb as <-; injection Hx as <-; exact Hh|exact (IH i Hb Hx)]. }
      pose proof (check_all f32 [b] [x] Hfb Hib) as EC. cbn [map] in EC. rewrite EC. unfold each. cbn [combine map fst snd store]. rewrite E. f_equal. change [XR r] with (map XR [r]). rewrite xsum_fin. cbn. f_equal. ring.
  - destruct (each_ints (ildj_term f32) bs xs Hl) as (rs & zs & E1 & E2 & H).
    { intros b y Hin. apply in_combine_l in Hin. rewrite Forall_forall in Hf. pose proof (Hf b Hin) as Hb.
      assert (D : exists delta, 0 <= delta /\ lnw_ok f32 delta b). { destruct b as [[lo|] [hi|]]; [exists (Rabs (f32 (ln (hi - lo)) - ln (hi - lo))); split; [apply Rabs_pos|intros lo' hi' E; injection E as <- <-; lra]|exists 0; split; [lra|intros ? ? E; discriminate]..]. }
      destruct D as (delta & D0 & D1). destruct (ildj_fin f32 b y delta Hb D1 D0) as (r & Er & _). exists r. exact Er. }
    exists rs, zs. split; [|split; [|split; [exact H|]]].
    + unfold M_Transform.jac_log_det_inverse. rewrite array_pack, map_length, Hl, Nat.eqb_refl. cbn [negb]. change (each (fun b a => store false (ildj_term f32 b a)) bs (map XR xs)) with (each (ildj_term f32) bs (map XR xs)). rewrite E1, xsum_fin. reflexivity.
    + unfold M_Transform.jac_log_det_inverse. rewrite array_pack, map_length, Hl, Nat.eqb_refl. cbn [negb]. rewrite E2, xsum_fin. reflexivity.
    + split; [apply (f_equal (@length xr)) in E1; rewrite each_len, !map_length in E1 by (rewrite map_length; exact Hl); congruence|].
      intros i b x r Hb Hx Hr. pose proof (each_nth _ _ _ _ _ _ _ _ E1 Hb Hx Hr) as E. unfold M_Transform.jac_log_det_inverse. rewrite array_pack. cbn [map length Nat.eqb negb].
      unfold each. cbn [combine map fst snd store]. rewrite E. f_equal. change [XR r] with (map XR [r]). rewrite xsum_fin. cbn. f_equal. ring.
Qed.
End Ints.
Print Assumptions C30_integers.
Print Assumptions C31_integers.

(** The numbers 2 and 4 with the lower bound 0 for the second: ln 4 is stored as 1; back from -1: 1/e is stored as 0, which is outside. *)
Example C30_integers_case : Forall (fine (fun r => r)) [(None, None); (Some 0, None)] /\ Forall2 inside [(None, None); (Some 0, None)] [2; 4] /\ Towards0 (ln 4) 1 /\ Towards0 (exp (-1)) 0 /\ Towards0 (- (3 / 2)) (-1).
Proof.
  split; [repeat constructor; cbn; congruence|]. split; [repeat constructor; cbn; intros z Ez; try discriminate; injection Ez as <-; lra|].
  assert (E1 : 2 < exp 1) by (pose proof (exp_ineq1 1 ltac:(lra)); lra). pose proof exp_le_3 as E3.
  split; [|split].
  - assert (1 < ln 4). { rewrite <- (ln_exp 1) at 1. apply ln_increasing; [apply exp_pos|lra]. }
    assert (ln 4 < 2). { rewrite <- (ln_exp 2). apply ln_increasing; [lra|]. replace 2 with (1 + 1) by ring. rewrite exp_plus. nra. }
    unfold Towards0. split; [intros _; lra|]. split; [intros Hn; lra|]. split; [intros _; lia|intros Hn; exfalso; lra].
  - assert (0 < exp (-1)) by apply exp_pos. assert (exp (-1) < 1). { rewrite <- exp_0. apply exp_increasing. lra. } unfold Towards0. split; [intros _; lra|]. split; [intros Hn; lra|]. split; [intros _; lia|intros Hn; exfalso; lra].
  - unfold Towards0. split; [intros Hn; exfalso; lra|]. split; [intros _; lra|]. split; [intros Hn; exfalso; lra|intros _; lia].
Qed.
