(** Random programs made of single draws: uniform choices and coins of any rational probability (cases of C78). *)
From Coq Require Import Reals Lra Lia Qreals.
From Verif Require Import M_Base M_Num L_Num M_XReal M_Stats L_PMC S_Stats L_Stats L_Distance L_PosDef S_Law P_Law L_Law P_Law3 P_Law4 S_Gen L_Gen L_Series.
Open Scope R_scope.

Section Coin.
Variable A : Type.
Variable outs : list A.
Variable p : A -> R.
Hypothesis law : Law outs p.
Variable bit : A -> bool.
Hypothesis fair : chance outs p bit = 1 / 2.
(** the draws are compared with the binary digits of v *)
Definition digit (v : Q) : bool := Qle_bool 1 (2 * v).
Definition shift (v : Q) : Q := (2 * v - (if digit v then 1 else 0))%Q.
Fixpoint flip (v : Q) (l : list A) : res (list A * bool) :=
  match l with
  | [] => Err OutOfFuel
  | a :: l' => if Bool.eqb (bit a) (digit v) then flip (shift v) l' else Ok (l', digit v)
  end.
Definition cstep (F : nat) (v : Q) (l : list A) : res (list A * (Q + bool)) :=
  match l with [] => Err OutOfFuel | a :: l' => Ok (l', if Bool.eqb (bit a) (digit v) then inl (shift v) else inr (digit v)) end.
Lemma flip_loop F : forall j v l, (length l < j)%nat -> flip v l = loop A Q bool cstep F j v l.
Proof. induction j as [|j IH]; intros v l Hl; [lia|]. destruct l as [|a l]; [reflexivity|]. cbn [flip loop cstep]. destruct (Bool.eqb (bit a) (digit v)); [apply IH; cbn in Hl; lia|reflexivity]. Qed.
Lemma half d (u x : R) : expect outs p (fun a => if Bool.eqb (bit a) d then u else x) = 1 / 2 * u + 1 / 2 * x.
Proof.
  assert (G : forall u x : R, expect outs p (fun a => if bit a then u else x) = 1 / 2 * u + 1 / 2 * x).
  { intros u' x'. rewrite (expect_ext _ _ _ _ (fun a => (u' - x') * (if bit a then 1 else 0) + x')) by (intros a _; destruct (bit a); ring). rewrite expect_plus, expect_scale, (expect_const _ _ _ _ law). fold (chance outs p bit). rewrite fair. lra. }
  destruct d.
  - rewrite <- G. apply expect_ext. intros a _. destruct (bit a); reflexivity.
  - rewrite (expect_ext _ _ _ _ (fun a => if bit a then x else u)) by (intros a _; destruct (bit a); reflexivity). rewrite G. ring.
Qed.
Lemma digit_spec v : if digit v then 1 / 2 <= Q2R v else Q2R v < 1 / 2.
Proof.
  unfold digit. assert (O1 : Q2R 1 = 1) by (unfold Q2R; cbn; lra). assert (O2 : Q2R 2 = 2) by (unfold Q2R; cbn; lra). destruct (Qle_bool 1 (2 * v)) eqn:E.
  - apply Qle_bool_iff, Qle_Rle in E. rewrite Q2R_mult, O1, O2 in E. lra.
  - assert (L : (2 * v < 1)%Q) by (apply Qnot_le_lt; intros X; apply Qle_bool_iff in X; congruence). apply Qlt_Rlt in L. rewrite Q2R_mult, O1, O2 in L. lra.
Qed.
Lemma shift_spec v : Q2R (shift v) = 2 * Q2R v - (if digit v then 1 else 0).
Proof. unfold shift. assert (O2 : Q2R 2 = 2) by (unfold Q2R; cbn; lra). destruct (digit v); rewrite Q2R_minus, Q2R_mult, O2; f_equal; unfold Q2R; cbn; lra. Qed.
Theorem flip_gives v : (0 <= v <= 1)%Q -> Produces outs p (fun _ l => flip v l) [true; false] (fun b => if b then Q2R v else 1 - Q2R v).
Proof.
  intros (V0 & V1) g G B x Hb Ht Hx. apply Qle_Rle in V0, V1. assert (O1 : Q2R 1 = 1) by (unfold Q2R; cbn; lra). assert (O0 : Q2R 0 = 0) by (unfold Q2R; cbn; lra). rewrite O1 in V1. rewrite O0 in V0.
  set (ok := fun s => 0 <= Q2R s <= 1 /\ (0 < Q2R s -> 0 < Q2R v) /\ (Q2R s < 1 -> Q2R v < 1)).
  set (good := fun b : bool => In b [true; false] /\ (if b then Q2R v else 1 - Q2R v) <> 0).
  set (E := fun s (H : Q + bool -> R) => expect outs p (fun a => H (if Bool.eqb (bit a) (digit s) then inl (shift s) else inr (digit s)))).
  assert (HE : forall s H, E s H = 1 / 2 * H (inl (shift s)) + 1 / 2 * H (inr (digit s))).
  { intros s H. rewrite <- (half (digit s)). unfold E. apply expect_ext. intros a _. destruct (Bool.eqb (bit a) (digit s)); reflexivity. }
  assert (HS : forall s, ok s -> ok (shift s) /\ good (digit s)).
  { intros s ((A0 & A1) & A2 & A3). pose proof (digit_spec s) as D. pose proof (shift_spec s) as S1. unfold ok, good. rewrite S1. destruct (digit s).
    - split; [split; [lra|split; intros; [apply A2; lra|apply A3; lra]]|split; [cbn; auto|apply Rgt_not_eq, A2; lra]].
    - split; [split; [lra|split; intros; [apply A2; lra|apply A3; lra]]|split; [cbn; auto|]]. assert (Q2R v < 1) by (apply A3; lra). lra. }
  assert (HL : forall s, ok s -> Gives outs p (fun f l => cstep f s l) (fine Q bool ok good) (fun H y => y = E s H)).
  { intros s Hs. apply one_draw; [exact law|reflexivity|]. intros a _ _. destruct (HS s Hs) as [H1 H2]. destruct (Bool.eqb (bit a) (digit s)); [exact H1|exact H2]. }
  set (val := fun s => Q2R s * G true + (1 - Q2R s) * G false).
  assert (Hv : x = val v) by (rewrite Hx; cbn [map]; rewrite !total_cons; change (total []) with 0; unfold val; ring).
  assert (HB : forall N s, beyond _ _ E N s = (1 / 2) ^ N) by (induction N as [|N IH]; intros s; [reflexivity|]; cbn [beyond pow]; rewrite HE, IH; ring).
  assert (HU : forall N s, ok s -> Rabs (upto _ _ E G N s - val s) <= (1 / 2) ^ N * (Rabs (G true) + Rabs (G false))).
  { induction N as [|N IH]; intros s Hs.
    - cbn [upto pow]. destruct Hs as ((A0 & A1) & _). unfold val. replace (0 - (Q2R s * G true + (1 - Q2R s) * G false)) with (- (Q2R s * G true + (1 - Q2R s) * G false)) by ring. rewrite Rabs_Ropp, Rmult_1_l. eapply Rle_trans; [apply Rabs_triang|]. rewrite !Rabs_mult, (Rabs_right (Q2R s)), (Rabs_right (1 - Q2R s)) by lra.
      pose proof (Rabs_pos (G true)) as P1. pose proof (Rabs_pos (G false)) as P2. apply Rplus_le_compat; [apply Rle_trans with (1 * Rabs (G true)); [apply Rmult_le_compat_r; lra|lra]|apply Rle_trans with (1 * Rabs (G false)); [apply Rmult_le_compat_r; lra|lra]].
    - cbn [upto pow]. rewrite HE. destruct (HS s Hs) as [H1 _]. specialize (IH _ H1).
      assert (V : val s = 1 / 2 * val (shift s) + 1 / 2 * G (digit s)) by (unfold val; rewrite shift_spec; destruct (digit s); lra).
      rewrite V. replace (1 / 2 * upto _ _ E G N (shift s) + 1 / 2 * G (digit s) - (1 / 2 * val (shift s) + 1 / 2 * G (digit s))) with (1 / 2 * (upto _ _ E G N (shift s) - val (shift s))) by ring.
      rewrite Rabs_mult, (Rabs_right (1 / 2)) by lra. rewrite Rmult_assoc. apply Rmult_le_compat_l; [lra|exact IH]. }
  apply (Tends_ext _ outs p (after (fun f l => loop A Q bool cstep f f v l) g)); [intros f l Hl; unfold after; rewrite (flip_loop f f) by exact Hl; reflexivity|].
  assert (OK : ok v) by (split; [lra|split; auto]).
  apply (loop_gives A outs p law Q bool cstep ok good E HL v OK) with (G := G) (B := B); [|exact Hb|exact Ht|].
  - apply (cv_ext (fun N => (1 / 2) ^ N)); [intros; symmetry; apply HB|apply pow_cv; lra].
  - rewrite Hv. intros e He. destruct (pow_cv (1 / 2) ltac:(lra) (e / (Rabs (G true) + Rabs (G false) + 1))) as (N & HN).
    { apply Rdiv_lt_0_compat; [exact He|]. pose proof (Rabs_pos (G true)). pose proof (Rabs_pos (G false)). lra. }
    exists N. intros n Hn. specialize (HN n Hn). unfold R_dist in *. rewrite Rminus_0_r in HN. eapply Rle_lt_trans; [apply HU, OK|]. pose proof (Rabs_pos (G true)) as P1. pose proof (Rabs_pos (G false)) as P2. set (M := Rabs (G true) + Rabs (G false)) in *.
    assert (HP : 0 <= (1 / 2) ^ n) by (apply pow_le; lra). rewrite Rabs_right in HN by lra.
    apply Rle_lt_trans with ((1 / 2) ^ n * (M + 1)); [apply Rmult_le_compat_l; lra|]. apply Rmult_lt_compat_r with (r := M + 1) in HN; [|unfold M; lra]. replace (e / (M + 1) * (M + 1)) with e in HN by (field; unfold M; lra). exact HN.
Qed.
(** one draw, grouped by its outcome *)
Lemma draw_produces {X} (eq : forall x y : X, {x = y} + {x <> y}) (P : nat -> list A -> res (list A * X)) (h : A -> X) (xs : list X) :
  (forall f a l, P f (a :: l) = Ok (l, h a)) -> NoDup xs -> (forall a, In a outs -> In (h a) xs) -> Produces outs p P xs (fun x => chance outs p (fun a => if eq (h a) x then true else false)).
Proof.
  intros HP Hn Hin. pose proof (one_draw A outs p law P h (fun x => In x xs /\ chance outs p (fun a => if eq (h a) x then true else false) <> 0) HP) as O.
  refine (Gives_weak A outs p P _ _ _ _ (fun x H => H) _ (O _)).
  - intros G v ->. symmetry. apply (group outs p eq xs h G Hn). intros a Ha. left. apply Hin, Ha.
  - intros a Ha Hp. split; [apply Hin, Ha|]. destruct law as [HL _]. assert (p a <= chance outs p (fun b => if eq (h b) (h a) then true else false)); [|specialize (HL a Ha); lra].
    unfold chance, expect. clear - Ha HL. induction outs as [|x l IH]; [destruct Ha|]. cbn [map]. rewrite total_cons.
    assert (N : forall y, In y (x :: l) -> 0 <= p y * (if if eq (h y) (h a) then true else false then 1 else 0)) by (intros y Hy; specialize (HL y Hy); destruct (eq _ _); lra).
    destruct Ha as [->|Ha].
    + destruct (eq (h a) (h a)); [|congruence]. assert (0 <= total (map (fun b => p b * (if if eq (h b) (h a) then true else false then 1 else 0)) l)); [|lra].
      apply total_nonneg, Forall_forall. intros z Hz. apply in_map_iff in Hz. destruct Hz as (y & <- & Hy). apply N. right. exact Hy.
    + specialize (IH Ha (fun y Hy => HL y (or_intror Hy))). pose proof (N x (or_introl eq_refl)). lra.
Qed.
(** a choice of one of two *)
Lemma pair_produces (P : nat -> list A -> res (list A * nat)) i j : (forall f a l, P f (a :: l) = Ok (l, if bit a then i else j)) -> Produces outs p P [i; j] (fun _ => / INR 2).
Proof.
  intros HP. refine (Gives_weak A outs p P _ _ _ _ (fun x H => H) _ (one_draw A outs p law P (fun a => if bit a then i else j) (fun x => In x [i; j] /\ / INR 2 <> 0) HP _)).
  - intros G v ->. rewrite (expect_ext _ _ _ _ (fun a => if Bool.eqb (bit a) true then G i else G j)) by (intros a _; destruct (bit a); reflexivity). rewrite half. cbn [map]. rewrite !total_cons. change (total []) with 0. cbn [INR]. lra.
  - intros a _ _. split; [destruct (bit a); cbn; auto|]. apply Rinv_neq_0_compat. cbn. lra.
Qed.
End Coin.
