(** Laws of the loops of SMCABC: proposals until one is inside the prior, simulations until enough are close (C78). *)
From Coq Require Import Reals Lra Lia Qreals.
From Verif Require Import M_Base M_Num L_Num M_Infer L_Infer M_PMCABC M_RSMCABC M_SMCABC M_XReal M_Stats L_PMC S_Stats L_Stats L_Distance L_PosDef S_Law P_Law L_Law P_Law4 S_Gen L_Gen.
Open Scope R_scope.

Section Count.
Variable X : Type.
Variable items : list X.
Variable wt : X -> R.
Hypothesis law : Law items wt.
Variable hit : X -> bool.
Definition rate : R := chance items wt hit.
(** the sequence ends with hit number w *)
Fixpoint ends (w : nat) (l : list X) : bool :=
  match l with
  | [] => (w =? 0)%nat
  | x :: l' => match w with O => false | S w' => ends (if hit x then w' else w) l' end
  end.
(** mean of H over the sequences of n trials that end with hit number w *)
Definition at_trial (w n : nat) (H : list X -> R) : R := mean items wt n (fun l => if ends w l then H l else 0).
Definition waits (w n : nat) : R := at_trial w n (fun _ => 1).
Lemma at_ext w n H G : (forall l, length l = n -> ends w l = true -> H l = G l) -> at_trial w n H = at_trial w n G.
Proof. intros E. unfold at_trial. apply mean_ext. intros l Hl. destruct (ends w l) eqn:He; [apply E; assumption|reflexivity]. Qed.
Lemma at_S w n H : at_trial (S w) (S n) H = expect items wt (fun x => at_trial (if hit x then w else S w) n (fun l => H (x :: l))).
Proof. reflexivity. Qed.
Lemma at_0S n H : at_trial 0 (S n) H = 0.
Proof. unfold at_trial. rewrite (mean_ext _ _ _ _ _ (fun _ => 0)); [apply mean_const, law|]. intros l Hl. destruct l; [discriminate|reflexivity]. Qed.
Lemma at_plus w n H G : at_trial w n (fun l => H l + G l) = at_trial w n H + at_trial w n G.
Proof. unfold at_trial. rewrite <- mean_plus. apply mean_ext. intros l _. destruct (ends w l); ring. Qed.
Lemma at_scale w n c H : at_trial w n (fun l => c * H l) = c * at_trial w n H.
Proof. unfold at_trial. rewrite <- mean_scale. apply mean_ext. intros l _. destruct (ends w l); ring. Qed.
Lemma at_length w n c : at_trial w n (fun l => c (length l)) = c n * waits w n.
Proof. unfold waits. rewrite <- at_scale. apply at_ext. intros l <- _. ring. Qed.
Lemma waits_nonneg w n : 0 <= waits w n.
Proof. unfold waits, at_trial. apply Rle_trans with (mean items wt n (fun _ => 0)); [rewrite (mean_const _ _ _ law); lra|]. apply (mean_le _ _ _ law). intros l _. destruct (ends w l); lra. Qed.
Lemma waits_00 : waits 0 0 = 1. Proof. reflexivity. Qed.
Lemma waits_0S n : waits 0 (S n) = 0. Proof. apply at_0S. Qed.
Lemma waits_S0 w : waits (S w) 0 = 0. Proof. reflexivity. Qed.
Lemma split_hit (u v : R) : expect items wt (fun x => if hit x then u else v) = rate * u + (1 - rate) * v.
Proof.
  unfold rate. rewrite <- (chance_neg _ _ _ _ law). unfold chance. rewrite !(Rmult_comm _ u), !(Rmult_comm _ v), <- !expect_scale, <- expect_plus. apply expect_ext. intros x _. destruct (hit x); cbn [negb]; ring.
Qed.
Lemma waits_S w n : waits (S w) (S n) = rate * waits w n + (1 - rate) * waits (S w) n.
Proof. unfold waits at 1. rewrite at_S, <- split_hit. apply expect_ext. intros x _. unfold waits. destruct (hit x); reflexivity. Qed.
Lemma waits_least w : waits w w = rate ^ w.
Proof.
  induction w as [|w IH]; [reflexivity|]. rewrite waits_S, IH. cbn [pow]. assert (Z : forall n v, (n < v)%nat -> waits v n = 0); [|rewrite (Z w (S w)) by lia; ring].
  clear - law. induction n as [|n IH]; intros v Hv; (destruct v as [|v]; [lia|]); [apply waits_S0|]. rewrite waits_S, !IH by lia. ring.
Qed.
(** one more hit at the next trial *)
Lemma waits_shift n : forall w, INR w * waits (S w) (S n) = INR n * (rate * waits w n).
Proof.
  induction n as [|n IH]; intros w.
  - rewrite waits_S, waits_S0. destruct w as [|w]; [cbn [INR]; ring|]. rewrite waits_S0. cbn [INR]. ring.
  - destruct w as [|w]; [rewrite waits_0S; cbn [INR]; ring|]. rewrite (waits_S (S w) (S n)).
    transitivity (INR (S w) * (rate * waits (S w) (S n)) + (1 - rate) * (INR (S w) * waits (S (S w)) (S n))); [ring|]. rewrite (IH (S w)).
    rewrite (S_INR n). transitivity (rate * waits (S w) (S n) + rate * (INR n * waits (S w) (S n))); [|ring].
    rewrite (waits_S w n) at 3. transitivity (rate * waits (S w) (S n) + (rate * (INR n * (rate * waits w n)) + rate * INR n * (1 - rate) * waits (S w) n)); [|ring].
    rewrite <- (IH w). rewrite (S_INR w). ring.
Qed.
Lemma rate_le : 0 <= rate <= 1. Proof. apply chance_range, law. Qed.
Lemma sums_S w N : sum_f_R0 (waits (S w)) (S N) = rate * sum_f_R0 (waits w) N + (1 - rate) * sum_f_R0 (waits (S w)) N.
Proof.
  rewrite decomp_sum by lia. rewrite waits_S0, Rplus_0_l. cbn [pred]. rewrite !scal_sum, <- plus_sum. apply sum_eq. intros i _. rewrite waits_S. ring.
Qed.
Lemma sums_0 N : sum_f_R0 (waits 0) N = 1.
Proof. induction N as [|N IH]; cbn [sum_f_R0]; [reflexivity|]. rewrite IH, waits_0S. ring. Qed.
Lemma sums_le N : forall w, sum_f_R0 (waits w) N <= 1.
Proof.
  induction N as [|N IH]; intros [|w]; [cbn; lra|cbn [sum_f_R0]; rewrite waits_S0; lra|rewrite sums_0; lra|]. rewrite sums_S. pose proof rate_le.
  apply Rle_trans with (rate * 1 + (1 - rate) * 1); [|lra]. apply Rplus_le_compat; apply Rmult_le_compat_l; try lra; apply IH.
Qed.
Hypothesis rate_pos : 0 < rate.
Lemma sums_cv w : Un_cv (sum_f_R0 (waits w)) 1.
Proof.
  induction w as [|w IH]; [apply (cv_ext (fun _ => 1)); [intros; symmetry; apply sums_0|apply cv_const]|].
  destruct (grows (sum_f_R0 (waits (S w))) 1) as (l & Hl); [intros k; cbn [sum_f_R0]; pose proof (waits_nonneg (S w) (S k)); lra|intros k; apply sums_le|].
  assert (E : l = rate * 1 + (1 - rate) * l).
  { apply (UL_sequence (fun N => sum_f_R0 (waits (S w)) (S N))); [apply (cv_shift1 (sum_f_R0 (waits (S w)))), Hl|].
    apply (cv_ext (fun N => rate * sum_f_R0 (waits w) N + (1 - rate) * sum_f_R0 (waits (S w)) N)); [intros; symmetry; apply sums_S|].
    apply CV_plus; apply CV_mult; try apply cv_const; assumption. }
  replace 1 with l; [exact Hl|]. assert (rate * l = rate * 1) by lra. apply Rmult_eq_reg_l with rate; lra.
Qed.
Lemma ends_hits l : forall w, ends w l = true -> length (filter hit l) = w.
Proof.
  induction l as [|x l IH]; intros w H; cbn in H; [apply Nat.eqb_eq in H; cbn; lia|]. destruct w as [|w]; [discriminate|]. cbn [filter]. apply IH in H. destruct (hit x); cbn [length]; lia.
Qed.
Lemma ends_length l w : ends w l = true -> (w <= length l)%nat.
Proof. intros H. apply ends_hits in H. assert (length (filter hit l) <= length l)%nat by (clear; induction l as [|x l IH]; cbn; [lia|destruct (hit x); cbn; lia]). lia. Qed.
(** all hits but the last *)
Definition earlier (l : list X) : list X := removelast (filter hit l).
Lemma earlier_length w l : ends w l = true -> length (earlier l) = pred w.
Proof. intros H. apply ends_hits in H. unfold earlier. rewrite removelast_firstn_len, firstn_length. lia. Qed.
Lemma at_earlier phi n : forall w, at_trial w n (fun l => total (map phi (earlier l))) = INR (pred w) * waits w n * (expect items wt (fun x => if hit x then phi x else 0) / rate).
Proof.
  set (e := expect items wt (fun x => if hit x then phi x else 0)).
  induction n as [|n IH]; intros w.
  - destruct w as [|w]; [unfold at_trial; cbn; ring|rewrite waits_S0; unfold at_trial; cbn; ring].
  - destruct w as [|w]; [rewrite at_0S, waits_0S; ring|]. rewrite at_S. cbn [pred].
    assert (E : forall x, at_trial (if hit x then w else S w) n (fun l => total (map phi (earlier (x :: l)))) =
      (if hit x then phi x else 0) * (if (w =? 0)%nat then 0 else waits w n) + (if hit x then INR (pred w) * waits w n * (e / rate) else INR w * waits (S w) n * (e / rate))).
    { intros x. destruct (hit x) eqn:Hx.
      - rewrite <- IH. destruct w as [|w]; cbn [Nat.eqb].
        + rewrite Rmult_0_r, Rplus_0_l. apply at_ext. intros l _ He. apply ends_hits in He. unfold earlier. cbn [filter]. rewrite Hx. destruct (filter hit l); [reflexivity|discriminate].
        + unfold waits. rewrite <- at_scale, <- at_plus. apply at_ext. intros l _ He. apply ends_hits in He. unfold earlier. cbn [filter]. rewrite Hx. destruct (filter hit l) as [|y m]; [discriminate|]. change (removelast (x :: y :: m)) with (x :: removelast (y :: m)). cbn [map]. rewrite total_cons. ring.
      - rewrite Rmult_0_l, Rplus_0_l. pose proof (IH (S w)) as IH'. cbn [pred] in IH'. rewrite <- IH'. apply at_ext. intros l _ _. unfold earlier. cbn [filter]. rewrite Hx. reflexivity. }
    rewrite (expect_ext _ _ _ _ _ (fun x _ => E x)). rewrite expect_plus, split_hit. rewrite (expect_ext _ _ _ _ (fun x => (if (w =? 0)%nat then 0 else waits w n) * (if hit x then phi x else 0))) by (intros; ring). rewrite expect_scale. fold e.
    rewrite waits_S. destruct w as [|w]; cbn [Nat.eqb]; [cbn [INR pred]; ring|]. cbn [pred]. rewrite (S_INR w). field. lra.
Qed.
End Count.

(** Simulations until enough are close *)
Section Until.
Variables A Theta B Y : Type.
Variable outs : list A.
Variable p : A -> R.
Hypothesis dlaw : Law outs p.
Variable dist : Y -> num.
Variable eps : num.
Variable items : list (B * Y).
Variable wt : B * Y -> R.
Hypothesis wlaw : Law items wt.
Variable gen : nat -> Theta -> list A -> res (Theta * list A * (B * Y)).
Variable cof : B * Y -> Theta.
Variable okc : Theta -> Prop.
Definition close (x : B * Y) : bool := nlt (dist (snd x)) eps.
Definition sup (x : B * Y) : Prop := In x items /\ wt x <> 0.
Hypothesis cof_ok : forall x, sup x -> okc (cof x).
Definition gen1 (c : Theta) (f : nat) (l : list A) : res (list A * (Theta * (B * Y))) := match gen f c l with Ok (c', r, x) => Ok (r, (c', x)) | Err e => Err e end.
Hypothesis gen_law : forall c, okc c -> Gives outs p (gen1 c) (fun z => fst z = cof (snd z) /\ sup (snd z)) (fun G v => v = expect items wt (fun x => G (cof x, x))).
Definition state : Type := nat * Theta * list (B * Y).
Definition next (w : nat) (c : Theta) (tr : list (B * Y)) (x : B * Y) : state + (Theta * list (B * Y)) :=
  if close x then match w with O => inr (c, tr ++ [x]) | S w' => inl (w', c, tr ++ [x]) end else inl (w, c, tr ++ [x]).
Definition ustep (F : nat) (s : state) (l : list A) : res (list A * (state + (Theta * list (B * Y)))) :=
  let '(w, c, tr) := s in match gen F c l with Err e => Err e | Ok (c', r, x) => Ok (r, next w c' tr x) end.
Lemma until_loop F j : forall w c r tr, until_hits Theta (list A) Y dist (gen F) eps (S w) j c r tr =
  match loop A state (Theta * list (B * Y)) ustep F j (w, c, tr) r with Ok (r', (c', t)) => Ok (c', r', t) | Err e => Err e end.
Proof.
  induction j as [|j IH]; intros w c r tr; cbn [until_hits loop]; [reflexivity|]. unfold ustep at 1. destruct (gen F c r) as [[[c' r'] x]|]; [|reflexivity].
  unfold next, close. destruct (nlt (dist (snd x)) eps); [|apply IH]. destruct w as [|w]; [destruct j; reflexivity|apply IH].
Qed.
Definition until1 (w : nat) (c : Theta) (f : nat) (l : list A) : res (list A * (Theta * list (B * Y))) :=
  match until_hits Theta (list A) Y dist (gen f) eps w f c l [] with Ok (c', r, t) => Ok (r, (c', t)) | Err e => Err e end.
Hypothesis rate_pos : 0 < rate _ items wt close.
Theorem until_gives w c : okc c -> Gives outs p (until1 (S w) c) (fun z => okc (fst z) /\ ends _ close (S w) (snd z) = true /\ Forall sup (snd z))
  (fun G v => exists H, (forall c t, okc c -> G (c, t) = H t) /\ Un_cv (sum_f_R0 (fun n => at_trial _ items wt close (S w) n H)) v).
Proof.
  intros Hc. set (ok := fun s : state => let '(w', c', tr) := s in okc c' /\ Forall sup tr /\ forall l, ends _ close (S w) (tr ++ l) = ends _ close (S w') l).
  set (good := fun z : Theta * list (B * Y) => okc (fst z) /\ ends _ close (S w) (snd z) = true /\ Forall sup (snd z)).
  set (E := fun (s : state) (G : state + (Theta * list (B * Y)) -> R) => let '(w', c', tr) := s in expect items wt (fun x => G (next w' (cof x) tr x))).
  assert (HL : forall s, ok s -> Gives outs p (fun f l => ustep f s l) (fine _ _ ok good) (fun G v => v = E s G)).
  { intros [[w' c'] tr] (H1 & H2 & H3) g G Bd v Hb Ht Hv. unfold E in Hv.
    apply (Tends_ext _ outs p (after (gen1 c') (fun z => g (next w' (fst z) tr (snd z))))); [intros f l _; unfold after, gen1, ustep; destruct (gen f c' l) as [[[c1 r1] x]|]; reflexivity|].
    apply (gen_law c' H1 _ (fun z => G (next w' (fst z) tr (snd z))) Bd); [intros; apply Hb| |exact Hv].
    intros [c1 x] (-> & Hx). apply Ht. cbn [snd fst] in *. pose proof (cof_ok x Hx) as Hco. assert (Hf : Forall sup (tr ++ [x])) by (apply Forall_app; split; [exact H2|constructor; [exact Hx|constructor]]).
    assert (Ha : forall l, ends _ close (S w) ((tr ++ [x]) ++ l) = ends _ close (if close x then w' else S w') l) by (intros l; rewrite <- app_assoc; rewrite H3; reflexivity).
    unfold next. destruct (close x).
    - destruct w' as [|w']; unfold fine, good, ok; cbn [fst snd]; [split; [exact Hco|split; [|exact Hf]]; specialize (Ha []); rewrite app_nil_r in Ha; rewrite Ha; reflexivity|split; [exact Hco|split; [exact Hf|exact Ha]]].
    - unfold fine, ok. split; [exact Hco|split; [exact Hf|exact Ha]]. }
  assert (Hsup : forall (u v : B * Y -> R), (forall x, sup x -> u x = v x) -> expect items wt u = expect items wt v).
  { intros u v H. unfold expect. apply total_ext. intros x Hx. destruct (Req_dec (wt x) 0) as [->|N]; [ring|]. rewrite H by (split; assumption). reflexivity. }
  assert (HB : forall N w' c' tr, beyond _ _ E N (w', c', tr) = 1 - sum_f_R0 (waits _ items wt close (S w')) N).
  { induction N as [|N IH]; intros w' c' tr; [cbn [beyond sum_f_R0]; rewrite waits_S0; ring|]. cbn [beyond]. unfold E. rewrite (sums_S _ _ _ wlaw).
    rewrite (expect_ext _ _ _ _ (fun x => if close x then 1 - sum_f_R0 (waits _ items wt close w') N else 1 - sum_f_R0 (waits _ items wt close (S w')) N)).
    - rewrite (split_hit _ _ _ wlaw). ring.
    - intros x _. unfold next. destruct (close x); [|apply IH]. destruct w' as [|w']; [rewrite (sums_0 _ _ _ wlaw); ring|apply IH]. }
  intros g G Bd v Hb Ht (H & HGH & Hv).
  assert (HU : forall N w' c' tr, okc c' -> Forall sup tr -> upto _ _ E G N (w', c', tr) = sum_f_R0 (fun n => at_trial _ items wt close (S w') n (fun l => H (tr ++ l))) N).
  { induction N as [|N IH]; intros w' c' tr H1 H2; [cbn [upto sum_f_R0]; reflexivity|]. cbn [upto]. rewrite decomp_sum by lia. cbn [pred]. replace (at_trial _ items wt close (S w') 0 (fun l => H (tr ++ l))) with 0 by reflexivity. rewrite Rplus_0_l.
    transitivity (expect items wt (fun x => sum_f_R0 (fun n => at_trial _ items wt close (if close x then w' else S w') n (fun l => H (tr ++ x :: l))) N)).
    - unfold E. apply Hsup. intros x Hx. pose proof (cof_ok x Hx) as Hco. assert (Hf : Forall sup (tr ++ [x])) by (apply Forall_app; split; [exact H2|constructor; [exact Hx|constructor]]).
      unfold next. destruct (close x); [destruct w' as [|w']|].
      + rewrite (HGH _ _ Hco). clear - wlaw. induction N as [|N IH]; cbn [sum_f_R0]; [unfold at_trial; cbn; reflexivity|]. rewrite <- IH. rewrite at_0S by exact wlaw. ring.
      + rewrite IH by assumption. apply sum_eq. intros i _. apply at_ext. intros l _ _. rewrite <- app_assoc. reflexivity.
      + rewrite IH by assumption. apply sum_eq. intros i _. apply at_ext. intros l _ _. rewrite <- app_assoc. reflexivity.
    - clear. induction N as [|N IH]; cbn [sum_f_R0]; [reflexivity|]. rewrite expect_plus, IH. f_equal. }
  apply (Tends_ext _ outs p (after (fun f l => loop A _ _ ustep f f (w, c, []) l) g)).
  { intros f l _. unfold after, until1. rewrite until_loop. destruct (loop _ _ _ _ _ _ _ _) as [[r' [c' t]]|]; reflexivity. }
  assert (HO : ok (w, c, [])) by (split; [exact Hc|split; [constructor|intros; reflexivity]]).
  apply (loop_gives A outs p dlaw _ _ ustep ok good E HL (w, c, []) HO) with (G := G) (B := Bd).
  - apply (cv_ext (fun N => 1 - sum_f_R0 (waits _ items wt close (S w)) N)); [intros; symmetry; apply HB|]. replace 0 with (1 - 1) by ring. apply CV_minus; [apply cv_const|]. apply (sums_cv _ _ _ wlaw), rate_pos.
  - exact Hb.
  - exact Ht.
  - apply (cv_ext (sum_f_R0 (fun n => at_trial _ items wt close (S w) n H))); [intros N; symmetry; apply HU; [exact Hc|constructor]|exact Hv].
Qed.
End Until.

(** Proposals until one is inside the prior *)
Section Inside.
Variables A Theta Pop : Type.
Variable outs : list A.
Variable p : A -> R.
Hypothesis dlaw : Law outs p.
Variable setp : Theta -> Theta -> bool * Theta.
Variable pdfv : Theta -> Theta -> num.
Variable kupd : Pop -> nat -> list A -> list A * Theta.
Variable q : Pop.
Variable idx : nat.
Variable pi : Theta -> Q.
Variable pts : list Theta.
Variable ker : Theta -> R.
Hypothesis klaw : Law pts ker.
Hypothesis set_all : forall th cur, setp th cur = (true, th).
Hypothesis density : forall th cur, pdfv th cur = Fin (pi th).
Hypothesis kupd_law : Produces outs p (fun _ l => Ok (kupd q idx l)) pts ker.
Definition inside (th : Theta) : bool := negb (Qeq_bool (pi th) 0).
Definition within : R := chance pts ker inside.
Hypothesis within_pos : 0 < within.
Definition propose1 (c : Theta) (f : nat) (l : list A) : res (list A * (Theta * Theta)) :=
  match propose Theta (list A) Pop setp kupd pdfv f q idx c l with Ok (c', r, th) => Ok (r, (c', th)) | Err e => Err e end.
Definition pstep (F : nat) (c : Theta) (l : list A) : res (list A * (Theta + Theta * Theta)) :=
  let '(r, x) := kupd q idx l in Ok (r, if inside x then inr (x, x) else inl x).
Lemma propose_loop F j : forall c l, match propose Theta (list A) Pop setp kupd pdfv j q idx c l with Ok (c', r, th) => Ok (r, (c', th)) | Err e => Err e end = loop A Theta (Theta * Theta) pstep F j c l.
Proof.
  induction j as [|j IH]; intros c l; cbn [M_Infer.propose loop]; [reflexivity|]. unfold pstep at 1, perturb. change 100%nat with (S 99). cbn [perturb_loop]. destruct (kupd q idx l) as [r x]. rewrite set_all. cbn [Nat.eqb].
  unfold pdf_of_prior. rewrite set_all, density. cbn [snd neqb]. unfold inside. destruct (Qeq_bool (pi x) 0); cbn [negb]; [apply IH|reflexivity].
Qed.
Theorem propose_gives c : Gives outs p (propose1 c) (fun z => fst z = snd z /\ In (snd z) (filter inside pts) /\ ker (snd z) <> 0)
  (fun G v => v = total (map (fun th => ker th / within * G (th, th)) (filter inside pts))).
Proof.
  set (E := fun (s : Theta) (G : Theta + Theta * Theta -> R) => expect pts ker (fun x => G (if inside x then inr (x, x) else inl x))).
  assert (HL : forall s, True -> Gives outs p (fun f l => pstep f s l) (fine Theta (Theta * Theta) (fun _ => True) (fun z => fst z = snd z /\ In (snd z) (filter inside pts) /\ ker (snd z) <> 0)) (fun G v => v = E s G)).
  { intros s _ g G Bd v Hb Ht Hv. apply (Tends_ext _ outs p (after (fun _ l => Ok (kupd q idx l)) (fun x => g (if inside x then inr (x, x) else inl x)))); [intros f l _; unfold after, pstep; destruct (kupd q idx l); reflexivity|].
    apply (kupd_law _ (fun x => G (if inside x then inr (x, x) else inl x)) Bd); [intros; apply Hb| |exact Hv].
    intros x (Hx & Hk). apply Ht. unfold fine. destruct (inside x) eqn:Ei; [|exact I]. split; [reflexivity|]. cbn [snd]. split; [apply filter_In; split; assumption|exact Hk]. }
  intros g G Bd v Hb Ht Hv.
  assert (HV : expect pts ker (fun x => if inside x then G (x, x) else 0) = within * v).
  { rewrite Hv, <- total_scale. unfold expect. clear - within_pos. revert within_pos. generalize within. intros z Hz. induction pts as [|x l IH]; [reflexivity|]. cbn [map filter]. rewrite total_cons, IH. destruct (inside x); cbn [map]; [rewrite total_cons; field; lra|ring]. }
  apply (Tends_ext _ outs p (after (fun f l => loop A _ _ pstep f f c l) g)); [intros f l _; unfold after, propose1; rewrite (propose_loop f f); reflexivity|].
  assert (HB : forall N s, beyond _ _ E N s = (1 - within) ^ N).
  { induction N as [|N IH]; intros s; [reflexivity|]. cbn [beyond pow]. rewrite Rmult_comm. unfold E. rewrite (expect_ext _ _ _ _ (fun x => (1 - within) ^ N * (if negb (inside x) then 1 else 0))); [|intros x _; destruct (inside x); cbn [negb]; [ring|rewrite IH; ring]]. rewrite expect_scale. fold (chance pts ker (fun x => negb (inside x))). rewrite (chance_neg _ _ _ _ klaw). reflexivity. }
  assert (HU : forall N s, upto _ _ E G N s = v + (1 - within) ^ N * - v).
  { induction N as [|N IH]; intros s; [cbn; ring|]. cbn [upto]. unfold E at 1.
    rewrite (expect_ext _ _ _ _ (fun x => (if inside x then G (x, x) else 0) + (v + (1 - within) ^ N * - v) * (if negb (inside x) then 1 else 0))); [|intros x _; destruct (inside x); cbn [negb]; [ring|rewrite IH; ring]].
    rewrite expect_plus, expect_scale, HV. fold (chance pts ker (fun x => negb (inside x))). rewrite (chance_neg _ _ _ _ klaw). fold within. cbn [pow]. ring. }
  assert (HR : 0 <= 1 - within < 1) by (pose proof (chance_range _ pts ker inside klaw); unfold within in *; lra).
  apply (loop_gives A outs p dlaw _ _ pstep (fun _ => True) _ E HL c I) with (G := G) (B := Bd); [|exact Hb|exact Ht|].
  - apply (cv_ext (fun N => (1 - within) ^ N)); [intros; symmetry; apply HB|apply pow_cv, HR].
  - apply (cv_ext (fun N => v + (1 - within) ^ N * - v)); [intros; symmetry; apply HU|]. replace v with (v + 0 * - v) at 1 by ring. apply CV_plus; [apply cv_const|]. apply CV_mult; [apply pow_cv, HR|apply cv_const].
Qed.
End Inside.
