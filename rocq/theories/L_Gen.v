(** Laws of random programs: single draws, loops, coins (C78). *)
From Coq Require Import Reals Lra Lia.
From Verif Require Import M_Base M_Num L_Num M_XReal M_Stats L_PMC S_Stats L_Stats L_Distance L_PosDef S_Law P_Law L_Law S_Gen.
Open Scope R_scope.

Section Means.
Variable A : Type.
Variable outs : list A.
Variable p : A -> R.
Hypothesis law : Law outs p.
Lemma mean_plus k F G : mean outs p k (fun l => F l + G l) = mean outs p k F + mean outs p k G.
Proof. revert F G. induction k as [|k IH]; intros F G; cbn [mean]; [reflexivity|]. rewrite <- expect_plus. apply expect_ext. intros a _. apply IH. Qed.
Lemma mean_scale k c F : mean outs p k (fun l => c * F l) = c * mean outs p k F.
Proof. revert F. induction k as [|k IH]; intros F; cbn [mean]; [reflexivity|]. rewrite <- expect_scale. apply expect_ext. intros a _. apply IH. Qed.
Lemma mean_le k F G : (forall l, length l = k -> F l <= G l) -> mean outs p k F <= mean outs p k G.
Proof. revert F G. induction k as [|k IH]; intros F G H; cbn [mean]; [apply H; reflexivity|]. apply (expect_le _ _ _ law). intros a _. apply IH. intros l Hl. apply H. cbn. lia. Qed.
Lemma mean_abs k F B : (forall l, length l = k -> Rabs (F l) <= B l) -> Rabs (mean outs p k F) <= mean outs p k B.
Proof.
  intros H. apply Rabs_le. split.
  - replace (- mean outs p k B) with (mean outs p k (fun l => -1 * B l)) by (rewrite mean_scale; ring). apply mean_le. intros l Hl. specialize (H l Hl). unfold Rabs in H. destruct (Rcase_abs (F l)); lra.
  - apply mean_le. intros l Hl. specialize (H l Hl). unfold Rabs in H. destruct (Rcase_abs (F l)); lra.
Qed.
Lemma Tends_ext u u' v : (forall f l, (length l < f)%nat -> u f l = u' f l) -> Tends outs p u v -> Tends outs p u' v.
Proof. intros H C e He. destruct (C e He) as (K & HK). exists K. intros k f Hk. rewrite <- (mean_ext _ outs p k (u f)); [apply HK, Hk|]. intros l Hl. apply H. lia. Qed.
Lemma Tends_const c : Tends outs p (fun _ _ => c) c.
Proof. intros e He. exists 0%nat. intros k f _. rewrite (mean_const _ _ _ law), Rminus_diag_eq by reflexivity. rewrite Rabs_R0. exact He. Qed.
Lemma Tends_eq u v v' : v = v' -> Tends outs p u v -> Tends outs p u v'.
Proof. intros ->. exact (fun H => H). Qed.
Lemma Gives_weak {X} (P : nat -> list A -> res (list A * X)) (xs ys : X -> Prop) (mu nu : (X -> R) -> R -> Prop) :
  (forall x, xs x -> ys x) -> (forall G v, nu G v -> mu G v) -> Gives outs p P xs mu -> Gives outs p P ys nu.
Proof. intros H1 H2 H g G B v Hb Ht Hv. apply (H g G B v Hb); [intros x Hx; apply Ht, H1, Hx|apply H2, Hv]. Qed.
Lemma after_bound {X} (P : nat -> list A -> res (list A * X)) g B : 0 <= B -> (forall x f l, Rabs (g x f l) <= B) -> forall f l, Rabs (after P g f l) <= B.
Proof. intros H0 H f l. unfold after. destruct (P f l) as [[l' x]|]; [apply H|rewrite Rabs_R0; exact H0]. Qed.

(** a program that consumes one draw *)
Lemma one_draw {X} (P : nat -> list A -> res (list A * X)) (h : A -> X) (xs : X -> Prop) : (forall f a l, P f (a :: l) = Ok (l, h a)) -> (forall a, In a outs -> p a <> 0 -> xs (h a)) ->
  Gives outs p P xs (fun G v => v = expect outs p (fun a => G (h a))).
Proof.
  intros HP Hx g G B v Hb Ht -> e He.
  assert (E : exists K, forall k f, (K <= k < f)%nat -> forall a, In a outs -> p a <> 0 -> Rabs (mean outs p k (g (h a) f) - G (h a)) < e).
  { assert (Hx' : forall a, In a outs -> p a <> 0 -> Tends outs p (g (h a)) (G (h a))) by (intros a H1 H2; apply Ht, Hx; assumption). clear - Hx' He. revert Hx'.
    assert (Gen : forall L, (forall a, In a L -> p a <> 0 -> Tends outs p (g (h a)) (G (h a))) -> exists K, forall k f, (K <= k < f)%nat -> forall a, In a L -> p a <> 0 -> Rabs (mean outs p k (g (h a) f) - G (h a)) < e); [|apply Gen].
    induction L as [|a L IH]; intros H; [exists 0%nat; intros k f _ a []|]. destruct IH as (K1 & H1); [intros b Hb Hp; apply H; [right; exact Hb|exact Hp]|].
    destruct (Req_dec (p a) 0) as [Z|Z]; [exists K1; intros k f Hk b [<-|Hb] Hp; [contradiction|apply H1; assumption]|].
    destruct (H a (or_introl eq_refl) Z e He) as (K2 & H2). exists (max K1 K2). intros k f Hk b [<-|Hb] Hp; [apply H2; lia|apply H1; [lia|exact Hb|exact Hp]]. }
  destruct E as (K & HK). exists (S K). intros k f Hk. destruct k as [|k]; [lia|]. cbn [mean].
  replace (expect outs p (fun a => mean outs p k (fun l => after P g f (a :: l))) - expect outs p (fun a => G (h a))) with (expect outs p (fun a => mean outs p k (g (h a) f) - G (h a))).
  - assert (S1 : forall x, Rabs (expect outs p x) <= expect outs p (fun a => Rabs (x a))).
    { intros x. unfold expect. destruct law as [HL _]. clear - HL. induction outs as [|a l IH]; [cbn; rewrite Rabs_R0; lra|]. cbn [map]. rewrite !total_cons. eapply Rle_trans; [apply Rabs_triang|]. apply Rplus_le_compat; [rewrite Rabs_mult, (Rabs_right (p a)); [lra|apply Rle_ge, HL; left; reflexivity]|]. apply IH. intros b Hb. apply HL. right. exact Hb. }
    eapply Rle_lt_trans; [apply S1|]. destruct law as [HL HT].
    assert (exists a, In a outs /\ 0 < p a) as (a0 & Ha0 & Hp0).
    { destruct (Exists_dec (fun a => 0 < p a) outs (fun a => Rlt_dec 0 (p a))) as [X0|X0]; [apply Exists_exists in X0; exact X0|]. exfalso.
      assert (Z : total (map p outs) = 0); [|lra]. rewrite (total_ext _ (fun a => 0 * p a)); [rewrite total_scale; ring|]. intros a Ha. specialize (HL a Ha). destruct (Req_dec (p a) 0) as [->|N]; [ring|]. exfalso. apply X0, Exists_exists. exists a. split; [exact Ha|lra]. }
    set (x := fun a => Rabs (mean outs p k (g (h a) f) - G (h a))).
    assert (Hx1 : forall a, In a outs -> p a * x a <= p a * e).
    { intros a Ha. destruct (Req_dec (p a) 0) as [->|N]; [lra|]. apply Rmult_le_compat_l; [apply HL, Ha|]. apply Rlt_le, HK; [lia|exact Ha|exact N]. }
    assert (Hx2 : p a0 * x a0 < p a0 * e) by (apply Rmult_lt_compat_l; [exact Hp0|apply HK; [lia|exact Ha0|lra]]).
    replace e with (total (map (fun a => p a * e) outs)) by (rewrite (total_ext _ (fun a => e * p a)) by (intros; ring); rewrite total_scale, HT; ring).
    unfold expect. clear - Hx1 Hx2 Ha0. clearbody x. induction outs as [|b l IH]; [destruct Ha0|]. cbn [map]. rewrite !total_cons. destruct Ha0 as [->|Ha0].
    + apply Rplus_lt_le_compat; [exact Hx2|]. apply total_le. intros c Hc. apply Hx1. right. exact Hc.
    + apply Rplus_le_lt_compat; [apply Hx1; left; reflexivity|]. apply IH; [exact Ha0|]. intros c Hc. apply Hx1. right. exact Hc.
  - replace (expect outs p (fun a => mean outs p k (fun l => after P g f (a :: l)))) with (expect outs p (fun a => mean outs p k (g (h a) f))).
    + transitivity (expect outs p (fun a => mean outs p k (g (h a) f) + -1 * G (h a))); [apply expect_ext; intros; ring|]. rewrite expect_plus, expect_scale. ring.
    + apply expect_ext. intros a _. apply mean_ext. intros l _. unfold after. rewrite HP. reflexivity.
Qed.
(** a program that consumes nothing *)
Lemma no_draw {X} (P : nat -> list A -> res (list A * X)) (x : X) : (forall f l, P f l = Ok (l, x)) -> Gives outs p P (fun y => y = x) (fun G v => v = G x).
Proof. intros HP g G B v Hb Ht ->. apply (Tends_ext (g x)); [intros f l _; unfold after; rewrite HP; reflexivity|]. apply Ht. reflexivity. Qed.

(** Loops *)
Section Loop.
Variables St X : Type.
Variable step : nat -> St -> list A -> res (list A * (St + X)).
Fixpoint loop (F j : nat) (s : St) (l : list A) : res (list A * X) :=
  match j with
  | O => Err OutOfFuel
  | Datatypes.S j' => match step F s l with Err e => Err e | Ok (l', inl s') => loop F j' s' l' | Ok (l', inr x) => Ok (l', x) end
  end.
Variable ok : St -> Prop.
Variable good : X -> Prop.
Variable E : St -> (St + X -> R) -> R.
Definition fine (z : St + X) : Prop := match z with inl s => ok s | inr x => good x end.
Hypothesis step_law : forall s, ok s -> Gives outs p (fun f l => step f s l) fine (fun G v => v = E s G).
(** mean over the runs of at most N iterations; chance of more *)
Fixpoint upto (G : X -> R) (N : nat) (s : St) : R := match N with O => 0 | Datatypes.S N' => E s (fun z => match z with inl s' => upto G N' s' | inr x => G x end) end.
Fixpoint beyond (N : nat) (s : St) : R := match N with O => 1 | Datatypes.S N' => E s (fun z => match z with inl s' => beyond N' s' | inr _ => 0 end) end.
Theorem loop_gives s : ok s -> Un_cv (fun N => beyond N s) 0 -> Gives outs p (fun f l => loop f f s l) good (fun G v => Un_cv (fun N => upto G N s) v).
Proof.
  intros Hs HR g G B v Hb Ht Hv.
  assert (Hbound : 0 <= B \/ (X -> False)).
  { destruct (Rle_dec 0 B) as [H|H]; [left; exact H|right; intros x; specialize (Hb x 0%nat []); pose proof (Rabs_pos (g x 0%nat [])); lra]. }
  set (B' := Rmax 0 B). assert (B0 : 0 <= B') by apply Rmax_l. assert (Hb' : forall x f l, Rabs (g x f l) <= B') by (intros; eapply Rle_trans; [apply Hb|apply Rmax_r]).
  clearbody B'. clear Hb Hbound B.
  pose (cut := fix cut (N : nat) (s : St) (f : nat) (l : list A) : R := match N with O => 0 | Datatypes.S N' => after (fun f l => step f s l) (fun z f l => match z with inl s' => cut N' s' f l | inr x => g x f l end) f l end).
  pose (left := fix left (N : nat) (s : St) (f : nat) (l : list A) : R := match N with O => 1 | Datatypes.S N' => after (fun f l => step f s l) (fun z f l => match z with inl s' => left N' s' f l | inr x => 0 end) f l end).
  assert (Hcut : forall N s f l, Rabs (cut N s f l) <= B').
  { induction N as [|N IH]; intros s0 f l; [cbn; rewrite Rabs_R0; exact B0|]. cbn [cut]. apply after_bound; [exact B0|]. intros [s'|x] f' l'; [apply IH|apply Hb']. }
  assert (Hleft : forall N s f l, Rabs (left N s f l) <= 1).
  { induction N as [|N IH]; intros s0 f l; [cbn; rewrite Rabs_R1; lra|]. cbn [left]. apply after_bound; [lra|]. intros [s'|x] f' l'; [apply IH|rewrite Rabs_R0; lra]. }
  assert (Tcut : forall N s, ok s -> Tends outs p (cut N s) (upto G N s)).
  { induction N as [|N IH]; intros s0 H0; [exact (Tends_const 0)|]. cbn [upto]. change (cut (Datatypes.S N) s0) with (after (fun f l => step f s0 l) (fun z f l => match z with inl s' => cut N s' f l | inr x => g x f l end)).
    apply (step_law s0 H0 _ (fun z => match z with inl s' => upto G N s' | inr x => G x end) B'); [intros [s'|x]; [apply Hcut|apply Hb']| |reflexivity]. intros [s'|x] Hf; [apply IH, Hf|apply Ht, Hf]. }
  assert (Tleft : forall N s, ok s -> Tends outs p (left N s) (beyond N s)).
  { induction N as [|N IH]; intros s0 H0; [exact (Tends_const 1)|]. cbn [beyond]. change (left (Datatypes.S N) s0) with (after (fun f l => step f s0 l) (fun z f l => match z with inl s' => left N s' f l | inr x => 0 end)).
    apply (step_law s0 H0 _ (fun z => match z with inl s' => beyond N s' | inr x => 0 end) 1); [intros [s'|x] f l; [apply Hleft|rewrite Rabs_R0; lra]| |reflexivity]. intros [s'|x] Hf; [apply IH, Hf|exact (Tends_const 0)]. }
  assert (Near : forall N j s f l, (N <= j)%nat -> Rabs (match loop f j s l with Ok (l', x) => g x f l' | Err _ => 0 end - cut N s f l) <= B' * left N s f l).
  { induction N as [|N IH]; intros j s0 f l Hj.
    - cbn [cut left]. rewrite Rminus_0_r, Rmult_1_r. destruct (loop f j s0 l) as [[l' x]|]; [apply Hb'|rewrite Rabs_R0; exact B0].
    - destruct j as [|j]; [lia|]. cbn [loop cut left]. unfold after. destruct (step f s0 l) as [[l' [s'|x]]|]; [apply IH; lia| |]; rewrite Rminus_diag_eq by reflexivity; rewrite Rabs_R0, Rmult_0_r; lra. }
  intros e He. destruct (HR (e / (4 * (B' + 1)))) as (N1 & HN1); [apply Rdiv_lt_0_compat; lra|]. destruct (Hv (e / 4)) as (N2 & HN2); [lra|]. set (N := max N1 N2).
  specialize (HN1 N ltac:(unfold N; lia)). specialize (HN2 N ltac:(unfold N; lia)). unfold R_dist in *. rewrite Rminus_0_r in HN1.
  destruct (Tcut N s Hs (e / 4)) as (K1 & HK1); [lra|]. destruct (Tleft N s Hs (e / (4 * (B' + 1)))) as (K2 & HK2); [apply Rdiv_lt_0_compat; lra|].
  exists (max N (max K1 K2)). intros k f Hk. specialize (HK1 k f ltac:(lia)). specialize (HK2 k f ltac:(lia)).
  assert (D : Rabs (mean outs p k (after (fun f l => loop f f s l) g f) - mean outs p k (cut N s f)) <= B' * mean outs p k (left N s f)).
  { rewrite <- mean_scale. replace (mean outs p k (after (fun f l => loop f f s l) g f) - mean outs p k (cut N s f)) with (mean outs p k (fun l => after (fun f l => loop f f s l) g f l + -1 * cut N s f l)) by (rewrite mean_plus, mean_scale; ring).
    apply mean_abs. intros l _. replace (after (fun f l => loop f f s l) g f l + -1 * cut N s f l) with (after (fun f l => loop f f s l) g f l - cut N s f l) by ring. apply Near. lia. }
  assert (L : B' * mean outs p k (left N s f) <= e / 2).
  { assert (M : mean outs p k (left N s f) <= 2 * (e / (4 * (B' + 1)))).
    { apply Rle_trans with (Rabs (mean outs p k (left N s f) - beyond N s) + Rabs (beyond N s)); [|lra]. eapply Rle_trans; [|apply Rabs_triang]. replace (mean outs p k (left N s f) - beyond N s + beyond N s) with (mean outs p k (left N s f)) by ring. apply Rle_abs. }
    apply Rle_trans with (B' * (2 * (e / (4 * (B' + 1))))); [apply Rmult_le_compat_l; assumption|].
    apply Rle_trans with ((B' + 1) * (2 * (e / (4 * (B' + 1))))); [apply Rmult_le_compat_r; [|lra]|right; field; lra]. apply Rmult_le_pos; [lra|]. apply Rlt_le, Rdiv_lt_0_compat; lra. }
  replace (mean outs p k (after (fun f l => loop f f s l) g f) - v) with ((mean outs p k (after (fun f l => loop f f s l) g f) - mean outs p k (cut N s f)) + ((mean outs p k (cut N s f) - upto G N s) + (upto G N s - v))) by ring.
  eapply Rle_lt_trans; [apply Rabs_triang|]. eapply Rle_lt_trans; [apply Rplus_le_compat_l, Rabs_triang|]. lra.
Qed.
End Loop.
End Means.
