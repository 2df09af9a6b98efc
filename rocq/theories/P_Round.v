(** Property C20: how many particles RSMCABC replaces. *)
From Coq Require Import Qabs Qround Lqa.
From Verif Require Import M_Base M_Num M_RSMCABC.

(** C20.  round(x) is the nearest whole number, and the even one of the two if x lies half way between them. *)
Theorem C20_round : forall x k, pyround x = k <->
  (Qabs (x - inject_Z k) < 1 # 2 \/ (Qabs (x - inject_Z k) == 1 # 2 /\ Z.even k = true))%Q.
Proof.
  assert (U : forall x j k, (Qabs (x - inject_Z j) < 1 # 2 \/ (Qabs (x - inject_Z j) == 1 # 2 /\ Z.even j = true))%Q ->
                            (Qabs (x - inject_Z k) < 1 # 2 \/ (Qabs (x - inject_Z k) == 1 # 2 /\ Z.even k = true))%Q -> (j < k)%Z -> False).
  { intros x j k Hj Hk L. assert (L1 : (inject_Z j + 1 <= inject_Z k)%Q) by (change 1%Q with (inject_Z 1); rewrite <- inject_Z_plus, <- Zle_Qle; lia).
    pose proof (Qle_Qabs (x - inject_Z j)) as A1. pose proof (Qle_Qabs (- (x - inject_Z k))) as A2. rewrite Qabs_opp in A2.
    destruct Hj as [Hj|[Hj Ej]]; [destruct Hk as [Hk|[Hk Ek]]; lra|]. destruct Hk as [Hk|[Hk Ek]]; [lra|].
    assert (k = j + 1)%Z. { assert (L2 : (inject_Z k <= inject_Z j + 1)%Q) by lra. change 1%Q with (inject_Z 1) in L2. rewrite <- inject_Z_plus, <- Zle_Qle in L2. lia. }
    subst k. rewrite Z.even_add, Ej in Ek. discriminate Ek. }
  assert (P : forall x, (Qabs (x - inject_Z (pyround x)) < 1 # 2 \/ (Qabs (x - inject_Z (pyround x)) == 1 # 2 /\ Z.even (pyround x) = true))%Q).
  { intros x. unfold pyround. cbv zeta. pose proof (Qfloor_le x) as F1. pose proof (Qlt_floor x) as F2. rewrite inject_Z_plus in F2. change (inject_Z 1) with 1%Q in F2.
    set (f := Qfloor x) in *. destruct (Qcompare_spec (x - inject_Z f) (1 # 2)) as [E|E|E].
    - destruct (Z.even f) eqn:Ev.
      + right. split; [rewrite Qabs_pos; lra | exact Ev].
      + right. split; [|rewrite Z.even_add, Ev; reflexivity]. rewrite inject_Z_plus. change (inject_Z 1) with 1%Q. rewrite Qabs_neg; lra.
    - left. rewrite Qabs_pos; lra.
    - left. rewrite inject_Z_plus. change (inject_Z 1) with 1%Q. rewrite Qabs_neg; lra. }
  intros x k. split; [intros <-; apply P|]. intros H. destruct (Z.lt_trichotomy (pyround x) k) as [L|[E|L]]; [exfalso; exact (U x _ _ (P x) H L) | exact E | exfalso; exact (U x _ _ H (P x) L)].
Qed.
Print Assumptions C20_round.
(** 5 particles and alpha = 1/2: two are replaced; 7 and 1/2: four. *)
Example C20_round_case : pyround (5 # 2) = 2%Z /\ pyround (7 # 2) = 4%Z /\ pyround (- 1 # 2) = 0%Z /\ pyround (13 # 5) = 3%Z.
Proof. repeat split. Qed.
