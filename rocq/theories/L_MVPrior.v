(** Cholesky factorisation: succeeds exactly on positive definite matrices. *)
From Coq Require Import Reals Lra.
From Verif Require Import M_Base M_Num M_XReal M_Transform M_Stats M_Priors L_PMC L_Stats M_MVPrior S_MVPrior.
Open Scope R_scope.

Lemma sigma_ext n f g : (forall i, (i < n)%nat -> f i = g i) -> sigma n f = sigma n g.
Proof. induction n as [|n IH]; intros H; cbn; [reflexivity|]. rewrite IH, (H n); [reflexivity | lia | intros; apply H; lia]. Qed.
Lemma sigma_plus n f g : sigma n (fun i => f i + g i) = sigma n f + sigma n g.
Proof. induction n as [|n IH]; cbn; [lra|]. rewrite IH. lra. Qed.
Lemma sigma_scale n c f : sigma n (fun i => c * f i) = c * sigma n f.
Proof. induction n as [|n IH]; cbn; [lra|]. rewrite IH. lra. Qed.
Lemma sigma_scale_r n c f : sigma n (fun i => f i * c) = sigma n f * c.
Proof. induction n as [|n IH]; cbn; [lra|]. rewrite IH. lra. Qed.
Lemma sigma_zero n f : (forall i, (i < n)%nat -> f i = 0) -> sigma n f = 0.
Proof. induction n as [|n IH]; intros H; cbn; [reflexivity|]. rewrite IH, (H n); [lra | lia | intros; apply H; lia]. Qed.
Lemma sigma_first n f : sigma (S n) f = f O + sigma n (fun i => f (S i)).
Proof. induction n as [|n IH]; cbn [sigma]; [cbn; lra|]. cbn [sigma] in IH. rewrite IH. lra. Qed.
Lemma sigma_swap n m f : sigma n (fun i => sigma m (fun j => f i j)) = sigma m (fun j => sigma n (fun i => f i j)).
Proof. induction n as [|n IH]; cbn [sigma]; [symmetry; apply sigma_zero; reflexivity|]. rewrite IH, <- sigma_plus. reflexivity. Qed.
Lemma sigma_nonneg n f : (forall i, (i < n)%nat -> 0 <= f i) -> 0 <= sigma n f.
Proof. induction n as [|n IH]; intros H; cbn; [lra|]. assert (0 <= sigma n f) by (apply IH; intros; apply H; lia). specialize (H n ltac:(lia)). lra. Qed.
Lemma sigma_pos n f i : (forall i, (i < n)%nat -> 0 <= f i) -> (i < n)%nat -> 0 < f i -> 0 < sigma n f.
Proof.
  induction n as [|n IH]; intros H Hi Hp; [lia|]. cbn [sigma]. assert (0 <= sigma n f) by (apply sigma_nonneg; intros; apply H; lia). destruct (Nat.eq_dec i n) as [->|Hn]; [lra|].
  assert (0 < sigma n f) by (apply IH; [intros; apply H; lia | lia | exact Hp]). specialize (H n ltac:(lia)). lra.
Qed.
Lemma form_ext n A B x y : (forall i j, (i < n)%nat -> (j < n)%nat -> A i j = B i j) -> (forall i, (i < n)%nat -> x i = y i) -> form n A x = form n B y.
Proof. intros HA Hx. apply sigma_ext. intros i Hi. apply sigma_ext. intros j Hj. rewrite HA, !Hx by assumption. reflexivity. Qed.

(** one elimination step *)
Lemma form_step n (A : nat -> nat -> R) (x : nat -> R) (r : R) (l : nat -> R) :
  r * r = A O O -> (forall i, (i < n)%nat -> l i * r = A (S i) O) -> (forall i, (i < n)%nat -> A O (S i) = A (S i) O) ->
  form (S n) A x = (r * x O + sigma n (fun i => l i * x (S i))) * (r * x O + sigma n (fun i => l i * x (S i)))
    + form n (fun i j => A (S i) (S j) - l i * l j) (fun i => x (S i)).
Proof.
  intros Hr Hl Hs. unfold form. rewrite sigma_first.
  assert (E0 : sigma (S n) (fun j => x O * A O j * x j) = x O * (r * r) * x O + r * x O * sigma n (fun i => l i * x (S i))).
  { rewrite sigma_first, Hr. f_equal. rewrite <- sigma_scale. apply sigma_ext. intros i Hi. rewrite Hs, <- Hl by exact Hi. ring. }
  assert (E1 : sigma n (fun i => sigma (S n) (fun j => x (S i) * A (S i) j * x j)) = r * x O * sigma n (fun i => l i * x (S i)) + sigma n (fun i => sigma n (fun j => x (S i) * A (S i) (S j) * x (S j)))).
  { rewrite (sigma_ext n _ (fun i => (r * x O) * (l i * x (S i)) + sigma n (fun j => x (S i) * A (S i) (S j) * x (S j)))).
    - rewrite sigma_plus, sigma_scale. reflexivity.
    - intros i Hi. rewrite sigma_first. f_equal. rewrite <- Hl by exact Hi. ring. }
  assert (E2 : sigma n (fun i => sigma n (fun j => x (S i) * (A (S i) (S j) - l i * l j) * x (S j)))
             = sigma n (fun i => sigma n (fun j => x (S i) * A (S i) (S j) * x (S j))) - sigma n (fun i => l i * x (S i)) * sigma n (fun i => l i * x (S i))).
  { rewrite (sigma_ext n _ (fun i => sigma n (fun j => x (S i) * A (S i) (S j) * x (S j)) + (- sigma n (fun j => l j * x (S j))) * (l i * x (S i)))).
    - rewrite sigma_plus, sigma_scale. ring.
    - intros i Hi. rewrite (sigma_ext n _ (fun j => x (S i) * A (S i) (S j) * x (S j) + (- (l i * x (S i))) * (l j * x (S j)))) by (intros; ring). rewrite sigma_plus, sigma_scale. ring. }
  rewrite E0, E1, E2. ring.
Qed.

Definition schur (A : nat -> nat -> R) (i j : nat) : R := A (S i) (S j) - A (S i) O / sqrt (A O O) * (A (S j) O / sqrt (A O O)).
Lemma lower_schur A i j : lower (schur A) i j = lower A (S i) (S j) - A (S i) O / sqrt (A O O) * (A (S j) O / sqrt (A O O)).
Proof. unfold lower, schur. change (S j <=? S i)%nat with (j <=? i)%nat. destruct (j <=? i)%nat; ring. Qed.
Lemma lower_sym A i j : lower A i j = lower A j i.
Proof. unfold lower. destruct (Nat.leb_spec j i), (Nat.leb_spec i j); try reflexivity; [|lia]. replace j with i by lia. reflexivity. Qed.
Lemma form_lower n A x : 0 < A O O -> let s := sqrt (A O O) in let c := s * x O + sigma n (fun i => A (S i) O / s * x (S i)) in
  form (S n) (lower A) x = c * c + form n (lower (schur A)) (fun i => x (S i)).
Proof.
  intros Ha s c. assert (Hs : s * s = A O O) by (apply sqrt_sqrt; lra). assert (Hp : 0 < s) by (apply sqrt_lt_R0; lra).
  rewrite (form_step n (lower A) x s (fun i => A (S i) O / s)).
  - f_equal. apply form_ext; [|reflexivity]. intros i j _ _. rewrite lower_schur. reflexivity.
  - exact Hs.
  - intros i _. unfold lower. cbn. field. lra.
  - intros i _. apply lower_sym.
Qed.
Lemma pd_step n A : PositiveDefinite (S n) (lower A) <-> 0 < A O O /\ PositiveDefinite n (lower (schur A)).
Proof.
  split.
  - intros H. assert (Ha : 0 < A O O).
    { specialize (H (fun i => match i with O => 1 | _ => 0 end)). assert (E : form (S n) (lower A) (fun i => match i with O => 1 | _ => 0 end) = A O O).
      { unfold form. rewrite sigma_first, sigma_first. rewrite (sigma_zero n) by (intros; ring). rewrite (sigma_zero n); [unfold lower; cbn; ring|]. intros i _. apply sigma_zero. intros; ring. }
      rewrite E in H. apply H. exists O. split; [lia | lra]. }
    split; [exact Ha|]. intros y (i & Hi & Hy). set (s := sqrt (A O O)). assert (Hp : 0 < s) by (apply sqrt_lt_R0; lra).
    set (x := fun k => match k with O => - sigma n (fun i => A (S i) O / s * y i) / s | S k => y k end). assert (Hx : 0 < form (S n) (lower A) x) by (apply H; exists (S i); split; [lia | exact Hy]).
    rewrite form_lower in Hx by exact Ha. cbv zeta in Hx. fold s in Hx. unfold x in Hx. replace (s * (- sigma n (fun i => A (S i) O / s * y i) / s)) with (- sigma n (fun i => A (S i) O / s * y i)) in Hx by (field; lra). replace (- sigma n (fun i => A (S i) O / s * y i) + sigma n (fun i => A (S i) O / s * y i)) with 0 in Hx by ring. rewrite Rmult_0_l, Rplus_0_l in Hx. exact Hx.
  - intros (Ha & H) x (i & Hi & Hx). rewrite form_lower by exact Ha. cbv zeta. set (s := sqrt (A O O)). assert (Hp : 0 < s) by (apply sqrt_lt_R0; lra). set (c := s * x O + _).
    destruct (Req_EM_T c 0) as [Ec|Ec].
    + assert (Hn : exists i, (i < n)%nat /\ x (S i) <> 0).
      { destruct i as [|i]; [|exists i; split; [lia | exact Hx]].
        destruct (Classical_Prop.classic (exists i, (i < n)%nat /\ x (S i) <> 0)) as [E|E]; [exact E|]. exfalso. apply Hx. assert (Ez : sigma n (fun i => A (S i) O / s * x (S i)) = 0).
        { apply sigma_zero. intros j Hj. destruct (Req_EM_T (x (S j)) 0) as [->|Hne]; [ring|]. exfalso. apply E. exists j. now split. }
        unfold c in Ec. rewrite Ez in Ec. assert (E0 : s * x O = 0) by lra. apply Rmult_integral in E0. destruct E0; [lra | assumption]. }
      specialize (H _ Hn). rewrite Ec. lra.
    + assert (0 < c * c) by (destruct (Rtotal_order c 0) as [?|[?|?]]; nra). assert (0 <= form n (lower (schur A)) (fun i => x (S i))); [|lra].
      destruct (Classical_Prop.classic (exists i, (i < n)%nat /\ x (S i) <> 0)) as [E|E]; [apply Rlt_le, H, E|]. rewrite (form_ext n _ (lower (schur A)) _ (fun _ => 0)); [|reflexivity|].
      * unfold form. rewrite sigma_zero; [lra|]. intros. apply sigma_zero. intros; ring.
      * intros j Hj. destruct (Req_EM_T (x (S j)) 0) as [Hz|Hne]; [exact Hz|]. exfalso. apply E. exists j. now split.
Qed.

(** finite arrays *)
Definition Array (n : nat) (m : list (list xr)) (A : nat -> nat -> R) : Prop := forall i j, (i < n)%nat -> (j < n)%nat -> at_ m i j = XR (A i j).
Lemma at_map n (f : nat -> nat -> xr) i j : (i < n)%nat -> (j < n)%nat -> at_ (map (fun i => map (f i) (seq 0 n)) (seq 0 n)) i j = f i j.
Proof.
  intros Hi Hj. unfold at_. rewrite (nth_indep _ [] (map (f 0%nat) (seq 0 n))) by (rewrite map_length, seq_length; exact Hi). rewrite (map_nth (fun i => map (f i) (seq 0 n))), seq_nth by exact Hi.
  rewrite (nth_indep _ XNaN (f (0 + i)%nat 0%nat)) by (rewrite map_length, seq_length; exact Hj). rewrite (map_nth (f (0 + i)%nat)), seq_nth by exact Hj. reflexivity.
Qed.
Lemma xlt0 a : xlt x0 (XR a) = true <-> 0 < a.
Proof. unfold xlt, x0. destruct (Rlt_dec 0 a); split; intros; try lra; try reflexivity; discriminate. Qed.
Lemma xsqrt_pos a : 0 < a -> xsqrt (XR a) = XR (sqrt a).
Proof. intros H. unfold xsqrt. rewrite rsign_pos by exact H. reflexivity. Qed.
Lemma rest_array n m A : Array (S n) m A -> 0 < A O O ->
  Array n (map (fun i => map (fun j => xsub (at_ m (S i) (S j)) (xmul (xdiv (at_ m (S i) 0) (xsqrt (at_ m 0 0))) (xdiv (at_ m (S j) 0) (xsqrt (at_ m 0 0))))) (seq 0 n)) (seq 0 n)) (schur A).
Proof.
  intros H Ha i j Hi Hj. rewrite (at_map n (fun i j => xsub (at_ m (S i) (S j)) (xmul (xdiv (at_ m (S i) 0) (xsqrt (at_ m 0 0))) (xdiv (at_ m (S j) 0) (xsqrt (at_ m 0 0)))))) by assumption.
  rewrite !H by lia. rewrite xsqrt_pos by exact Ha. assert (Hs : 0 < sqrt (A O O)) by (apply sqrt_lt_R0; exact Ha). rewrite !xdiv_fin by lra. cbn [xmul xsub xopp xadd]. unfold schur. f_equal.
Qed.
(** success is positive definiteness *)
Lemma chol_pd : forall n m A, Array n m A -> pos_def n m = true <-> PositiveDefinite n (lower A).
Proof.
  induction n as [|n IH]; intros m A H; unfold pos_def; cbn [cholesky].
  - split; [intros _ x (i & Hi & _); lia | reflexivity].
  - rewrite pd_step. rewrite (H 0%nat 0%nat) by lia. destruct (xlt x0 (XR (A O O))) eqn:E.
    + apply xlt0 in E. specialize (IH _ (schur A) (rest_array n m A H E)). unfold pos_def in IH. rewrite (H 0%nat 0%nat) in IH by lia. cbn [negb]. cbv zeta. destruct (cholesky n _); [|split; [discriminate | intros (_ & Hx); apply IH in Hx; discriminate]].
      split; [intros _; split; [exact E | now apply IH] | reflexivity].
    + cbn [negb]. split; [discriminate|]. intros (Ha & _). apply xlt0 in Ha. congruence.
Qed.
Lemma chol_size : forall n m L, cholesky n m = Some L -> length L = n.
Proof.
  induction n as [|n IH]; intros m L E; cbn [cholesky] in E; [injection E as <-; reflexivity|]. destruct (negb _); [discriminate|]. cbv zeta in E. destruct (cholesky n _) as [L'|] eqn:E'; [|discriminate]. injection E as <-. cbn [length]. rewrite map_length, combine_length, seq_length, (IH _ _ E'). lia.
Qed.
Lemma nth_repeat0 n j : (j < n)%nat -> nth j (repeat x0 n) XNaN = XR 0.
Proof. revert j. induction n as [|n IH]; intros [|j] H; cbn; [lia | lia | reflexivity|]. apply IH. lia. Qed.
Lemma at_row0 r rows j : at_ (r :: rows) 0 j = nth j r XNaN.
Proof. reflexivity. Qed.
Lemma at_rows r rows i j : at_ (r :: rows) (S i) j = at_ rows i j.
Proof. reflexivity. Qed.
Lemma at_combine (l : nat -> xr) n L i j : length L = n -> (i < n)%nat -> at_ (map (fun il => l (fst il) :: snd il) (combine (seq 0 n) L)) i j = nth j (l i :: nth i L []) XNaN.
Proof.
  intros HL Hi. unfold at_. rewrite (nth_indep _ [] ((fun il : nat * list xr => l (fst il) :: snd il) (0%nat, []))) by (rewrite map_length, combine_length, seq_length; lia).
  rewrite (map_nth (fun il : nat * list xr => l (fst il) :: snd il)), combine_nth by (rewrite seq_length; lia). rewrite seq_nth by exact Hi. reflexivity.
Qed.
(** the factor *)
Lemma chol_factor : forall n m A L, Array n m A -> cholesky n m = Some L -> exists F, Array n L F /\ Factor n F (lower A).
Proof.
  induction n as [|n IH]; intros m A L H E.
  - exists (fun _ _ => 0). split; [intros i j Hi; lia|]. split; [intros i j Hi; lia|]. split; [intros i Hi; lia | intros i j Hi; lia].
  - cbn [cholesky] in E. destruct (xlt x0 (at_ m 0 0)) eqn:E0; [|discriminate]. cbn [negb] in E. cbv zeta in E. rewrite (H 0%nat 0%nat) in E0 by lia. apply xlt0 in E0.
    destruct (cholesky n _) as [L'|] eqn:E'; [|discriminate]. destruct (IH _ (schur A) L' (rest_array n m A H E0) E') as (F & HF & F1 & F2 & F3). injection E as <-. pose proof (chol_size _ _ _ E') as HL.
    set (s := sqrt (A O O)). assert (Hs : 0 < s) by (apply sqrt_lt_R0; exact E0). assert (Hss : s * s = A O O) by (apply sqrt_sqrt; lra).
    exists (fun i j => match i, j with O, O => s | O, S _ => 0 | S i, O => A (S i) O / s | S i, S j => F i j end). split.
    + intros [|i] [|j] Hi Hj.
      * rewrite at_row0. cbn [nth]. rewrite (H 0%nat 0%nat), xsqrt_pos by (lia || exact E0). reflexivity.
      * rewrite at_row0. cbn [nth]. apply nth_repeat0. lia.
      * rewrite at_rows. pose proof (at_combine (fun i => xdiv (at_ m (S i) 0) (xsqrt (at_ m 0 0))) n L' i 0%nat HL ltac:(lia)) as Hc. cbv beta in Hc. rewrite Hc. cbn [nth]. rewrite !H, xsqrt_pos by (lia || exact E0). fold s. rewrite xdiv_fin by lra. reflexivity.
      * rewrite at_rows. pose proof (at_combine (fun i => xdiv (at_ m (S i) 0) (xsqrt (at_ m 0 0))) n L' i (S j) HL ltac:(lia)) as Hc. cbv beta in Hc. rewrite Hc. cbn [nth]. apply (HF i j); lia.
    + split; [|split].
      * intros [|i] [|j] Hi Hj; try lia; [reflexivity|]. apply F1; lia.
      * intros [|i] Hi; [exact Hs | apply F2; lia].
      * intros [|i] [|j] Hi Hj; rewrite sigma_first.
        -- rewrite sigma_zero by (intros; ring). unfold lower. cbn. lra.
        -- rewrite sigma_zero by (intros; ring). unfold lower. cbn. field. lra.
        -- rewrite sigma_zero by (intros; ring). unfold lower. cbn. field. lra.
        -- rewrite F3 by lia. rewrite lower_schur. fold s. ring.
Qed.
