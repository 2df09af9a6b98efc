(** Proofs about optimal transport between weighted samples. *)
From Coq Require Import Reals Lia Lra.
From Verif Require Import M_Base M_Num M_XReal M_MMD M_Stats M_Wass S_Stats S_Distance S_Wass L_PMC L_Stats L_Distance L_PosDef L_MMD L_Joint.
Open Scope R_scope.

Lemma sumn_ext n f g : (forall i, (i < n)%nat -> f i = g i) -> sumn n f = sumn n g.
Proof. intros H. apply total_ext. intros i Hi. apply in_seq in Hi. apply H. lia. Qed.
Lemma sumn_le n f g : (forall i, (i < n)%nat -> f i <= g i) -> sumn n f <= sumn n g.
Proof. intros H. apply total_le. intros i Hi. apply in_seq in Hi. apply H. lia. Qed.
Lemma sumn_plus n f g : sumn n (fun i => f i + g i) = sumn n f + sumn n g.
Proof. apply total_plus. Qed.
Lemma sumn_scale n k f : sumn n (fun i => k * f i) = k * sumn n f.
Proof. apply total_scale. Qed.
Lemma sumn_scale_r n k f : sumn n (fun i => f i * k) = sumn n f * k.
Proof. rewrite (sumn_ext n _ (fun i => k * f i)) by (intros; ring). rewrite sumn_scale. ring. Qed.
Lemma sumn_swap n m (f : nat -> nat -> R) : sumn n (fun i => sumn m (f i)) = sumn m (fun j => sumn n (fun i => f i j)).
Proof. apply total_swap. Qed.
Lemma sumn_zero n : sumn n (fun _ => 0) = 0.
Proof. unfold sumn. rewrite total_const. ring. Qed.
Lemma sumn_nonneg n f : (forall i, (i < n)%nat -> 0 <= f i) -> 0 <= sumn n f.
Proof. intros H. rewrite <- (sumn_zero n). apply sumn_le. exact H. Qed.
Lemma sumn_S n f : sumn (S n) f = sumn n f + f n.
Proof. unfold sumn. rewrite total_seq. reflexivity. Qed.
Lemma sumn_zero_each n f : (forall i, (i < n)%nat -> 0 <= f i) -> sumn n f = 0 -> forall i, (i < n)%nat -> f i = 0.
Proof.
  induction n as [|n IH]; intros HP HS i Hi; [lia|]. rewrite sumn_S in HS.
  assert (0 <= sumn n f) by (apply sumn_nonneg; intros; apply HP; lia). pose proof (HP n ltac:(lia)).
  destruct (Nat.eq_dec i n) as [->|N]; [lra|]. apply IH; [intros; apply HP; lia|lra|lia].
Qed.
Lemma sumn_term n f i : (forall k, (k < n)%nat -> 0 <= f k) -> (i < n)%nat -> f i <= sumn n f.
Proof.
  induction n as [|n IH]; intros HP Hi; [lia|]. rewrite sumn_S.
  assert (0 <= sumn n f) by (apply sumn_nonneg; intros; apply HP; lia).
  destruct (Nat.eq_dec i n) as [->|N]; [lra|]. pose proof (HP n ltac:(lia)). assert (f i <= sumn n f) by (apply IH; [intros; apply HP; lia|lia]). lra.
Qed.
Lemma sumn_delta n i v : (i < n)%nat -> sumn n (fun j => if (i =? j)%nat then v j else 0) = v i.
Proof.
  induction n as [|n IH]; intros Hi; [lia|]. rewrite sumn_S. destruct (Nat.eqb_spec i n) as [->|N].
  - rewrite (sumn_ext n _ (fun _ => 0)); [rewrite sumn_zero; lra|]. intros j Hj. destruct (Nat.eqb_spec n j); [lia|reflexivity].
  - rewrite IH by lia. lra.
Qed.
Lemma sumn_nth (l : list R) : sumn (length l) (fun i => nth i l 0) = total l.
Proof.
  unfold sumn. f_equal. assert (G : forall a, map (fun i => nth (i - a) l 0) (seq a (length l)) = l).
  { induction l as [|x l IH]; intros a; [reflexivity|]. cbn [length seq map]. rewrite Nat.sub_diag. cbn [nth]. f_equal.
    transitivity (map (fun i => nth (i - S a) l 0) (seq (S a) (length l))); [|apply IH]. apply map_ext_in. intros i Hi. apply in_seq in Hi. replace (i - a)%nat with (S (i - S a)) by lia. reflexivity. }
  transitivity (map (fun i => nth (i - 0) l 0) (seq 0 (length l))); [|apply (G 0%nat)]. apply map_ext. intros i. rewrite Nat.sub_0_r. reflexivity.
Qed.
Lemma sumn_abs n f : Rabs (sumn n f) <= sumn n (fun i => Rabs (f i)).
Proof.
  induction n as [|n IH]; [unfold sumn; cbn; rewrite Rabs_R0; lra|]. rewrite !sumn_S.
  eapply Rle_trans; [apply Rabs_triang|]. lra.
Qed.

(** plans *)
Lemma prob_nth a i : Prob a -> 0 <= nth i a 0.
Proof. intros [H _]. destruct (nth_in_or_default i a 0) as [HI| ->]; [|lra]. rewrite Forall_forall in H. apply H. exact HI. Qed.
Lemma product_plan a b : Prob a -> Prob b -> Plan a b (fun i j => nth i a 0 * nth j b 0).
Proof.
  intros HA HB. split; [|split].
  - intros i j _ _. apply Rmult_le_pos; apply prob_nth; assumption.
  - intros i _. rewrite sumn_scale, sumn_nth. destruct HB as [_ ->]. ring.
  - intros j _. rewrite sumn_scale_r, sumn_nth. destruct HA as [_ ->]. ring.
Qed.
Lemma diag_plan a : Prob a -> Plan a a (fun i j => if (i =? j)%nat then nth i a 0 else 0).
Proof.
  intros HA. split; [|split].
  - intros i j _ _. destruct (i =? j)%nat; [apply prob_nth; assumption|lra].
  - intros i Hi. exact (sumn_delta (length a) i (fun _ => nth i a 0) Hi).
  - intros j Hj. rewrite (sumn_ext _ _ (fun i => if (j =? i)%nat then nth i a 0 else 0)).
    + exact (sumn_delta (length a) j (fun i => nth i a 0) Hj).
    + intros i _. rewrite Nat.eqb_sym. reflexivity.
Qed.
Lemma swap_plan a b g : Plan a b g -> Plan b a (fun j i => g i j).
Proof. intros (H1 & H2 & H3). split; [|split]; auto. Qed.
Lemma cost_swap n m M g : cost m n (fun j i => M i j) (fun j i => g i j) = cost n m M g.
Proof. unfold cost. rewrite sumn_swap. reflexivity. Qed.
Lemma cost_ext n m M M' g : (forall i j, (i < n)%nat -> (j < m)%nat -> M i j = M' i j) -> cost n m M g = cost n m M' g.
Proof. intros H. apply sumn_ext. intros i Hi. apply sumn_ext. intros j Hj. rewrite H by assumption. reflexivity. Qed.
Lemma cost_nonneg a b M g : Plan a b g -> (forall i j, 0 <= M i j) -> 0 <= cost (length a) (length b) M g.
Proof. intros (H1 & _) HM. apply sumn_nonneg. intros i Hi. apply sumn_nonneg. intros j Hj. apply Rmult_le_pos; auto. Qed.
Lemma least_ext a b M M' v : (forall i j, (i < length a)%nat -> (j < length b)%nat -> M i j = M' i j) -> LeastCost a b M v -> LeastCost a b M' v.
Proof.
  intros H [L1 L2]. split.
  - intros g Hg. rewrite <- (cost_ext _ _ M M' g H). apply L1. assumption.
  - intros eps He. destruct (L2 eps He) as (g & Hg & Hc). exists g. split; [assumption|]. rewrite <- (cost_ext _ _ M M' g H). assumption.
Qed.
Lemma least_unique a b M v v' : LeastCost a b M v -> LeastCost a b M v' -> v = v'.
Proof.
  assert (G : forall v v', LeastCost a b M v -> LeastCost a b M v' -> v <= v').
  { intros x y [L1 _] [_ L2]. destruct (Rle_dec x y) as [|N]; [assumption|]. destruct (L2 (x - y) ltac:(lra)) as (g & Hg & Hc).
    specialize (L1 g Hg). lra. }
  intros H H'. apply Rle_antisym; apply G; assumption.
Qed.
Lemma least_sym a b M v : LeastCost a b M v -> LeastCost b a (fun j i => M i j) v.
Proof.
  intros [L1 L2]. split.
  - intros g Hg. rewrite <- (cost_swap (length b) (length a)). apply L1. apply swap_plan. assumption.
  - intros eps He. destruct (L2 eps He) as (g & Hg & Hc). exists (fun j i => g i j). split; [apply swap_plan; assumption|].
    rewrite (cost_swap (length a) (length b) M g). assumption.
Qed.
Lemma least_nonneg a b M v : Prob a -> Prob b -> (forall i j, 0 <= M i j) -> LeastCost a b M v -> 0 <= v.
Proof.
  intros HA HB HM [_ L2]. destruct (Rle_dec 0 v) as [|N]; [assumption|]. destruct (L2 (- v) ltac:(lra)) as (g & Hg & Hc).
  pose proof (cost_nonneg a b M g Hg HM). lra.
Qed.
Lemma cost_lower a b M g : Plan a b g -> (forall i j, (i < length a)%nat -> (j < length b)%nat -> 0 <= M i j) -> 0 <= cost (length a) (length b) M g.
Proof. intros (H1 & _) HM. apply sumn_nonneg. intros i Hi. apply sumn_nonneg. intros j Hj. apply Rmult_le_pos; auto. Qed.
(** the least cost exists *)
Lemma least_exists a b M : Prob a -> Prob b -> {v | LeastCost a b M v}.
Proof.
  intros HA HB.
  set (n := length a). set (m := length b).
  set (B := sumn n (fun i => sumn m (fun j => Rabs (M i j)))).
  set (E := fun x => exists g, Plan a b g /\ x = - cost n m M g).
  assert (HBd : bound E).
  { exists B. intros x (g & Hg & ->). unfold B, cost.
    assert (HG : forall i j, (i < n)%nat -> (j < m)%nat -> 0 <= g i j <= 1).
    { intros i j Hi Hj. destruct Hg as (H1 & H2 & H3). split; [apply H1; assumption|].
      apply Rle_trans with (nth i a 0).
      - rewrite <- (H2 i Hi). apply (sumn_term (length b) (g i) j); [|assumption]. intros k Hk. apply H1; assumption.
      - destruct HA as [HA1 HA2]. rewrite <- HA2, <- sumn_nth. apply (sumn_term (length a) (fun i => nth i a 0) i); [|assumption].
        intros k Hk. apply prob_nth. split; assumption. }
    replace (- sumn n (fun i => sumn m (fun j => g i j * M i j))) with (sumn n (fun i => -1 * sumn m (fun j => g i j * M i j))) by (rewrite sumn_scale; ring).
    apply sumn_le. intros i Hi. rewrite <- sumn_scale. apply sumn_le. intros j Hj. destruct (HG i j Hi Hj) as [G0 G1].
    pose proof (Rle_abs (- M i j)) as A. rewrite Rabs_Ropp in A. pose proof (Rabs_pos (M i j)).
    pose proof (Rmult_le_compat_l (g i j) (- M i j) (Rabs (M i j)) G0 A).
    pose proof (Rmult_le_compat_r (Rabs (M i j)) (g i j) 1 H G1). lra. }
  assert (HNE : exists x, E x). { eexists. exists (fun i j => nth i a 0 * nth j b 0). split; [apply product_plan; assumption|reflexivity]. }
  destruct (completeness E HBd HNE) as [s [Hub Hlub]]. exists (- s). split.
  - intros g Hg. assert (HE : E (- cost n m M g)) by (exists g; auto). specialize (Hub _ HE). fold n m. lra.
  - intros eps He.
    destruct (Classical_Prop.classic (exists g, Plan a b g /\ cost (length a) (length b) M g < - s + eps)) as [H|H]; [assumption|].
    exfalso. assert (HU : is_upper_bound E (s - eps)).
    { intros x (g & Hg & ->). destruct (Rle_dec (- cost n m M g) (s - eps)) as [|N]; [assumption|]. exfalso. apply H. exists g. split; [assumption|]. fold n m. lra. }
    specialize (Hlub _ HU). lra.
Qed.

(** Minkowski's inequality with weights *)
Lemma minkowski {A} (L : list A) (w u v : A -> R) : (forall x, In x L -> 0 <= w x) ->
  sqrt (total (map (fun x => w x * (u x + v x) ^ 2) L)) <= sqrt (total (map (fun x => w x * u x ^ 2) L)) + sqrt (total (map (fun x => w x * v x ^ 2) L)).
Proof.
  intros HW.
  set (U := total (map (fun x => w x * u x ^ 2) L)). set (V := total (map (fun x => w x * v x ^ 2) L)). set (C := total (map (fun x => w x * (u x * v x)) L)).
  assert (HN : forall f : A -> R, 0 <= total (map (fun x => w x * f x ^ 2) L)).
  { intros f. apply total_nonneg. apply Forall_map. apply Forall_forall. intros x Hx. apply Rmult_le_pos; [apply HW; assumption|apply pow2_ge_0]. }
  assert (E : total (map (fun x => w x * (u x + v x) ^ 2) L) = U + 2 * C + V).
  { unfold U, C, V. rewrite <- total_scale, <- !total_plus. apply total_ext. intros x _. ring. }
  assert (CS : C * C <= U * V).
  { pose proof (cauchy (map (fun x => sqrt (w x) * u x) L) (map (fun x => sqrt (w x) * v x) L) ltac:(rewrite !map_length; reflexivity)) as K.
    assert (D : forall f g : A -> R, dotl (map (fun x => sqrt (w x) * f x) L) (map (fun x => sqrt (w x) * g x) L) = total (map (fun x => w x * (f x * g x)) L)).
    { intros f g. clear -HW. induction L as [|x L IH]; [reflexivity|]. cbn [map]. rewrite dotl_cons, total_cons, IH by (intros; apply HW; right; assumption).
      f_equal. pose proof (sqrt_sqrt (w x) (HW x (or_introl eq_refl))) as S. replace (w x * (f x * g x)) with ((sqrt (w x) * sqrt (w x)) * (f x * g x)) by (rewrite S; reflexivity). ring. }
    rewrite !D in K. unfold U, V, C.
    rewrite (total_ext (fun x => w x * u x ^ 2) (fun x => w x * (u x * u x))) by (intros; ring).
    rewrite (total_ext (fun x => w x * v x ^ 2) (fun x => w x * (v x * v x))) by (intros; ring). exact K. }
  rewrite E. pose proof (HN u) as HU. fold U in HU. pose proof (HN v) as HV. fold V in HV. pose proof (HN (fun x => u x + v x)) as HS. cbv beta in HS. rewrite E in HS.
  assert (HC : C <= sqrt U * sqrt V).
  { rewrite <- sqrt_mult by assumption. destruct (Rle_dec C 0) as [|N]; [pose proof (sqrt_pos (U * V)); lra|].
    rewrite <- (sqrt_square C) by lra. apply sqrt_le_1; [nra|apply Rmult_le_pos; assumption|exact CS]. }
  pose proof (sqrt_pos U). pose proof (sqrt_pos V).
  rewrite <- (sqrt_square (sqrt U + sqrt V)) by lra. apply sqrt_le_1; [assumption| |].
  - apply Rmult_le_pos; lra.
  - pose proof (sqrt_sqrt U HU). pose proof (sqrt_sqrt V HV). lra.
Qed.
Lemma total_prod {A B} (F : A -> B -> R) l l' : total (map (fun p => F (fst p) (snd p)) (list_prod l l')) = total (map (fun x => total (map (F x) l')) l).
Proof.
  induction l as [|x l IH]; [reflexivity|]. cbn [list_prod map]. rewrite map_app, total_app, IH, total_cons. f_equal.
  rewrite map_map. reflexivity.
Qed.
Definition triples (n m p : nat) : list (nat * (nat * nat)) := list_prod (seq 0 n) (list_prod (seq 0 m) (seq 0 p)).
Lemma total_triples n m p (F : nat -> nat -> nat -> R) :
  total (map (fun t => F (fst t) (fst (snd t)) (snd (snd t))) (triples n m p)) = sumn n (fun i => sumn m (fun j => sumn p (fun k => F i j k))).
Proof.
  unfold triples. rewrite (total_prod (fun i jk => F i (fst jk) (snd jk))). apply total_ext. intros i _.
  rewrite (total_prod (fun j k => F i j k)). reflexivity.
Qed.

(** gluing two plans *)
Section Glue.
Variables (a b c : list R) (g1 g2 : nat -> nat -> R).
Hypothesis P1 : Plan a b g1.
Hypothesis P2 : Plan b c g2.
Let n := length a. Let m := length b. Let p := length c.
Definition glue3 (i j k : nat) : R := g1 i j * g2 j k / nth j b 0.
Definition glue (i k : nat) : R := sumn m (fun j => glue3 i j k).
Lemma b_nonneg j : (j < m)%nat -> 0 <= nth j b 0.
Proof. intros Hj. destruct P1 as (H1 & _ & H3). rewrite <- (H3 j Hj). apply sumn_nonneg. intros i Hi. apply H1; assumption. Qed.
Lemma g1_zero i j : (i < n)%nat -> (j < m)%nat -> nth j b 0 = 0 -> g1 i j = 0.
Proof. intros Hi Hj E. destruct P1 as (H1 & _ & H3). rewrite <- (H3 j Hj) in E. apply (sumn_zero_each (length a) (fun i => g1 i j)); try assumption. intros k Hk. apply H1; assumption. Qed.
Lemma g2_zero j k : (j < m)%nat -> (k < p)%nat -> nth j b 0 = 0 -> g2 j k = 0.
Proof. intros Hj Hk E. destruct P2 as (H1 & H2 & _). rewrite <- (H2 j Hj) in E. apply (sumn_zero_each (length c) (g2 j)); try assumption. intros l Hl. apply H1; assumption. Qed.
Lemma glue3_nonneg i j k : (i < n)%nat -> (j < m)%nat -> (k < p)%nat -> 0 <= glue3 i j k.
Proof.
  intros Hi Hj Hk. unfold glue3. destruct (Req_dec (nth j b 0) 0) as [E|E].
  - rewrite (g1_zero i j Hi Hj E). unfold Rdiv. rewrite !Rmult_0_l. lra.
  - pose proof (b_nonneg j Hj). destruct P1 as (H1 & _). destruct P2 as (H2 & _).
    apply Rmult_le_pos; [apply Rmult_le_pos; [apply H1|apply H2]; assumption|]. left. apply Rinv_0_lt_compat. lra.
Qed.
Lemma glue3_k i j : (i < n)%nat -> (j < m)%nat -> sumn p (fun k => glue3 i j k) = g1 i j.
Proof.
  intros Hi Hj. unfold glue3. rewrite (sumn_ext p _ (fun k => g1 i j / nth j b 0 * g2 j k)) by (intros; unfold Rdiv; ring).
  rewrite sumn_scale. destruct P2 as (_ & H2 & _). unfold p. rewrite (H2 j Hj). destruct (Req_dec (nth j b 0) 0) as [E|E].
  - rewrite (g1_zero i j Hi Hj E). unfold Rdiv. ring.
  - field. assumption.
Qed.
Lemma glue3_i j k : (j < m)%nat -> (k < p)%nat -> sumn n (fun i => glue3 i j k) = g2 j k.
Proof.
  intros Hj Hk. unfold glue3. rewrite (sumn_ext n _ (fun i => g2 j k / nth j b 0 * g1 i j)) by (intros; unfold Rdiv; ring).
  rewrite sumn_scale. destruct P1 as (_ & _ & H3). unfold n. rewrite (H3 j Hj). destruct (Req_dec (nth j b 0) 0) as [E|E].
  - rewrite (g2_zero j k Hj Hk E). unfold Rdiv. ring.
  - field. assumption.
Qed.
Lemma glue_plan : Plan a c glue.
Proof.
  split; [|split].
  - intros i k Hi Hk. apply sumn_nonneg. intros j Hj. apply glue3_nonneg; assumption.
  - intros i Hi. unfold glue. rewrite sumn_swap. destruct P1 as (_ & H2 & _). rewrite <- (H2 i Hi). apply sumn_ext. intros j Hj. apply glue3_k; assumption.
  - intros k Hk. unfold glue. rewrite sumn_swap. destruct P2 as (_ & _ & H3). rewrite <- (H3 k Hk). apply sumn_ext. intros j Hj. apply glue3_i; assumption.
Qed.
Lemma glue_cost (d12 d23 d13 : nat -> nat -> R) :
  (forall i j, (i < n)%nat -> (j < m)%nat -> 0 <= d12 i j) -> (forall j k, (j < m)%nat -> (k < p)%nat -> 0 <= d23 j k) ->
  (forall i k, (i < n)%nat -> (k < p)%nat -> 0 <= d13 i k) ->
  (forall i j k, (i < n)%nat -> (j < m)%nat -> (k < p)%nat -> d13 i k <= d12 i j + d23 j k) ->
  sqrt (cost n p (fun i k => d13 i k ^ 2) glue) <= sqrt (cost n m (fun i j => d12 i j ^ 2) g1) + sqrt (cost m p (fun j k => d23 j k ^ 2) g2).
Proof.
  intros N12 N23 N13 T.
  assert (U : total (map (fun t => glue3 (fst t) (fst (snd t)) (snd (snd t)) * d12 (fst t) (fst (snd t)) ^ 2) (triples n m p)) = cost n m (fun i j => d12 i j ^ 2) g1).
  { rewrite (total_triples n m p (fun i j k => glue3 i j k * d12 i j ^ 2)). unfold cost. apply sumn_ext. intros i Hi. apply sumn_ext. intros j Hj.
    rewrite sumn_scale_r, glue3_k by assumption. reflexivity. }
  assert (V : total (map (fun t => glue3 (fst t) (fst (snd t)) (snd (snd t)) * d23 (fst (snd t)) (snd (snd t)) ^ 2) (triples n m p)) = cost m p (fun j k => d23 j k ^ 2) g2).
  { rewrite (total_triples n m p (fun i j k => glue3 i j k * d23 j k ^ 2)). unfold cost. rewrite sumn_swap. apply sumn_ext. intros j Hj.
    rewrite sumn_swap. apply sumn_ext. intros k Hk. rewrite sumn_scale_r, glue3_i by assumption. reflexivity. }
  rewrite <- U, <- V. eapply Rle_trans; [|apply minkowski].
  - apply sqrt_le_1_alt.
    rewrite (total_triples n m p (fun i j k => glue3 i j k * (d12 i j + d23 j k) ^ 2)).
    unfold cost, glue. apply sumn_le. intros i Hi.
    rewrite (sumn_ext p _ (fun k => sumn m (fun j => glue3 i j k * d13 i k ^ 2))) by (intros; rewrite sumn_scale_r; reflexivity).
    rewrite sumn_swap. apply sumn_le. intros j Hj. apply sumn_le. intros k Hk.
    apply Rmult_le_compat_l; [apply glue3_nonneg; assumption|].
    apply pow_incr. split; [apply N13; assumption|apply T; assumption].
  - intros [i [j k]] HI. unfold triples in HI. apply in_prod_iff in HI. destruct HI as [Hi HI]. apply in_prod_iff in HI. destruct HI as [Hj Hk].
    apply in_seq in Hi, Hj, Hk. cbn [fst snd]. apply glue3_nonneg; lia.
Qed.
End Glue.

(** 2-Wasserstein distances *)
Lemma W2_unique s1 s2 a b v v' : W2dist s1 s2 a b v -> W2dist s1 s2 a b v' -> v = v'.
Proof.
  intros [H1 L1] [H2 L2]. pose proof (least_unique _ _ _ _ _ L1 L2) as E. rewrite <- (sqrt_pow2 v), <- (sqrt_pow2 v') by assumption. rewrite E. reflexivity.
Qed.
Lemma vdist_sym x y : vdist x y = vdist y x.
Proof. rewrite !vdist_sq, sq_sym. reflexivity. Qed.
Lemma W2_sym s1 s2 a b v : W2dist s1 s2 a b v -> W2dist s2 s1 b a v.
Proof.
  intros [H L]. split; [assumption|]. apply least_sym in L. eapply least_ext; [|exact L]. intros i j _ _. cbn. rewrite vdist_sym. reflexivity.
Qed.
Lemma W2_self s a : Prob a -> W2dist s s a a 0.
Proof.
  intros HA. split; [lra|]. split.
  - intros g Hg. rewrite pow_i by lia. apply cost_nonneg; [assumption|]. intros i j. apply pow2_ge_0.
  - intros eps He. exists (fun i j => if (i =? j)%nat then nth i a 0 else 0). split; [apply diag_plan; assumption|].
    unfold cost. rewrite (sumn_ext _ _ (fun _ => 0)); [rewrite sumn_zero; rewrite pow_i by lia; lra|].
    intros i Hi. rewrite (sumn_ext _ _ (fun _ => 0)); [apply sumn_zero|]. intros j Hj. destruct (Nat.eqb_spec i j) as [->|N]; [|lra].
    rewrite vdist_sq. assert (E : sq (nth j s []) (nth j s []) = 0) by (apply sq_zero; reflexivity). rewrite E, sqrt_0. ring.
Qed.
Lemma sqrt_sum_le x d : 0 <= x -> 0 <= d -> sqrt (x ^ 2 + d ^ 2) <= x + d.
Proof.
  intros Hx Hd. rewrite <- (sqrt_pow2 (x + d)) by lra. apply sqrt_le_1_alt. pose proof (Rmult_le_pos x d Hx Hd). nra.
Qed.
Lemma W2_triangle dm s1 s2 s3 a b c v12 v23 v13 :
  length s1 = length a -> length s2 = length b -> length s3 = length c ->
  Forall (fun x => length x = dm) s1 -> Forall (fun x => length x = dm) s2 -> Forall (fun x => length x = dm) s3 ->
  W2dist s1 s2 a b v12 -> W2dist s2 s3 b c v23 -> W2dist s1 s3 a c v13 -> v13 <= v12 + v23.
Proof.
  intros E1 E2 E3 F1 F2 F3 [H12 [_ L12]] [H23 [_ L23]] [H13 [L13 _]].
  assert (G : forall d, 0 < d -> v13 <= v12 + v23 + 2 * d).
  { intros d Hd. destruct (L12 (d ^ 2)) as (g1 & P1 & C1); [apply pow_lt; assumption|].
    destruct (L23 (d ^ 2)) as (g2 & P2 & C2); [apply pow_lt; assumption|].
    pose proof (glue_plan a b c g1 g2 P1 P2) as PG. specialize (L13 _ PG).
    assert (DIM : forall (s : list (list R)) i, Forall (fun x => length x = dm) s -> (i < length s)%nat -> length (nth i s []) = dm).
    { intros s i F Hi. rewrite Forall_forall in F. apply F. apply nth_In. assumption. }
    pose proof (glue_cost a b c g1 g2 P1 P2 (fun i j => vdist (nth i s1 []) (nth j s2 [])) (fun j k => vdist (nth j s2 []) (nth k s3 [])) (fun i k => vdist (nth i s1 []) (nth k s3 []))) as GC.
    cbv beta in GC.
    specialize (GC ltac:(intros; apply vdist_nn) ltac:(intros; apply vdist_nn) ltac:(intros; apply vdist_nn)).
    assert (TR : forall i j k, (i < length a)%nat -> (j < length b)%nat -> (k < length c)%nat ->
       vdist (nth i s1 []) (nth k s3 []) <= vdist (nth i s1 []) (nth j s2 []) + vdist (nth j s2 []) (nth k s3 [])).
    { intros i j k Hi Hj Hk. apply vdist_triangle; rewrite !DIM by (assumption || lia); reflexivity. }
    specialize (GC TR).
    apply sqrt_le_1_alt in L13. rewrite sqrt_pow2 in L13 by assumption.
    assert (S1 : sqrt (cost (length a) (length b) (fun i j => vdist (nth i s1 []) (nth j s2 []) ^ 2) g1) <= v12 + d).
    { eapply Rle_trans; [|apply sqrt_sum_le; [assumption|lra]]. apply sqrt_le_1_alt. lra. }
    assert (S2 : sqrt (cost (length b) (length c) (fun i j => vdist (nth i s2 []) (nth j s3 []) ^ 2) g2) <= v23 + d).
    { eapply Rle_trans; [|apply sqrt_sum_le; [assumption|lra]]. apply sqrt_le_1_alt. lra. }
    lra. }
  destruct (Rle_dec v13 (v12 + v23)) as [|N]; [assumption|]. specialize (G ((v13 - (v12 + v23)) / 4) ltac:(lra)). lra.
Qed.
(** distance zero: the two weighted samples give every function the same mean *)
Lemma W2_zero dm s1 s2 a b f : Prob a -> Prob b -> length s1 = length a -> length s2 = length b ->
  Forall (fun x => length x = dm) s1 -> Forall (fun x => length x = dm) s2 ->
  W2dist s1 s2 a b 0 -> mean_of s1 a f = mean_of s2 b f.
Proof.
  intros HA HB E1 E2 F1 F2 [_ [_ L]]. rewrite pow_i in L by lia.
  set (n := length a) in *. set (m := length b) in *.
  set (x := fun i => nth i s1 []). set (y := fun j => nth j s2 []).
  set (K := sumn n (fun i => sumn m (fun j => Rabs (f (x i) - f (y j)) / vdist (x i) (y j) ^ 2))).
  assert (Q : forall i j, (i < n)%nat -> (j < m)%nat -> 0 <= Rabs (f (x i) - f (y j)) / vdist (x i) (y j) ^ 2 \/ vdist (x i) (y j) = 0).
  { intros i j _ _. destruct (Req_dec (vdist (x i) (y j)) 0) as [E|E]; [right; assumption|left]. apply Rmult_le_pos; [apply Rabs_pos|].
    left. apply Rinv_0_lt_compat. rewrite <- Rsqr_pow2. apply Rsqr_pos_lt. assumption. }
  set (q := fun i j => if Req_EM_T (vdist (x i) (y j)) 0 then 0 else Rabs (f (x i) - f (y j)) / vdist (x i) (y j) ^ 2).
  set (C := sumn n (fun i => sumn m (q i))).
  assert (q_nn : forall i j, 0 <= q i j).
  { intros i j. unfold q. destruct (Req_EM_T _ 0) as [E|E]; [lra|]. apply Rmult_le_pos; [apply Rabs_pos|].
    left. apply Rinv_0_lt_compat. rewrite <- Rsqr_pow2. apply Rsqr_pos_lt. assumption. }
  assert (qC : forall i j, (i < n)%nat -> (j < m)%nat -> q i j <= C).
  { intros i j Hi Hj. unfold C. eapply Rle_trans; [|apply (sumn_term n (fun i => sumn m (q i)) i); [|assumption]].
    - apply (sumn_term m (q i) j); [intros; apply q_nn|assumption].
    - intros k _. apply sumn_nonneg. intros; apply q_nn. }
  assert (LIP : forall i j, (i < n)%nat -> (j < m)%nat -> Rabs (f (x i) - f (y j)) <= C * vdist (x i) (y j) ^ 2).
  { intros i j Hi Hj. specialize (qC i j Hi Hj). unfold q in qC. destruct (Req_EM_T (vdist (x i) (y j)) 0) as [E|E].
    - assert (EQ : x i = y j).
      { rewrite Forall_forall in F1, F2.
        assert (HL : length (x i) = length (y j)). { unfold x, y. rewrite (F1 (nth i s1 [])), (F2 (nth j s2 [])); [reflexivity| |]; apply nth_In; lia. }
        apply sq_zero; [assumption|]. rewrite vdist_sq in E. apply sqrt_eq_0; [apply sq_nn|assumption]. }
      rewrite EQ, Rminus_diag_eq by reflexivity. rewrite Rabs_R0. apply Rmult_le_pos; [|apply pow2_ge_0].
      unfold C. apply sumn_nonneg. intros; apply sumn_nonneg. intros; apply q_nn.
    - assert (PD : 0 < vdist (x i) (y j) ^ 2) by (rewrite <- Rsqr_pow2; apply Rsqr_pos_lt; assumption).
      apply (Rmult_le_compat_r (vdist (x i) (y j) ^ 2)) in qC; [|lra]. unfold Rdiv in qC. rewrite Rmult_assoc, Rinv_l, Rmult_1_r in qC by lra. assumption. }
  assert (HC : 0 <= C) by (unfold C; apply sumn_nonneg; intros; apply sumn_nonneg; intros; apply q_nn).
  assert (BND : forall eps, 0 < eps -> Rabs (mean_of s1 a f - mean_of s2 b f) <= C * eps).
  { intros eps He. destruct (L eps He) as (g & Hg & Hc). rewrite Rplus_0_l in Hc.
    assert (M1 : mean_of s1 a f = sumn n (fun i => sumn m (fun j => g i j * f (x i)))).
    { unfold mean_of. fold n. apply sumn_ext. intros i Hi. rewrite sumn_scale_r. destruct Hg as (_ & H2 & _). unfold m. rewrite (H2 i Hi). reflexivity. }
    assert (M2 : mean_of s2 b f = sumn n (fun i => sumn m (fun j => g i j * f (y j)))).
    { rewrite sumn_swap. unfold mean_of. fold m. apply sumn_ext. intros j Hj. rewrite sumn_scale_r. destruct Hg as (_ & _ & H3). unfold n. rewrite (H3 j Hj). reflexivity. }
    assert (M3 : mean_of s1 a f - mean_of s2 b f = sumn n (fun i => sumn m (fun j => g i j * (f (x i) - f (y j))))).
    { rewrite M1, M2. unfold Rminus. rewrite <- (Rmult_1_l (sumn n (fun i => sumn m (fun j => g i j * f (y j))))), Ropp_mult_distr_l, <- sumn_scale, <- sumn_plus.
      apply sumn_ext. intros i Hi. rewrite <- sumn_scale, <- sumn_plus. apply sumn_ext. intros j Hj. ring. }
    rewrite M3. eapply Rle_trans; [apply sumn_abs|].
    apply Rle_trans with (C * cost n m (fun i j => vdist (x i) (y j) ^ 2) g).
    - unfold cost. rewrite <- sumn_scale. apply sumn_le. intros i Hi. eapply Rle_trans; [apply sumn_abs|].
      rewrite <- sumn_scale. apply sumn_le. intros j Hj. destruct Hg as (H1 & _). pose proof (H1 i j Hi Hj) as G0.
      rewrite Rabs_mult, (Rabs_right (g i j)) by lra. pose proof (Rmult_le_compat_l _ _ _ G0 (LIP i j Hi Hj)). lra.
    - apply Rmult_le_compat_l; [assumption|]. change (cost n m (fun i j => vdist (x i) (y j) ^ 2) g < eps) in Hc. lra. }
  destruct (Req_dec (mean_of s1 a f) (mean_of s2 b f)) as [|N]; [assumption|]. exfalso.
  assert (PA : 0 < Rabs (mean_of s1 a f - mean_of s2 b f)) by (apply Rabs_pos_lt; lra).
  specialize (BND (Rabs (mean_of s1 a f - mean_of s2 b f) / (2 * (C + 1)))).
  assert (PE : 0 < Rabs (mean_of s1 a f - mean_of s2 b f) / (2 * (C + 1))) by (apply Rdiv_lt_0_compat; lra).
  specialize (BND PE). set (A := Rabs _) in *. clearbody A.
  assert (C * (A / (2 * (C + 1))) <= A / 2).
  { replace (A / 2) with ((C + 1) * (A / (2 * (C + 1)))) by (field; lra). apply Rmult_le_compat_r; lra. }
  lra.
Qed.
(** the same distribution: distance zero *)
Lemma W2_same s1 s2 a b : Prob a -> Prob b -> length s1 = length a -> length s2 = length b ->
  SameDistribution s1 s2 a b -> W2dist s1 s2 a b 0.
Proof.
  intros HA HB E1 E2 HS. split; [lra|]. split.
  - intros g Hg. rewrite pow_i by lia. apply cost_nonneg; [assumption|]. intros i j. apply pow2_ge_0.
  - intros eps He.
    set (x := fun i => nth i s1 []). set (y := fun j => nth j s2 []).
    set (dec := list_eq_dec Req_EM_T). set (ind := fun u v : list R => if dec u v then 1 else 0).
    set (mu := fun u => mean_of s1 a (fun v => ind v u)).
    assert (MU2 : forall u, mu u = sumn (length b) (fun j => nth j b 0 * ind (y j) u)).
    { intros u. unfold mu. rewrite (HS (fun v => ind v u)). reflexivity. }
    assert (IND : forall u v, 0 <= ind u v <= 1) by (intros u v; unfold ind; destruct (dec u v); lra).
    assert (INDS : forall u v, ind u v = ind v u) by (intros u v; unfold ind; destruct (dec u v), (dec v u); congruence).
    assert (INDR : forall u, ind u u = 1) by (intros u; unfold ind; destruct (dec u u); congruence).
    assert (MUN : forall u, 0 <= mu u) by (intros u; apply sumn_nonneg; intros i Hi; apply Rmult_le_pos; [apply prob_nth; assumption|apply IND]).
    assert (MUA : forall i, (i < length a)%nat -> nth i a 0 <= mu (x i)).
    { intros i Hi. unfold mu, mean_of. apply Rle_trans with (nth i a 0 * ind (nth i s1 []) (x i)).
      - unfold x. rewrite INDR. lra.
      - apply (sumn_term (length a) (fun k => nth k a 0 * ind (nth k s1 []) (x i)) i); [|assumption]. intros k Hk. apply Rmult_le_pos; [apply prob_nth; assumption|apply IND]. }
    assert (MUB : forall j, (j < length b)%nat -> nth j b 0 <= mu (y j)).
    { intros j Hj. rewrite MU2. apply Rle_trans with (nth j b 0 * ind (y j) (y j)).
      - rewrite INDR. lra.
      - apply (sumn_term (length b) (fun k => nth k b 0 * ind (y k) (y j)) j); [|assumption]. intros k Hk. apply Rmult_le_pos; [apply prob_nth; assumption|apply IND]. }
    set (g := fun i j => nth i a 0 * nth j b 0 * ind (x i) (y j) / mu (x i)).
    assert (PG : Plan a b g).
    { split; [|split].
      - intros i j Hi Hj. unfold g. destruct (Req_dec (mu (x i)) 0) as [E|E].
        + pose proof (MUA i Hi). pose proof (prob_nth a i HA). assert (Ea : nth i a 0 = 0) by lra. rewrite Ea. unfold Rdiv. rewrite !Rmult_0_l. lra.
        + pose proof (MUN (x i)). apply Rmult_le_pos; [|left; apply Rinv_0_lt_compat; lra].
          apply Rmult_le_pos; [apply Rmult_le_pos; apply prob_nth; assumption|apply IND].
      - intros i Hi. unfold g. rewrite (sumn_ext _ _ (fun j => nth i a 0 / mu (x i) * (nth j b 0 * ind (y j) (x i)))) by (intros j _; rewrite (INDS (x i)); unfold Rdiv; ring).
        rewrite sumn_scale, <- MU2. destruct (Req_dec (mu (x i)) 0) as [E|E]; [|field; assumption].
        pose proof (MUA i Hi). pose proof (prob_nth a i HA). assert (Ea : nth i a 0 = 0) by lra. rewrite Ea. unfold Rdiv. ring.
      - intros j Hj. unfold g. rewrite (sumn_ext _ _ (fun i => nth j b 0 / mu (y j) * (nth i a 0 * ind (x i) (y j)))).
        + rewrite sumn_scale. change (sumn (length a) (fun i => nth i a 0 * ind (x i) (y j))) with (mu (y j)).
          destruct (Req_dec (mu (y j)) 0) as [E|E]; [|field; assumption].
          pose proof (MUB j Hj). pose proof (prob_nth b j HB). assert (Eb : nth j b 0 = 0) by lra. rewrite Eb. unfold Rdiv. ring.
        + intros i Hi. unfold ind. destruct (dec (x i) (y j)) as [Exy|]; [rewrite Exy|]; unfold Rdiv; ring. }
    exists g. split; [exact PG|]. rewrite pow_i by lia. unfold cost.
    rewrite (sumn_ext _ _ (fun _ => 0)); [rewrite sumn_zero; lra|]. intros i Hi.
    rewrite (sumn_ext _ _ (fun _ => 0)); [apply sumn_zero|]. intros j Hj. fold (x i) (y j). unfold g, ind. destruct (dec (x i) (y j)) as [Exy|N].
    + rewrite Exy. rewrite vdist_sq. assert (E : sq (y j) (y j) = 0) by (apply sq_zero; reflexivity). rewrite E, sqrt_0. ring.
    + unfold Rdiv. ring.
Qed.
(** the code *)
Lemma normed_good n w : GoodWeights n w -> norm_weights n w = Ok (map XR (normed n w)) /\ Prob (normed n w) /\ length (normed n w) = n.
Proof.
  intros [Hn HW]. destruct w as [l|]; cbn [norm_weights normed].
  - destruct HW as (HL & HN & HT). rewrite HL, Nat.eqb_refl. cbn [negb]. split; [|split].
    + f_equal. unfold xsum. apply norm_fin. lra.
    + split; [|rewrite total_div; field; lra]. apply Forall_map. eapply Forall_impl; [|exact HN]. intros x Hx. cbv beta in *. apply Rmult_le_pos; [assumption|]. left. apply Rinv_0_lt_compat. assumption.
    + rewrite map_length. assumption.
  - assert (HI : 0 < INR n) by (apply lt_0_INR; assumption). split; [|split].
    + rewrite repeat_map. rewrite xdiv_fin by lra. do 3 f_equal. unfold Rdiv. ring.
    + split; [|rewrite total_repeat; field; lra]. apply Forall_forall. intros x Hx. apply repeat_spec in Hx. subst. left. apply Rinv_0_lt_compat. assumption.
    + apply repeat_length.
Qed.
Lemma ot_dist_at s1 s2 i j : (i < length s1)%nat -> (j < length s2)%nat -> at_ (ot_dist s1 s2) i j = vdist (nth i s1 []) (nth j s2 []) ^ 2.
Proof.
  intros Hi Hj. unfold at_, ot_dist. rewrite vdist_sq. rewrite <- Rsqr_pow2, Rsqr_sqrt by apply sq_nn.
  set (F := fun x y : list R => rsuml (map (fun ab => (fst ab - snd ab) * (fst ab - snd ab)) (combine x y))).
  rewrite nth_indep with (d' := map (F []) s2) by (rewrite map_length; assumption).
  change (nth j (nth i (map (fun x => map (F x) s2) s1) (map (F []) s2)) 0 = sq (nth i s1 []) (nth j s2 [])).
  rewrite (map_nth (fun x => map (F x) s2)).
  rewrite nth_indep with (d' := F (nth i s1 []) []) by (rewrite map_length; assumption). rewrite map_nth.
  unfold F, sq. rewrite rsuml_total. f_equal. apply map_ext. intros [u v]. cbn [fst snd]. ring.
Qed.
Lemma wass_value emd2 s1 s2 w1 w2 : Solver emd2 -> GoodWeights (length s1) w1 -> GoodWeights (length s2) w2 ->
  exists v, wass_dist emd2 s1 s2 w1 w2 = Ok (XR v) /\ W2dist s1 s2 (normed (length s1) w1) (normed (length s2) w2) v.
Proof.
  intros HS G1 G2. destruct (normed_good _ _ G1) as (N1 & P1 & L1). destruct (normed_good _ _ G2) as (N2 & P2 & L2).
  unfold wass_dist. rewrite N1, N2. cbn [rthen].
  destruct (HS _ _ (ot_dist s1 s2) P1 P2) as (c & Ec & HL). rewrite Ec.
  assert (HL' : LeastCost (normed (length s1) w1) (normed (length s2) w2) (fun i j => vdist (nth i s1 []) (nth j s2 []) ^ 2) c).
  { eapply least_ext; [|exact HL]. intros i j Hi Hj. apply ot_dist_at; congruence. }
  assert (Hc : 0 <= c) by (eapply least_nonneg; [exact P1|exact P2| |exact HL']; intros; apply pow2_ge_0).
  exists (sqrt c). rewrite xsqrt_fin by assumption. split; [reflexivity|]. split; [apply sqrt_pos|]. rewrite <- Rsqr_pow2, Rsqr_sqrt by assumption. exact HL'.
Qed.
