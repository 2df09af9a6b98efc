From Coq Require Import Reals Lra Lia List Arith Bool.
From Verif Require Import M_Base M_MMD M_NN S_NN.
Import ListNotations.
Open Scope R_scope.

Lemma dpl_ext f g x l : (forall t, f t = g t) -> derivable_pt_lim f x l -> derivable_pt_lim g x l.
Proof. intros E H eps He. destruct (H eps He) as (d & Hd). exists d. intros h Hh Hl. rewrite <- !E. now apply Hd. Qed.
Lemma upd_len x i t : length (upd x i t) = length x. Proof. revert i. induction x as [|a x IH]; intros [|i]; cbn; auto. Qed.
Lemma upd_same x i : (i < length x)%nat -> upd x i (nth i x 0) = x.
Proof. revert i. induction x as [|a x IH]; intros [|i] H; cbn in *; try lia; [reflexivity|]. f_equal. apply IH. lia. Qed.
Lemma upd_nth x i t k : (i < length x)%nat -> nth k (upd x i t) 0 = if (k =? i)%nat then t else nth k x 0.
Proof. revert i k. induction x as [|a x IH]; intros [|i] [|k] H; cbn in *; try lia; try reflexivity. apply IH. lia. Qed.
Lemma dot_nil row : dot row [] = 0. Proof. destruct row; reflexivity. Qed.
Lemma dot_tl r row v : dot (r :: row) v = r * nth 0 v 0 + dot row (tl v).
Proof. destruct v as [|a v]; cbn; [rewrite dot_nil; ring | reflexivity]. Qed.
Lemma nth_tl (v : list R) k : nth k (tl v) 0 = nth (S k) v 0. Proof. destruct v; [destruct k; reflexivity | reflexivity]. Qed.
Lemma dot_deriv : forall row (h : R -> list R) d t0, (forall k, derivable_pt_lim (fun t => nth k (h t) 0) t0 (nth k d 0)) -> derivable_pt_lim (fun t => dot row (h t)) t0 (dot row d).
Proof.
  induction row as [|r row IH]; intros h d t0 H; [cbn; apply derivable_pt_lim_const|].
  apply (dpl_ext (fun t => r * nth 0 (h t) 0 + dot row (tl (h t)))); [intros t; now rewrite dot_tl|]. rewrite dot_tl.
  apply (derivable_pt_lim_plus (fun t => r * nth 0 (h t) 0) (fun t => dot row (tl (h t)))).
  - apply (derivable_pt_lim_scal (fun t => nth 0 (h t) 0)). apply H.
  - apply IH. intros k. rewrite nth_tl. apply (dpl_ext (fun t => nth (S k) (h t) 0)); [intros t; now rewrite nth_tl | apply H].
Qed.
Lemma vmul_nth : forall a b k, nth k (vmul a b) 0 = nth k a 0 * nth k b 0.
Proof. induction a as [|x a IH]; intros [|y b] [|k]; cbn; try ring; apply IH. Qed.
Lemma vadd_nth : forall a b k, length a = length b -> nth k (vadd a b) 0 = nth k a 0 + nth k b 0.
Proof. induction a as [|x a IH]; intros [|y b] [|k] H; cbn in *; try discriminate; try ring; apply IH; lia. Qed.
Lemma vmul_len a b : length a = length b -> length (vmul a b) = length a.
Proof. revert b. induction a as [|x a IH]; intros [|y b] H; cbn in *; try discriminate; [reflexivity|]. f_equal. apply IH. lia. Qed.
Lemma vadd_len a b : length a = length b -> length (vadd a b) = length a.
Proof. revert b. induction a as [|x a IH]; intros [|y b] H; cbn in *; try discriminate; [reflexivity|]. f_equal. apply IH. lia. Qed.
Lemma vmul_comm : forall a b, vmul a b = vmul b a.
Proof. induction a as [|x a IH]; intros [|y b]; cbn; try reflexivity. now rewrite Rmult_comm, IH. Qed.
Lemma linear0_nth W v k : nth k (linear0 W v) 0 = if (k <? length W)%nat then dot (nth k W []) v else 0.
Proof.
  unfold linear0. destruct (Nat.ltb_spec k (length W)) as [H|H].
  - rewrite (nth_indep _ 0 (dot [] v)) by (rewrite map_length; exact H). apply (map_nth (fun row => dot row v)).
  - apply nth_overflow. rewrite map_length. exact H.
Qed.
Lemma linear_nth L v k : length (weight L) = length (bias L) -> nth k (linear L v) 0 = nth k (linear0 (weight L) v) 0 + nth k (bias L) 0.
Proof. intros H. unfold linear. apply vadd_nth. unfold linear0. now rewrite map_length. Qed.
Lemma linear_len L v : length (weight L) = length (bias L) -> length (linear L v) = length (weight L).
Proof. intros H. unfold linear. rewrite vadd_len; unfold linear0; now rewrite map_length. Qed.
Lemma linear0_len W v : length (linear0 W v) = length W. Proof. unfold linear0. apply map_length. Qed.
Lemma linear0_deriv W (h : R -> list R) d t0 : (forall k, derivable_pt_lim (fun t => nth k (h t) 0) t0 (nth k d 0)) ->
  forall k, derivable_pt_lim (fun t => nth k (linear0 W (h t)) 0) t0 (nth k (linear0 W d) 0).
Proof.
  intros H k. apply (dpl_ext (fun t => if (k <? length W)%nat then dot (nth k W []) (h t) else 0)); [intros t; now rewrite linear0_nth|]. rewrite linear0_nth.
  destruct (k <? length W)%nat; [now apply dot_deriv | apply derivable_pt_lim_const].
Qed.
Lemma linear_deriv L (h : R -> list R) d t0 : length (weight L) = length (bias L) -> (forall k, derivable_pt_lim (fun t => nth k (h t) 0) t0 (nth k d 0)) ->
  forall k, derivable_pt_lim (fun t => nth k (linear L (h t)) 0) t0 (nth k (linear0 (weight L) d) 0).
Proof.
  intros HL H k. apply (dpl_ext (fun t => nth k (linear0 (weight L) (h t)) 0 + nth k (bias L) 0)); [intros t; now rewrite linear_nth|].
  replace (nth k (linear0 (weight L) d) 0) with (nth k (linear0 (weight L) d) 0 + 0) by ring.
  apply (derivable_pt_lim_plus (fun t => nth k (linear0 (weight L) (h t)) 0) (fct_cte (nth k (bias L) 0))); [now apply linear0_deriv | apply derivable_pt_lim_const].
Qed.
(** elementwise function *)
Lemma map_deriv (g g' : R -> R) (h : R -> list R) d t0 m : (forall t, length (h t) = m) -> length d = m -> (forall k, derivable_pt_lim (fun t => nth k (h t) 0) t0 (nth k d 0)) ->
  Forall (fun v => derivable_pt_lim g v (g' v)) (h t0) -> forall k, derivable_pt_lim (fun t => nth k (map g (h t)) 0) t0 (nth k (vmul (map g' (h t0)) d) 0).
Proof.
  intros Hm Hd H HF k. destruct (Nat.lt_ge_cases k m) as [Hk|Hk].
  - rewrite vmul_nth. assert (E : forall (g : R -> R) t, nth k (map g (h t)) 0 = g (nth k (h t) 0)) by (intros g0 t; rewrite (nth_indep _ 0 (g0 0)) by (rewrite map_length, Hm; exact Hk); apply map_nth).
    rewrite E. apply (dpl_ext (fun t => g (nth k (h t) 0))); [intros t; now rewrite E|]. apply (derivable_pt_lim_comp (fun t => nth k (h t) 0) g); [apply H|].
    rewrite Forall_forall in HF. apply HF. apply nth_In. now rewrite Hm.
  - apply (dpl_ext (fun _ => 0)); [intros t; symmetry; apply nth_overflow; now rewrite map_length, Hm|]. rewrite vmul_nth, (nth_overflow d) by now rewrite Hd. rewrite Rmult_0_r. apply derivable_pt_lim_const.
Qed.
Lemma vmul_deriv (h1 h2 : R -> list R) e1 e2 t0 : (forall k, derivable_pt_lim (fun t => nth k (h1 t) 0) t0 (nth k e1 0)) -> (forall k, derivable_pt_lim (fun t => nth k (h2 t) 0) t0 (nth k e2 0)) ->
  forall k, derivable_pt_lim (fun t => nth k (vmul (h1 t) (h2 t)) 0) t0 (nth k e1 0 * nth k (h2 t0) 0 + nth k (h1 t0) 0 * nth k e2 0).
Proof.
  intros H1 H2 k. apply (dpl_ext (fun t => nth k (h1 t) 0 * nth k (h2 t) 0)); [intros t; now rewrite vmul_nth|]. apply (derivable_pt_lim_mult (fun t => nth k (h1 t) 0) (fun t => nth k (h2 t) 0)); [apply H1 | apply H2].
Qed.

(** ** One sample *)
Section One.
Variable act d1 d2 : R -> R.
Record st := { sx : list R; sf : nat -> list R; ss : nat -> nat -> list R }.
Definition r1 (s : st) (L : layer) : st :=
  {| sx := linear L (map act (sx s)); sf := fun i => linear0 (weight L) (vmul (map d1 (sx s)) (sf s i));
     ss := fun i j => linear0 (weight L) (vadd (vmul (map d1 (sx s)) (ss s i j)) (vmul (map d2 (sx s)) (vmul (sf s i) (sf s j)))) |}.
Definition s0 (L : layer) (y : list R) : st := {| sx := linear L y; sf := fun i => map (fun row => nth i row 0) (weight L); ss := fun _ _ => map (fun _ => 0) (weight L) |}.
Definition len (s : st) (m : nat) := length (sx s) = m /\ (forall i, length (sf s i) = m) /\ (forall i j, length (ss s i j) = m).
Lemma len0 L y : length (weight L) = length (bias L) -> len (s0 L y) (length (weight L)).
Proof. intros H. split; [now apply linear_len|]. split; intros; apply map_length. Qed.
Lemma len1 s m L : length (weight L) = length (bias L) -> len s m -> len (r1 s L) (length (weight L)).
Proof. intros H Hs. split; [now apply linear_len|]. split; intros; apply linear0_len. Qed.
(** derivatives at the point y in the direction i *)
Definition D1 (S : list R -> st) (y : list R) := forall i k, (i < length y)%nat -> derivable_pt_lim (fun t => nth k (sx (S (upd y i t))) 0) (nth i y 0) (nth k (sf (S y) i) 0).
Definition D2 (S : list R -> st) (y : list R) := forall i j k, (i < length y)%nat -> derivable_pt_lim (fun t => nth k (sf (S (upd y i t)) j) 0) (nth i y 0) (nth k (ss (S y) i j) 0).
Lemma D1_0 L y : length (weight L) = length (bias L) -> D1 (s0 L) y.
Proof.
  intros HL i k Hi. cbn [s0 sx sf].
  replace (nth k (map (fun row => nth i row 0) (weight L)) 0) with (nth k (linear0 (weight L) (upd (map (fun _ => 0) y) i 1)) 0).
  - apply linear_deriv; [exact HL|]. intros l. apply (dpl_ext (fun t => if (l =? i)%nat then t else nth l y 0)); [intros t; now rewrite upd_nth|].
    rewrite upd_nth by now rewrite map_length. destruct (l =? i)%nat; [apply derivable_pt_lim_id|].
    replace (nth l (map (fun _ => 0) y) 0) with 0; [apply derivable_pt_lim_const|]. clear. revert l. induction y as [|a y IH]; intros [|l]; cbn; auto.
  - f_equal. unfold linear0. apply map_ext. intros row. revert i Hi. revert row. induction y as [|a y IH]; intros row i Hi; cbn in Hi; [lia|].
    destruct i as [|i]; cbn [map upd]; destruct row as [|r row]; try reflexivity.
    + cbn [dot nth]. replace (dot row (map (fun _ => 0) y)) with 0; [ring|]. clear. revert row. induction y as [|a y IH]; intros [|r row]; cbn; try reflexivity. rewrite <- IH. ring.
    + cbn [dot nth]. rewrite IH by lia. ring.
Qed.
Lemma D2_0 L y : D2 (s0 L) y.
Proof. intros i j k Hi. cbn [s0 sf ss]. replace (nth k (map (fun _ => 0) (weight L)) 0) with 0; [apply derivable_pt_lim_const|]. generalize (weight L). clear. intros W. revert k. induction W as [|w W IH]; intros [|k]; cbn; auto. Qed.
Lemma D1_step S m L y : length (weight L) = length (bias L) -> (forall y, len (S y) m) -> D1 S y -> Forall (fun v => derivable_pt_lim act v (d1 v)) (sx (S y)) -> D1 (fun y => r1 (S y) L) y.
Proof.
  intros HL Hm H HF i k Hi. cbn [r1 sx sf]. apply (linear_deriv L (fun t => map act (sx (S (upd y i t))))); [exact HL|].
  assert (E : S y = S (upd y i (nth i y 0))) by now rewrite upd_same. rewrite E at 1 || idtac.
  intros l. pose proof (map_deriv act d1 (fun t => sx (S (upd y i t))) (sf (S y) i) (nth i y 0) m) as Q. cbv beta in Q. rewrite <- E in Q.
  apply Q; [intros t; apply (Hm (upd y i t)) | apply (Hm y) | intros l'; now apply H | exact HF].
Qed.
Lemma D2_step S m L y : (forall y, len (S y) m) -> D1 S y -> D2 S y -> Forall (fun v => derivable_pt_lim d1 v (d2 v)) (sx (S y)) -> D2 (fun y => r1 (S y) L) y.
Proof.
  intros Hm H1 H2 HF i j k Hi. cbn [r1 sf ss].
  assert (E : S y = S (upd y i (nth i y 0))) by now rewrite upd_same.
  apply (linear0_deriv (weight L) (fun t => vmul (map d1 (sx (S (upd y i t)))) (sf (S (upd y i t)) j))). intros l.
  pose proof (vmul_deriv (fun t => map d1 (sx (S (upd y i t)))) (fun t => sf (S (upd y i t)) j) (vmul (map d2 (sx (S y))) (sf (S y) i)) (ss (S y) i j) (nth i y 0)) as Q. cbv beta in Q. rewrite <- E in Q.
  rewrite vadd_nth by (rewrite !vmul_len; rewrite ?map_length, ?vmul_len; destruct (Hm y) as (A & B & C); rewrite ?A, ?B, ?C; reflexivity). rewrite !vmul_nth.
  replace (nth l (map d1 (sx (S y))) 0 * nth l (ss (S y) i j) 0 + nth l (map d2 (sx (S y))) 0 * (nth l (sf (S y) i) 0 * nth l (sf (S y) j) 0))
    with (nth l (vmul (map d2 (sx (S y))) (sf (S y) i)) 0 * nth l (sf (S y) j) 0 + nth l (map d1 (sx (S y))) 0 * nth l (ss (S y) i j) 0) by (rewrite vmul_nth; ring).
  apply Q; [|intros l'; now apply H2]. intros l'.
  pose proof (map_deriv d1 d2 (fun t => sx (S (upd y i t))) (sf (S y) i) (nth i y 0) m) as Q'. cbv beta in Q'. rewrite <- E in Q'.
  apply Q'; [intros t; apply (Hm (upd y i t)) | apply (Hm y) | intros l''; now apply H1 | exact HF].
Qed.
(** through all layers *)
Definition run (N : net) (y : list R) : st := match fc_rest N with None => s0 (fc_in N) y | Some (hs, out) => r1 (fold_left r1 hs (s0 (fc_in N) y)) out end.
Definition square_layers (N : net) := forall L, In L (layers N) -> length (weight L) = length (bias L).
Lemma sx_fold hs : forall s, sx (fold_left r1 hs s) = act_layers act hs (sx s).
Proof. induction hs as [|L hs IH]; intros s; [reflexivity|]. cbn [fold_left]. rewrite IH. reflexivity. Qed.
Lemma run_x N y : sx (run N y) = forward1 act N y.
Proof. unfold run, forward1. destruct (fc_rest N) as [(hs & out)|]; [|reflexivity]. cbn [r1 sx]. now rewrite sx_fold. Qed.
Lemma D_fold hs : forall S m y, (forall L, In L hs -> length (weight L) = length (bias L)) -> (forall y, len (S y) m) ->
  D1 S y -> Forall (fun v => derivable_pt_lim act v (d1 v)) (values act hs (sx (S y))) ->
  (exists m', forall y, len (fold_left r1 hs (S y)) m') /\ D1 (fun y => fold_left r1 hs (S y)) y /\ Forall (fun v => derivable_pt_lim act v (d1 v)) (sx (fold_left r1 hs (S y)))
  /\ (D2 S y -> Forall (fun v => derivable_pt_lim d1 v (d2 v)) (values act hs (sx (S y))) -> D2 (fun y => fold_left r1 hs (S y)) y /\ Forall (fun v => derivable_pt_lim d1 v (d2 v)) (sx (fold_left r1 hs (S y)))).
Proof.
  induction hs as [|L hs IH]; intros S m y HL Hm H1 HF; cbn [values] in HF.
  - rewrite app_nil_r in HF. split; [exists m; exact Hm|]. split; [exact H1|]. split; [exact HF|]. cbn [values]. rewrite app_nil_r. auto.
  - apply Forall_app in HF. destruct HF as (HF0 & HF). pose proof (HL L (or_introl eq_refl)) as HLL.
    destruct (IH (fun y => r1 (S y) L) (length (weight L)) y) as (A & B & C & D); [intros L' H'; apply HL; now right | intros y'; now apply (len1 _ m) | now apply (D1_step S m) | exact HF|].
    split; [exact A|]. split; [exact B|]. split; [exact C|]. intros H2 HF2. cbn [values] in HF2. apply Forall_app in HF2. destruct HF2 as (HF20 & HF2). apply D; [now apply (D2_step S m) | exact HF2].
Qed.
Lemma run_D N y : square_layers N -> Forall (fun v => derivable_pt_lim act v (d1 v)) (visited act N y) ->
  D1 (run N) y /\ (Forall (fun v => derivable_pt_lim d1 v (d2 v)) (visited act N y) -> D2 (run N) y).
Proof.
  intros HL HF. unfold visited in HF. unfold visited, square_layers, layers in *. unfold run. destruct (fc_rest N) as [(hs & out)|].
  - destruct (D_fold hs (s0 (fc_in N)) (length (weight (fc_in N))) y) as ((m & Hm) & B & C & D).
    + intros L H. apply HL. right. apply in_or_app. now left.
    + intros y'. apply len0, HL. now left.
    + apply D1_0, HL. now left.
    + exact HF.
    + assert (Ho : length (weight out) = length (bias out)) by (apply HL; right; apply in_or_app; right; now left).
      split; [apply (D1_step (fun y => fold_left r1 hs (s0 (fc_in N) y)) m); assumption|]. intros HF2. destruct (D (D2_0 _ _) HF2) as (D' & D'').
      apply (D2_step (fun y => fold_left r1 hs (s0 (fc_in N) y)) m); assumption.
  - split; [apply D1_0, HL; now left | intros _; apply D2_0].
Qed.
Lemma run_sym N y i j : ss (run N y) i j = ss (run N y) j i.
Proof.
  assert (F : forall hs s, (forall i j, ss s i j = ss s j i) -> forall i j, ss (fold_left r1 hs s) i j = ss (fold_left r1 hs s) j i).
  { induction hs as [|L hs IH]; intros s H; [exact H|]. cbn [fold_left]. apply IH. intros i' j'. cbn [r1 ss]. now rewrite H, (vmul_comm (sf s i')). }
  unfold run. destruct (fc_rest N) as [(hs & out)|]; [|reflexivity]. cbn [r1 ss]. rewrite (F hs) by reflexivity. now rewrite (vmul_comm (sf _ i)).
Qed.
End One.

(** ** Batches *)
Lemma fits_square n N : fits_all n (layers N) = true -> square_layers N.
Proof.
  unfold square_layers. generalize (layers N). intros Ls. revert n. induction Ls as [|L Ls IH]; intros n H L' HI; [destruct HI|]. cbn [fits_all] in H. apply andb_true_iff in H. destruct H as (H & H'). destruct HI as [<-|HI]; [|now apply (IH _ H')].
  unfold fits in H. apply andb_true_iff in H. apply Nat.eqb_eq, (proj2 H).
Qed.
Lemma combine_maps {A B C} (f : A -> B) (g : A -> C) l : combine (map f l) (map g l) = map (fun x => (f x, g x)) l.
Proof. induction l; cbn; congruence. Qed.
Section Batch.
Variable act d1 d2 : R -> R.
Notation r1 := (r1 act d1 d2).
Definition Rep (n : nat) (X : list (list R)) (S : list R -> st) (xfs : list (list R) * list (list (list R)) * list (list (list R))) : Prop :=
  xfs = (map (fun y => sx (S y)) X, map (fun i => map (fun y => sf (S y) i) X) (seq 0 n), map (fun i => map (fun y => ss (S y) i i) X) (seq 0 n)).
Lemma Rep_round n X S xfs L : Rep n X S xfs -> Rep n X (fun y => r1 (S y) L) (round act d1 d2 xfs L).
Proof.
  intros ->. unfold Rep, round. rewrite !map_map. f_equal; [f_equal|].
  - unfold tlin, tmul, bmul. rewrite !map_map. apply map_ext. intros i. rewrite combine_maps, !map_map. apply map_ext. intros y. reflexivity.
  - unfold tlin, tadd, tmul, badd, bmul, square. rewrite !map_map, combine_maps, !map_map. apply map_ext. intros i. cbn [fst snd]. rewrite !map_map, !combine_maps, !map_map, combine_maps, !map_map. apply map_ext. intros y. cbn [fst snd r1 ss].
    do 3 f_equal. generalize (sf (S y) i). clear. intros v. induction v as [|a v IH]; cbn; congruence.
Qed.
Lemma Rep_fold n X hs : forall S xfs, Rep n X S xfs -> Rep n X (fun y => fold_left r1 hs (S y)) (fold_left (round act d1 d2) hs xfs).
Proof. induction hs as [|L hs IH]; intros S xfs H; [exact H|]. cbn [fold_left]. apply (IH (fun y => r1 (S y) L)). now apply Rep_round. Qed.
Lemma f_init_map n (X : list (list R)) W : f_init n (length X) W = map (fun i => map (fun _ => map (fun row => nth i row 0) W) X) (seq 0 n).
Proof. unfold f_init. apply map_ext. intros i. generalize 0%nat. induction X as [|x X IH]; intros k; cbn; [reflexivity|]. f_equal. apply IH. Qed.
Lemma Rep_init n X L : Rep n X (s0 L) (map (linear L) X, f_init n (length X) (weight L), zeros_like (f_init n (length X) (weight L))).
Proof. unfold Rep. rewrite f_init_map. f_equal. unfold zeros_like. rewrite !map_map. apply map_ext. intros i. rewrite !map_map. apply map_ext. intros y. rewrite ?map_map. reflexivity. Qed.
Lemma swap_map {A} (d : A) n X (g : list R -> nat -> A) : swap d n (length X) (map (fun i => map (fun y => g y i) X) (seq 0 n)) = map (fun y => map (g y) (seq 0 n)) X.
Proof.
  unfold swap. transitivity (map (fun b => map (fun i => g (nth b X []) i) (seq 0 n)) (seq 0 (length X))).
  - apply map_ext_in. intros b Hb. apply in_seq in Hb. apply map_ext_in. intros i Hi. apply in_seq in Hi.
    rewrite (nth_indep _ [] (map (fun y => g y 0%nat) X)) by (rewrite map_length, seq_length; lia). rewrite (map_nth (fun i => map (fun y => g y i) X)), seq_nth by lia. cbn [Nat.add].
    rewrite (nth_indep _ d (g [] i)) by (rewrite map_length; lia). apply (map_nth (fun y => g y i)).
  - clear. set (h := fun y => map (g y) (seq 0 n)). change (map (fun b => h (nth b X [])) (seq 0 (length X)) = map h X). rewrite <- (map_map (fun b => nth b X []) h). f_equal.
    clear. induction X as [|x X IH]; [reflexivity|]. cbn [length seq map nth]. f_equal. rewrite <- seq_shift, map_map. exact IH.
Qed.
Lemma derivatives_spec n N X : ok_batch n X = true -> fits_all n (layers N) = true ->
  forward_and_derivatives act d1 d2 n N X = Ok (map (forward1 act N) X, map (fun y => map (fun i => sf (run act d1 d2 N y) i) (seq 0 n)) X, map (fun y => map (fun i => ss (run act d1 d2 N y) i i) (seq 0 n)) X).
Proof.
  intros HX HN. unfold forward_and_derivatives. rewrite HX, HN. cbn [andb].
  assert (G : Rep n X (run act d1 d2 N) (match fc_rest N with None => (map (linear (fc_in N)) X, f_init n (length X) (weight (fc_in N)), zeros_like (f_init n (length X) (weight (fc_in N))))
     | Some (hs, out) => round act d1 d2 (fold_left (round act d1 d2) hs (map (linear (fc_in N)) X, f_init n (length X) (weight (fc_in N)), zeros_like (f_init n (length X) (weight (fc_in N))))) out end)).
  { unfold run. destruct (fc_rest N) as [(hs & out)|]; [|apply Rep_init]. apply Rep_round. apply Rep_fold, Rep_init. }
  unfold Rep in G. cbv zeta. rewrite G. rewrite (swap_map [] n X (fun y i => sf (run act d1 d2 N y) i)), (swap_map [] n X (fun y i => ss (run act d1 d2 N y) i i)). do 3 f_equal.
  apply map_ext. intros y. apply run_x.
Qed.
Lemma first_spec n N X : ok_batch n X = true -> fits_all n (layers N) = true ->
  forward_and_first_derivatives act d1 n N X = Ok (map (forward1 act N) X, map (fun y => map (fun i => sf (run act d1 d2 N y) i) (seq 0 n)) X).
Proof.
  intros HX HN. pose proof (derivatives_spec n N X HX HN) as H. unfold forward_and_derivatives, forward_and_first_derivatives in *. rewrite HX, HN in *. cbn [andb] in *.
  assert (R : forall xfs L, fst (round act d1 d2 xfs L) = round1 act d1 (fst xfs) L) by (intros ((x & f) & s) L; reflexivity).
  assert (RF : forall hs xfs, fst (fold_left (round act d1 d2) hs xfs) = fold_left (round1 act d1) hs (fst xfs)) by (induction hs as [|L hs IH]; intros xfs; [reflexivity|]; cbn [fold_left]; rewrite IH, R; reflexivity).
  cbv zeta in *. destruct (fc_rest N) as [(hs & out)|]; [|congruence].
  match type of H with context [round act d1 d2 ?a ?b] => destruct (round act d1 d2 a b) as ((x' & f') & s') eqn:E end.
  apply (f_equal fst) in E. rewrite R, RF in E. cbn [fst] in E. rewrite E. congruence.
Qed.
Definition RepH (n : nat) (X : list (list R)) (S : list R -> st) (xfH : list (list R) * list (list (list R)) * list (list (list (list R)))) : Prop :=
  xfH = (map (fun y => sx (S y)) X, map (fun i => map (fun y => sf (S y) i) X) (seq 0 n), map (fun i => map (fun j => map (fun y => ss (S y) i j) X) (seq 0 n)) (seq 0 n)).
Lemma RepH_round n X S xfH L : RepH n X S xfH -> RepH n X (fun y => r1 (S y) L) (roundH act d1 d2 xfH L).
Proof.
  intros ->. unfold RepH, roundH. rewrite !map_map. f_equal; [f_equal|].
  - unfold tlin, tmul, bmul. rewrite !map_map. apply map_ext. intros i. rewrite combine_maps, !map_map. apply map_ext. intros y. reflexivity.
  - unfold outer. rewrite !map_map, combine_maps, !map_map. apply map_ext. intros i. cbn [fst snd]. unfold tlin, tadd, tmul, badd. rewrite !map_map, combine_maps, !map_map. apply map_ext. intros j. cbn [fst snd].
    unfold bmul. rewrite !combine_maps, !map_map, !combine_maps, !map_map, combine_maps, !map_map. apply map_ext. intros y. reflexivity.
Qed.
Lemma full_spec n N X : ok_batch n X = true -> fits_all n (layers N) = true ->
  forward_and_full_derivatives act d1 d2 n N X = Ok (map (forward1 act N) X, map (fun y => map (fun i => sf (run act d1 d2 N y) i) (seq 0 n)) X,
    map (fun y => map (fun j => map (fun i => ss (run act d1 d2 N y) i j) (seq 0 n)) (seq 0 n)) X).
Proof.
  intros HX HN. unfold forward_and_full_derivatives. rewrite HX, HN. cbn [andb]. cbv zeta. set (init := (map (linear (fc_in N)) X, f_init n (length X) (weight (fc_in N)), map (fun _ => zeros_like (f_init n (length X) (weight (fc_in N)))) (f_init n (length X) (weight (fc_in N))))).
  assert (Hi : RepH n X (s0 (fc_in N)) init).
  { unfold init, RepH. rewrite f_init_map. f_equal. rewrite map_map. apply map_ext. intros i. unfold zeros_like. rewrite !map_map. apply map_ext. intros j. rewrite !map_map. apply map_ext. intros y. rewrite ?map_map. reflexivity. }
  assert (G : RepH n X (run act d1 d2 N) (match fc_rest N with None => init | Some (hs, out) => roundH act d1 d2 (fold_left (roundH act d1 d2) hs init) out end)).
  { unfold run. destruct (fc_rest N) as [(hs & out)|]; [|exact Hi]. apply RepH_round. revert Hi. generalize init. generalize (s0 (fc_in N)). clear. induction hs as [|L hs IH]; intros S xfH H; [exact H|]. cbn [fold_left]. apply (IH (fun y => r1 (S y) L)). now apply RepH_round. }
  unfold RepH in G. rewrite G. rewrite (swap_map [] n X (fun y i => sf (run act d1 d2 N y) i)). f_equal. f_equal; [f_equal; apply map_ext; intros y; apply run_x|].
  unfold swap02. transitivity (map (fun b => (fun y => map (fun j => map (fun i => ss (run act d1 d2 N y) i j) (seq 0 n)) (seq 0 n)) (nth b X [])) (seq 0 (length X))).
  - apply map_ext_in. intros b Hb. apply in_seq in Hb. apply map_ext_in. intros j Hj. apply in_seq in Hj. apply map_ext_in. intros i Hi'. apply in_seq in Hi'.
    rewrite (nth_indep _ [] (map (fun j => map (fun y => ss (run act d1 d2 N y) 0%nat j) X) (seq 0 n))) by (rewrite map_length, seq_length; lia). rewrite (map_nth (fun i => map (fun j => map (fun y => ss (run act d1 d2 N y) i j) X) (seq 0 n))), seq_nth by lia. cbn [Nat.add].
    rewrite (nth_indep _ [] (map (fun y => ss (run act d1 d2 N y) i 0%nat) X)) by (rewrite map_length, seq_length; lia). rewrite (map_nth (fun j => map (fun y => ss (run act d1 d2 N y) i j) X)), seq_nth by lia. cbn [Nat.add].
    rewrite (nth_indep _ [] (ss (run act d1 d2 N []) i j)) by (rewrite map_length; lia). apply (map_nth (fun y => ss (run act d1 d2 N y) i j)).
  - rewrite <- (map_map (fun b => nth b X []) (fun y => map (fun j => map (fun i => ss (run act d1 d2 N y) i j) (seq 0 n)) (seq 0 n))). f_equal.
    clear. induction X as [|x X IH]; [reflexivity|]. cbn [length seq map nth]. f_equal. rewrite <- seq_shift, map_map. exact IH.
Qed.
End Batch.
