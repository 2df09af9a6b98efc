(** Lemmas for C38: Gram matrices, sums over pairs. *)
From Coq Require Import Reals Lra Lia Permutation.
From Verif Require Import M_Base M_MMD S_Stats S_Distance S_MMD L_Stats L_Distance L_PosDef.
Open Scope R_scope.

Lemma rsuml_total l : rsuml l = total l.
Proof. reflexivity. Qed.
Lemma rset_len {A} (l : list A) : forall i x, length (rset l i x) = length l.
Proof. induction l as [|y l IH]; intros [|i] x; cbn; congruence. Qed.
Lemma rset_nth {A} (l : list A) d : forall i x k, (i < length l)%nat -> nth k (rset l i x) d = if (k =? i)%nat then x else nth k l d.
Proof. induction l as [|y l IH]; intros [|i] x [|k] H; cbn in *; try lia; try reflexivity. apply IH. lia. Qed.
Definition Shape (m n : nat) (K : list (list R)) : Prop := length K = m /\ forall i, (i < m)%nat -> length (nth i K []) = n.
Definition entry (K : list (list R)) (i j : nat) : R := nth j (nth i K []) 0.
Lemma mset_shape m n K i j v : (i < m)%nat -> Shape m n K -> Shape m n (mset K i j v).
Proof.
  intros Hi [H1 H2]. unfold mset. split; [rewrite rset_len; exact H1|]. intros k Hk. rewrite rset_nth by lia. destruct (k =? i)%nat; [rewrite rset_len; apply H2; exact Hi | apply H2; exact Hk].
Qed.
Lemma mset_entry m n K i j v a b : (i < m)%nat -> (j < n)%nat -> Shape m n K -> entry (mset K i j v) a b = if ((a =? i) && (b =? j))%nat%bool then v else entry K a b.
Proof.
  intros Hi Hj [H1 H2]. unfold mset, entry. rewrite rset_nth by lia. destruct (Nat.eqb_spec a i) as [->|Ha]; cbn [andb]; [|reflexivity]. rewrite rset_nth by (rewrite H2; assumption). reflexivity.
Qed.
Lemma zeros_shape m n : Shape m n (zeros m n).
Proof. unfold zeros. split; [apply repeat_length|]. intros i Hi. rewrite nth_indep with (d' := repeat 0 n) by (rewrite repeat_length; exact Hi). rewrite nth_repeat. apply repeat_length. Qed.
Lemma upper_in m i j : In (i, j) (upper m) <-> (i <= j < m)%nat.
Proof.
  unfold upper. rewrite in_flat_map. split.
  - intros (x & Hx & H). apply in_map_iff in H. destruct H as (y & E & Hy). inversion E; subst. apply in_seq in Hx. apply in_seq in Hy. lia.
  - intros H. exists i. split; [apply in_seq; lia|]. apply in_map_iff. exists j. split; [reflexivity | apply in_seq; lia].
Qed.
Definition pair_dec (x y : nat * nat) : {x = y} + {x <> y}.
Proof. decide equality; apply Nat.eq_dec. Defined.
Section Fill.
Variable k : vec -> vec -> R.
Variable s : list vec.
Let m := length s.
Let step K ij := mset (mset K (snd ij) (fst ij) (k (row s (fst ij)) (row s (snd ij)))) (fst ij) (snd ij) (k (row s (fst ij)) (row s (snd ij))).
Lemma fill_spec L : forall K, (forall i j, In (i, j) L -> (i <= j < m)%nat) -> Shape m m K ->
  Shape m m (fold_left step L K) /\
  forall a b, (a < m)%nat -> (b < m)%nat -> entry (fold_left step L K) a b = if in_dec pair_dec (Nat.min a b, Nat.max a b) L then k (row s (Nat.min a b)) (row s (Nat.max a b)) else entry K a b.
Proof.
  induction L as [|(i, j) L IH]; intros K HL HK.
  - split; [exact HK|]. intros a b _ _. destruct (in_dec _ _ []) as [[]|]. reflexivity.
  - pose proof (HL i j (or_introl eq_refl)) as Hij. cbn [fold_left]. set (v := k (row s i) (row s j)).
    assert (HK1 : Shape m m (mset K j i v)) by (apply mset_shape; [lia | exact HK]). assert (HK2 : Shape m m (step K (i, j))) by (unfold step; cbn [fst snd]; apply mset_shape; [lia | exact HK1]).
    destruct (IH (step K (i, j)) (fun i' j' Hin => HL i' j' (or_intror Hin)) HK2) as [IH1 IH2]. split; [exact IH1|]. intros a b Ha Hb. rewrite IH2 by assumption. clear IH1 IH2.
    assert (E : entry (step K (i, j)) a b = if ((a =? i) && (b =? j) || (a =? j) && (b =? i))%nat%bool then v else entry K a b).
    { unfold step. cbn [fst snd]. rewrite (mset_entry m m) by (assumption || lia). rewrite (mset_entry m m) by (assumption || lia). fold v. destruct ((a =? i) && (b =? j))%nat%bool; cbn [orb]; reflexivity. }
    rewrite E. destruct (in_dec _ _ L) as [Hin|Hin]; destruct (in_dec _ _ ((i, j) :: L)) as [Hin'|Hin']; try reflexivity.
    + exfalso. apply Hin'. right. exact Hin.
    + destruct Hin' as [Hin'|Hin']; [|contradiction]. assert (H1 : i = Nat.min a b) by congruence. assert (H2 : j = Nat.max a b) by congruence. clear Hin'.
      destruct (((a =? i) && (b =? j) || (a =? j) && (b =? i))%nat%bool) eqn:Eb; [unfold v; rewrite H1, H2; reflexivity|]. exfalso. apply Bool.orb_false_iff in Eb. destruct Eb as [E1 E2].
      apply Bool.andb_false_iff in E1. apply Bool.andb_false_iff in E2. rewrite !Nat.eqb_neq in E1, E2. lia.
    + destruct (((a =? i) && (b =? j) || (a =? j) && (b =? i))%nat%bool) eqn:Eb; [|reflexivity]. exfalso. apply Hin'. left. apply Bool.orb_true_iff in Eb. rewrite !Bool.andb_true_iff, !Nat.eqb_eq in Eb. f_equal; lia.
Qed.
Lemma gram_sym_spec : Shape m m (gram_sym k s) /\ forall a b, (a < m)%nat -> (b < m)%nat -> entry (gram_sym k s) a b = k (row s (Nat.min a b)) (row s (Nat.max a b)).
Proof.
  destruct (fill_spec (upper m) (zeros m m) (fun i j H => proj1 (upper_in m i j) H) (zeros_shape m m)) as [H1 H2]. split; [exact H1|]. intros a b Ha Hb. unfold gram_sym. fold m. fold step. rewrite H2 by assumption.
  destruct (in_dec _ _ _) as [|Hn]; [reflexivity|]. exfalso. apply Hn. apply upper_in. lia.
Qed.
End Fill.
Lemma matrix_ext m n K K' : Shape m n K -> Shape m n K' -> (forall a b, (a < m)%nat -> (b < n)%nat -> entry K a b = entry K' a b) -> K = K'.
Proof.
  intros [H1 H2] [H3 H4] H. apply (nth_ext _ _ [] []); [congruence|]. intros i Hi. rewrite H1 in Hi. apply (nth_ext _ _ 0 0); [rewrite H2, H4 by exact Hi; reflexivity|]. intros j Hj. rewrite H2 in Hj by exact Hi. apply H; assumption.
Qed.
Lemma gram_all_row k s1 s2 i : (i < length s1)%nat -> nth i (gram_all k s1 s2) [] = map (k (row s1 i)) s2.
Proof. intros H. unfold gram_all. rewrite nth_indep with (d' := map (k []) s2) by (rewrite map_length; exact H). exact (map_nth (fun x => map (k x) s2) s1 [] i). Qed.
Lemma gram_all_shape k s1 s2 : Shape (length s1) (length s2) (gram_all k s1 s2).
Proof. split; [apply map_length|]. intros i Hi. rewrite gram_all_row by exact Hi. apply map_length. Qed.
Lemma gram_all_entry k s1 s2 a b : (a < length s1)%nat -> (b < length s2)%nat -> entry (gram_all k s1 s2) a b = k (row s1 a) (row s2 b).
Proof. intros Ha Hb. unfold entry. rewrite gram_all_row by exact Ha. rewrite nth_indep with (d' := k (row s1 a) []) by (rewrite map_length; exact Hb). apply map_nth. Qed.
Lemma gram_sym_all k s : Symmetric k -> gram_sym k s = gram_all k s s.
Proof.
  intros Hk. destruct (gram_sym_spec k s) as [H1 H2]. apply (matrix_ext (length s) (length s)); [exact H1 | apply gram_all_shape|]. intros a b Ha Hb. rewrite H2, gram_all_entry by assumption.
  destruct (Nat.le_ge_cases a b) as [H|H]; [rewrite Nat.min_l, Nat.max_r by exact H; reflexivity | rewrite Nat.min_r, Nat.max_l by exact H; apply Hk].
Qed.

(** sums *)
Lemma flat_total {A} (f : A -> list R) l : total (flat_map f l) = total (map (fun x => total (f x)) l).
Proof. induction l as [|x l IH]; [reflexivity|]. cbn [flat_map map]. rewrite total_app, total_cons, IH. reflexivity. Qed.
Definition psums (k : vec -> vec -> R) xs ys : R := total (map (fun x => total (map (k x) ys)) xs).
Lemma msum_all k s1 s2 : msum (gram_all k s1 s2) = psums k s1 s2.
Proof. unfold msum, gram_all. rewrite map_map. reflexivity. Qed.
Lemma flat_length {A B C} (f : A -> B -> C) xs ys : length (flat_map (fun x => map (f x) ys) xs) = (length xs * length ys)%nat.
Proof. induction xs as [|x xs IH]; [reflexivity|]. cbn [flat_map length]. rewrite app_length, map_length, IH. lia. Qed.
Lemma mean_pairs_sum k xs ys : mean_pairs k xs ys = psums k xs ys / INR (length xs * length ys).
Proof. unfold mean_pairs, average. rewrite flat_total, flat_length. reflexivity. Qed.
Lemma psums_sym k xs ys : Symmetric k -> psums k xs ys = psums k ys xs.
Proof. intros Hk. unfold psums. rewrite total_swap. apply f_equal, map_ext. intros y. apply f_equal, map_ext. intros x. apply Hk. Qed.
Lemma total_perm l l' : Permutation l l' -> total l = total l'.
Proof. intros H. induction H; rewrite ?total_cons; lra. Qed.
Lemma psums_perm k xs xs' ys ys' : Permutation xs xs' -> Permutation ys ys' -> psums k xs ys = psums k xs' ys'.
Proof.
  intros H1 H2. unfold psums. transitivity (total (map (fun x => total (map (k x) ys')) xs)).
  - apply f_equal, map_ext. intros x. apply total_perm, Permutation_map, H2.
  - apply total_perm, Permutation_map, H1.
Qed.
Lemma psums_opp k xs ys : psums (fun x y => - k x y) xs ys = - psums k xs ys.
Proof.
  unfold psums. transitivity (total (map (fun x => (-1) * total (map (k x) ys)) xs)); [|rewrite total_scale; ring]. apply f_equal, map_ext. intros x. rewrite <- total_scale. apply f_equal, map_ext. intros y. ring.
Qed.

(** off-diagonal sums *)
Lemma total_seq (f : nat -> R) : forall n a, total (map f (seq a (S n))) = total (map f (seq a n)) + f (a + n)%nat.
Proof. intros n a. rewrite seq_S, map_app, total_app. cbn [map]. rewrite total_cons. change (total []) with 0. lra. Qed.
Lemma enum_map {A B} (f : nat -> A -> B) d (l : list A) : map (fun ix => f (fst ix) (snd ix)) (enum l) = map (fun i => f i (nth i l d)) (seq 0 (length l)).
Proof.
  unfold enum. assert (H : forall a, map (fun ix => f (fst ix) (snd ix)) (combine (seq a (length l)) l) = map (fun i => f i (nth (i - a) l d)) (seq a (length l))).
  { induction l as [|x l IH]; intros a; [reflexivity|]. cbn [length seq combine map fst snd]. rewrite Nat.sub_diag. f_equal. rewrite IH. apply map_ext_in. intros i Hi. apply in_seq in Hi. replace (i - a)%nat with (S (i - S a)) by lia. reflexivity. }
  rewrite (H 0%nat). apply map_ext. intros i. rewrite Nat.sub_0_r. reflexivity.
Qed.
Definition offsum (k : vec -> vec -> R) (xs : list vec) : R :=
  total (map (fun i => total (map (fun j => if (i =? j)%nat then 0 else k (row xs i) (row xs j)) (seq 0 (length xs)))) (seq 0 (length xs))).
Lemma offsum_diag k xs : msum (drop_diag (gram_all k xs xs)) = offsum k xs.
Proof.
  unfold msum, drop_diag. rewrite map_map. rewrite (enum_map (fun i r => rsuml (map (fun jv => if (i =? fst jv)%nat then snd jv - snd jv else snd jv) (enum r))) []).
  unfold offsum, gram_all at 2. rewrite map_length. rewrite rsuml_total. apply total_ext. intros i Hi. apply in_seq in Hi. rewrite gram_all_row by lia.
  rewrite rsuml_total. rewrite (enum_map (fun j v => if (i =? j)%nat then v - v else v) 0). rewrite map_length. apply total_ext. intros j Hj. apply in_seq in Hj.
  rewrite nth_indep with (d' := k (row xs i) []) by (rewrite map_length; lia). change (nth j (map (k (row xs i)) xs) (k (row xs i) [])) with (nth j (map (k (row xs i)) xs) (k (row xs i) [])). rewrite map_nth. fold (row xs j). destruct (i =? j)%nat; [ring | reflexivity].
Qed.
Lemma row_nth (xs : list vec) i : (i < length xs)%nat -> nth_error xs i = Some (row xs i).
Proof. intros H. apply nth_error_nth'. exact H. Qed.
Lemma distinct_total k xs : total (map (fun xy => k (fst xy) (snd xy)) (distinct_pairs xs)) = offsum k xs.
Proof.
  unfold distinct_pairs, offsum. rewrite flat_map_concat_map, concat_map, map_map, <- flat_map_concat_map, flat_total. apply total_ext. intros i Hi. apply in_seq in Hi.
  rewrite flat_map_concat_map, concat_map, map_map, <- flat_map_concat_map, flat_total. apply total_ext. intros j Hj. apply in_seq in Hj. rewrite !row_nth by lia. destruct (i =? j)%nat; [reflexivity|]. cbn [map fst snd]. rewrite total_cons. change (total []) with 0. lra.
Qed.
Lemma length_flat {A B} (f : A -> list B) c l : (forall x, In x l -> length (f x) = c) -> length (flat_map f l) = (length l * c)%nat.
Proof. induction l as [|x l IH]; intros H; [reflexivity|]. cbn [flat_map length]. rewrite app_length, IH, (H x (or_introl eq_refl)) by (intros y Hy; apply H; right; exact Hy). lia. Qed.
Lemma distinct_len {A} (xs : list A) : length (distinct_pairs xs) = (length xs * (length xs - 1))%nat.
Proof.
  unfold distinct_pairs. rewrite (length_flat _ (length xs - 1)); [rewrite seq_length; reflexivity|]. intros i Hi. apply in_seq in Hi.
  assert (Hs : forall i, (i < length xs)%nat -> exists x, nth_error xs i = Some x). { intros i' H. destruct (nth_error xs i') as [x|] eqn:E; [eexists; reflexivity|]. apply nth_error_None in E. lia. }
  assert (G : forall n, (n <= length xs)%nat -> length (flat_map (fun j => match nth_error xs i, nth_error xs j with Some x, Some y => if (i =? j)%nat then [] else [(x, y)] | _, _ => [] end) (seq 0 n)) = (if (i <? n)%nat then n - 1 else n)%nat).
  { induction n as [|n IHn]; intros Hn; [reflexivity|]. rewrite seq_S, flat_map_app, app_length, IHn by lia. cbn [flat_map Nat.add]. rewrite app_nil_r. destruct (Hs i ltac:(lia)) as (x & ->). destruct (Hs n ltac:(lia)) as (y & ->).
    destruct (Nat.eqb_spec i n) as [E|E]; destruct (Nat.ltb_spec i n); destruct (Nat.ltb_spec i (S n)); cbn [length]; lia. }
  rewrite G by lia. destruct (Nat.ltb_spec i (length xs)); lia.
Qed.
Lemma distinct_perm_sum k xs : offsum k xs = psums k xs xs - total (map (fun x => k x x) xs).
Proof.
  assert (Hrow : forall f : vec -> R, total (map f xs) = total (map (fun i => f (row xs i)) (seq 0 (length xs)))).
  { intros f. apply f_equal. apply (nth_ext _ _ (f []) (f [])); [rewrite !map_length, seq_length; reflexivity|]. intros i Hi. rewrite map_length in Hi. rewrite map_nth.
    rewrite nth_indep with (d' := (fun i => f (row xs i)) 0%nat) by (rewrite map_length, seq_length; exact Hi). rewrite (map_nth (fun i => f (row xs i))). rewrite seq_nth by exact Hi. reflexivity. }
  assert (Hone : forall n a i (f : nat -> R), (a <= i < a + n)%nat -> total (map (fun j => if (i =? j)%nat then 0 else f j) (seq a n)) = total (map f (seq a n)) - f i).
  { assert (Hno : forall n a i (f : nat -> R), (i < a)%nat -> total (map (fun j => if (i =? j)%nat then 0 else f j) (seq a n)) = total (map f (seq a n))).
    { intros n a i f H. apply total_ext. intros j Hj. apply in_seq in Hj. destruct (Nat.eqb_spec i j); [lia | reflexivity]. }
    induction n as [|n IH]; intros a i f H; [lia|]. cbn [seq map]. rewrite !total_cons. destruct (Nat.eqb_spec i a) as [->|Hne]; [rewrite Hno by lia; lra|]. rewrite IH by lia. lra. }
  unfold offsum, psums. rewrite (Hrow (fun x => total (map (k x) xs))), (Hrow (fun x => k x x)).
  transitivity (total (map (fun i => total (map (fun j => k (row xs i) (row xs j)) (seq 0 (length xs))) + (-1) * k (row xs i) (row xs i)) (seq 0 (length xs)))).
  - apply total_ext. intros i Hi. apply in_seq in Hi. rewrite (Hone _ 0%nat i (fun j => k (row xs i) (row xs j))) by lia. lra.
  - rewrite total_plus, total_scale. assert (E : total (map (fun x => total (map (fun j => k (row xs x) (row xs j)) (seq 0 (length xs)))) (seq 0 (length xs))) = total (map (fun i => total (map (k (row xs i)) xs)) (seq 0 (length xs)))).
    { apply total_ext. intros i _. rewrite (Hrow (k (row xs i))). reflexivity. } rewrite E. lra.
Qed.

(** quadratic forms *)
Lemma form_qf k l : form k l = qf k l.
Proof. unfold form, qf. apply flat_total. Qed.
Definition embed (xs ys : list vec) : list (R * vec) := map (pair (/ INR (length xs))) xs ++ map (pair (- / INR (length ys))) ys.
Lemma qf_app k (l1 l2 : list (R * vec)) : qf k (l1 ++ l2) = qf k l1 + total (map (fun p => total (map (fun q => fst p * fst q * k (snd p) (snd q)) l2)) l1) + total (map (fun p => total (map (fun q => fst p * fst q * k (snd p) (snd q)) l1)) l2) + qf k l2.
Proof.
  unfold qf. rewrite map_app, total_app. assert (E : forall l, total (map (fun p => total (map (fun q => fst p * fst q * k (snd p) (snd q)) (l1 ++ l2))) l) = total (map (fun p => total (map (fun q => fst p * fst q * k (snd p) (snd q)) l1)) l) + total (map (fun p => total (map (fun q => fst p * fst q * k (snd p) (snd q)) l2)) l)).
  { intros l. rewrite <- total_plus. apply f_equal, map_ext. intros p. rewrite map_app, total_app. reflexivity. }
  rewrite !E. lra.
Qed.
Lemma cross k a b (xs ys : list vec) : total (map (fun p => total (map (fun q => fst p * fst q * k (snd p) (snd q)) (map (pair b) ys))) (map (pair a) xs)) = a * b * psums k xs ys.
Proof.
  unfold psums. rewrite map_map, <- total_scale. apply f_equal, map_ext. intros x. rewrite map_map, <- total_scale. reflexivity.
Qed.
Lemma embed_qf k xs ys : Symmetric k -> xs <> [] -> ys <> [] -> qf k (embed xs ys) = MMD2 k xs ys.
Proof.
  intros Hk Hx Hy. unfold embed. rewrite qf_app. unfold qf. rewrite !cross. unfold MMD2. rewrite !mean_pairs_sum, (psums_sym k ys xs Hk), !mult_INR. pose proof (INR_len_pos xs Hx). pose proof (INR_len_pos ys Hy). field. lra.
Qed.
Lemma embed_sum xs ys : xs <> [] -> ys <> [] -> total (map fst (embed xs ys)) = 0.
Proof.
  intros Hx Hy. unfold embed. rewrite map_app, total_app, !map_map. cbn [fst]. rewrite !total_const. pose proof (INR_len_pos xs Hx). pose proof (INR_len_pos ys Hy). field. lra.
Qed.
Lemma embed_on p xs ys : Rows p xs -> Rows p ys -> Forall (fun a => length (snd a) = p) (embed xs ys).
Proof. intros Hx Hy. unfold embed. apply Forall_app. split; apply Forall_map; assumption. Qed.
