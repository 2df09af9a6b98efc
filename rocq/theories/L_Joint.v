(** Proofs about joint distances and likelihoods. *)
From Coq Require Import Reals Lia Lra.
From Verif Require Import M_Base M_Num M_XReal M_MMD M_Joint S_Stats S_Joint L_PMC L_Stats L_Distance.
Open Scope R_scope.

Lemma fold_add_fin : forall l acc, fold_left xadd (map XR l) (XR acc) = XR (acc + total l).
Proof.
  induction l as [|x l IH]; intros acc.
  - cbn [map fold_left]. change (total []) with 0. f_equal. lra.
  - cbn [map fold_left xadd]. rewrite IH, total_cons. f_equal. lra.
Qed.
Lemma Values_cons : forall D (c : D -> D -> res xr) cs l1 l2 v, Values (c :: cs) l1 l2 v ->
  exists a l1' b l2' x v', l1 = a :: l1' /\ l2 = b :: l2' /\ v = x :: v' /\ c a b = Ok (XR x) /\ Values cs l1' l2' v'.
Proof.
  intros D c cs l1 l2 v [HL HV]. destruct (HV 0%nat c eq_refl) as (a & b & x & E1 & E2 & E3 & E4).
  destruct l1 as [|a' l1']; [discriminate|]. destruct l2 as [|b' l2']; [discriminate|]. destruct v as [|x' v']; [discriminate|].
  cbn in E1, E2, E3. exists a', l1', b', l2', x', v'.
  split; [reflexivity|]. split; [reflexivity|]. split; [reflexivity|]. split; [congruence|].
  split; [cbn in HL; lia|]. intros i c' Hc. destruct (HV (S i) c' Hc) as (a2 & b2 & x2 & F). exists a2, b2, x2. exact F.
Qed.
(** the loop, with the suffixes of the data sets in place of the index *)
Lemma accumulate_spec : forall D (op : xr -> nat -> xr -> res xr) (g : R -> nat -> R -> R) (cs : list (D -> D -> res xr)) l1 l2 v p1 p2 acc,
  length p1 = length p2 ->
  (forall r i x, (i < length p1 + length cs)%nat -> op (XR r) i (XR x) = Ok (XR (g r i x))) ->
  Values cs l1 l2 v ->
  accumulate op (p1 ++ l1) (p2 ++ l2) cs (length p1) (XR acc) =
  Ok (XR (fold_left (fun r ix => g r (fst ix) (snd ix)) (combine (seq (length p1) (length v)) v) acc)).
Proof.
  intros D op g. induction cs as [|c cs IH]; intros l1 l2 v p1 p2 acc HP HO HV.
  - destruct HV as [HL _]. destruct v; [|discriminate]. reflexivity.
  - destruct (Values_cons _ _ _ _ _ _ HV) as (a & l1' & b & l2' & x & v' & -> & -> & -> & Ec & HV').
    cbn [accumulate]. unfold part at 1.
    rewrite nth_error_app2 by lia. rewrite Nat.sub_diag. cbn [nth_error].
    rewrite nth_error_app2 by lia. replace (length p1 - length p2)%nat with 0%nat by lia. cbn [nth_error].
    rewrite Ec. cbn [rthen]. rewrite HO by (cbn [length]; lia). cbn [rthen].
    cbn [length seq combine fold_left fst snd].
    specialize (IH l1' l2' v' (p1 ++ [a]) (p2 ++ [b]) (g acc (length p1) x)).
    rewrite <- !app_assoc, !app_length in IH. cbn [length app] in IH.
    replace (length p1 + 1)%nat with (S (length p1)) in IH by lia.
    apply IH; [lia| |assumption]. intros r i y Hi. apply HO. cbn [length]. lia.
Qed.
Lemma fold_weighted : forall (w v : list R) (f : nat -> R) k acc, length w = length v ->
  (forall i x, nth_error w i = Some x -> f (k + i)%nat = x) ->
  fold_left (fun r ix => r + f (fst ix) * snd ix) (combine (seq k (length v)) v) acc =
  acc + total (map (fun wv => fst wv * snd wv) (combine w v)).
Proof.
  induction w as [|a w IH]; intros v f k acc HL HF; destruct v as [|x v]; try discriminate.
  - cbn. change (total []) with 0. lra.
  - cbn [length seq combine fold_left map fst snd]. rewrite total_cons.
    rewrite (IH v f (S k)); [|cbn in HL; lia|].
    + rewrite <- (HF 0%nat a eq_refl). rewrite Nat.add_0_r. cbn. lra.
    + intros i y Hy. rewrite <- (HF (S i) y Hy). f_equal. lia.
Qed.
Lemma fold_plus' : forall (v : list R) k acc,
  fold_left (fun r (ix : nat * R) => r + snd ix) (combine (seq k (length v)) v) acc = acc + total v.
Proof.
  induction v as [|x v IH]; intros k acc.
  - cbn. change (total []) with 0. lra.
  - cbn [length seq combine fold_left snd]. rewrite IH, total_cons. lra.
Qed.
Lemma fold_times : forall (v : list R) k acc,
  fold_left (fun r (ix : nat * R) => r * snd ix) (combine (seq k (length v)) v) acc = acc * product v.
Proof.
  induction v as [|x v IH]; intros k acc.
  - cbn. lra.
  - cbn [length seq combine fold_left snd]. rewrite IH. unfold product. cbn [fold_right]. ring.
Qed.
Lemma check_ok : forall D (l1 l2 : list D), length l1 = length l2 -> check_data (DList l1) (DList l2) = Ok (l1, l2).
Proof. intros D l1 l2 H. cbn. rewrite H, Nat.eqb_refl. reflexivity. Qed.
Lemma linear_spec : forall D (cs : list (D -> D -> res xr)) (w v : list R) l1 l2,
  length w = length cs -> length l1 = length l2 -> Values cs l1 l2 v ->
  linear_distance cs (map XR w) (DList l1) (DList l2) = Ok (XR (total (map (fun wv => fst wv * snd wv) (combine w v)))).
Proof.
  intros D cs w v l1 l2 HW HL HV. unfold linear_distance. rewrite check_ok by assumption. cbn [rthen fst snd].
  set (f := fun i => nth i w 0).
  pose proof (accumulate_spec D (weighted (map XR w)) (fun r i x => r + f i * x) cs l1 l2 v [] [] 0 eq_refl) as A.
  cbn [app length] in A. rewrite A; [| |assumption].
  - rewrite (fold_weighted w v f 0 0).
    + do 2 f_equal. lra.
    + destruct HV. congruence.
    + intros i x Hx. unfold f. cbn. apply nth_error_nth. assumption.
  - intros r i x Hi. unfold weighted. destruct (nth_error w i) as [y|] eqn:E.
    + rewrite (map_nth_error XR i w E). cbn. unfold f. rewrite (nth_error_nth w i 0 E). reflexivity.
    + apply nth_error_None in E. cbn in Hi. lia.
Qed.
Lemma max_loop_fin : forall (w m : list R) acc, length w = length m ->
  max_loop (map XR m) (map XR w) (XR acc) = Ok (XR (acc + total (map (fun wv => fst wv * snd wv) (combine w m)))).
Proof.
  induction w as [|a w IH]; intros m acc HL; destruct m as [|x m]; try discriminate.
  - cbn. change (total []) with 0. do 2 f_equal. lra.
  - cbn [map max_loop xmul xadd combine fst snd]. rewrite IH by (cbn in HL; lia). rewrite total_cons. do 2 f_equal. lra.
Qed.
Lemma dot_div : forall (w v : list R) c,
  total (map (fun wv => fst wv * snd wv) (combine (map (fun x => x / c) w) v)) = total (map (fun wv => fst wv * snd wv) (combine w v)) / c.
Proof.
  induction w as [|a w IH]; intros v c; destruct v as [|x v]; cbn [map combine]; try (change (total []) with 0; unfold Rdiv; lra).
  rewrite !total_cons, IH. cbn [fst snd]. unfold Rdiv. ring.
Qed.
Lemma dot_le : forall (w v v' : list R), Forall (fun x => 0 <= x) w -> Forall2 Rle v v' ->
  total (map (fun wv => fst wv * snd wv) (combine w v)) <= total (map (fun wv => fst wv * snd wv) (combine w v')).
Proof.
  induction w as [|a w IH]; intros v v' HW HV.
  - cbn. lra.
  - inversion HW as [|? ? Ha Hw]; subst. destruct HV as [|x y v v' Hxy HV]; cbn [combine map]; [lra|].
    rewrite !total_cons. cbn [fst snd]. specialize (IH v v' Hw HV).
    pose proof (Rmult_le_compat_l a x y Ha Hxy). lra.
Qed.
Lemma norm_fin : forall (w : list R), total w <> 0 ->
  map (fun x => xdiv x (fold_left xadd (map XR w) (XR 0))) (map XR w) = map XR (map (fun x => x / total w) w).
Proof.
  intros w H. rewrite fold_add_fin. rewrite Rplus_0_l. rewrite !map_map. apply map_ext. intros x. apply xdiv_fin. assumption.
Qed.
Lemma total_div : forall (w : list R) c, total (map (fun x => x / c) w) = total w / c.
Proof.
  induction w as [|a w IH]; intros c; cbn [map].
  - change (total []) with 0. unfold Rdiv. lra.
  - rewrite !total_cons, IH. unfold Rdiv. lra.
Qed.
Lemma total_repeat : forall n c, total (repeat c n) = INR n * c.
Proof.
  induction n as [|n IH]; intros c.
  - cbn [repeat]. change (total []) with 0. change (INR 0) with 0. lra.
  - cbn [repeat]. rewrite total_cons, IH, S_INR. lra.
Qed.
Lemma total_ones : forall n, total (repeat 1 n) = INR n.
Proof. intros. rewrite total_repeat. lra. Qed.
Lemma dot_const : forall n c v, length v = n -> total (map (fun wv => fst wv * snd wv) (combine (repeat c n) v)) = c * total v.
Proof.
  induction n as [|n IH]; intros c v HL; destruct v as [|x v]; try discriminate.
  - cbn. change (total []) with 0. lra.
  - cbn [repeat combine map]. rewrite !total_cons, IH by (cbn in HL; lia). cbn [fst snd]. lra.
Qed.
Lemma repeat_map : forall A B (f : A -> B) x n, map f (repeat x n) = repeat (f x) n.
Proof. induction n; cbn; [reflexivity|]. rewrite IHn. reflexivity. Qed.
Lemma exp_total : forall l, exp (total l) = product (map exp l).
Proof.
  induction l as [|x l IH]; cbn [map product fold_right].
  - change (total []) with 0. apply exp_0.
  - rewrite total_cons, exp_plus, IH. reflexivity.
Qed.
Lemma accumulate_short : forall D (op : xr -> nat -> xr -> res xr) (cs : list (D -> D -> res xr)) l1 l2 p1 p2 acc,
  length p1 = length p2 -> length l1 = length l2 -> (length l1 < length cs)%nat ->
  (forall i c a b, nth_error cs i = Some c -> nth_error l1 i = Some a -> nth_error l2 i = Some b -> exists x, c a b = Ok x) ->
  (forall r i x, (i < length p1 + length cs)%nat -> exists r', op r i x = Ok r') ->
  accumulate op (p1 ++ l1) (p2 ++ l2) cs (length p1) acc = Err IndexError.
Proof.
  intros D op. induction cs as [|c cs IH]; intros l1 l2 p1 p2 acc HP HL HS HC HO; [cbn in HS; lia|].
  cbn [accumulate]. unfold part at 1.
  rewrite nth_error_app2 by lia. rewrite Nat.sub_diag.
  destruct l1 as [|a l1]; [reflexivity|]. destruct l2 as [|b l2]; [discriminate|].
  cbn [nth_error]. rewrite nth_error_app2 by lia. replace (length p1 - length p2)%nat with 0%nat by lia. cbn [nth_error].
  destruct (HC 0%nat c a b eq_refl eq_refl eq_refl) as [x Ex]. rewrite Ex. cbn [rthen].
  destruct (HO acc (length p1) x) as [r' Er]; [cbn [length]; lia|]. rewrite Er. cbn [rthen].
  specialize (IH l1 l2 (p1 ++ [a]) (p2 ++ [b]) r').
  rewrite <- !app_assoc, !app_length in IH. cbn [length app] in IH.
  replace (length p1 + 1)%nat with (S (length p1)) in IH by lia.
  apply IH; try (cbn in *; lia).
  - intros i c' a' b' E1 E2 E3. exact (HC (S i) c' a' b' E1 E2 E3).
  - intros r i y Hi. apply HO. cbn [length]. lia.
Qed.
