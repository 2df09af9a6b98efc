(** Proofs about similarity sets. *)
From Coq Require Import Reals Lia Lra Sorted Permutation.
From Verif Require Import M_Base M_Num M_XReal M_MMD M_KNN M_Similarity S_Stats S_KNN S_MMD S_Similarity L_PMC L_Stats L_Distance L_MMD L_KNN.
Open Scope R_scope.

Lemma dist2_sqd x y : dist2 x y = sqd x y.
Proof. unfold dist2, sqd. rewrite rsuml_total. f_equal. apply map_ext. intros [a b]. cbn. ring. Qed.
Lemma sqd_sym x y : sqd x y = sqd y x.
Proof.
  unfold sqd. revert y. induction x as [|a x IH]; intros [|b y]; cbn [combine map]; try reflexivity.
  rewrite !total_cons, IH. cbn [fst snd]. f_equal. ring.
Qed.
Lemma sqd_nn x y : 0 <= sqd x y.
Proof. unfold sqd. apply total_nonneg. apply Forall_forall. intros v Hv. apply in_map_iff in Hv. destruct Hv as ([a b] & <- & _). cbn [fst snd]. apply pow2_ge_0. Qed.
Lemma sqd_self x : sqd x x = 0.
Proof. unfold sqd. induction x as [|a x IH]; cbn [combine map]; [reflexivity|]. rewrite total_cons, IH. cbn [fst snd]. ring. Qed.
Lemma sqd_zero x : forall y, length x = length y -> sqd x y = 0 -> x = y.
Proof.
  unfold sqd. induction x as [|a x IH]; intros [|b y] HL H; try discriminate; [reflexivity|].
  cbn [combine map] in H. rewrite total_cons in H. cbn [fst snd] in H.
  pose proof (sqd_nn x y) as P. unfold sqd in P. pose proof (pow2_ge_0 (a - b)).
  assert (E1 : (a - b) ^ 2 = 0) by lra. assert (E2 : a - b = 0) by (apply Rsqr_0_uniq; unfold Rsqr; lra).
  f_equal; [lra|]. apply IH; [cbn in HL; lia|]. lra.
Qed.
Lemma map_flat {A B C} (f : B -> C) (g : A -> list B) l : map f (flat_map g l) = flat_map (fun x => map f (g x)) l.
Proof. induction l as [|x l IH]; [reflexivity|]. cbn [flat_map]. rewrite map_app, IH. reflexivity. Qed.
Lemma flat_ext {A B} (f g : A -> list B) l : (forall x, In x l -> f x = g x) -> flat_map f l = flat_map g l.
Proof. intros H. rewrite !flat_map_concat_map. f_equal. apply map_ext_in. exact H. Qed.
Lemma enum_flat {A B} (f : nat -> A -> list B) d (l : list A) : flat_map (fun ix => f (fst ix) (snd ix)) (enum l) = flat_map (fun i => f i (nth i l d)) (seq 0 (length l)).
Proof. rewrite !flat_map_concat_map. f_equal. apply (enum_map f d l). Qed.
Lemma off_diag_spec target : off_diag (pairwise target) = map (fun xy => dist2 (fst xy) (snd xy)) (distinct_pairs target).
Proof.
  change (pairwise target) with (gram_all dist2 target target).
  unfold off_diag, distinct_pairs.
  rewrite (enum_flat (fun i r => flat_map (fun jv => if (i =? fst jv)%nat then [] else [snd jv]) (enum r)) []).
  rewrite map_flat. replace (length (gram_all dist2 target target)) with (length target) by (unfold gram_all; rewrite map_length; reflexivity).
  apply flat_ext. intros i Hi. apply in_seq in Hi. rewrite gram_all_row by lia.
  rewrite (enum_flat (fun j v => if (i =? j)%nat then [] else [v]) 0). rewrite map_length. rewrite map_flat.
  apply flat_ext. intros j Hj. apply in_seq in Hj.
  rewrite !row_nth by lia. destruct (i =? j)%nat; [reflexivity|]. cbn [map fst snd]. f_equal.
  rewrite nth_indep with (d' := dist2 (row target i) []) by (rewrite map_length; lia). rewrite map_nth. reflexivity.
Qed.
Lemma floor_spec h : 0 <= h -> INR (Z.to_nat (Int_part h)) <= h < INR (Z.to_nat (Int_part h)) + 1.
Proof.
  intros H. destruct (base_Int_part h) as [H1 H2].
  assert (HZ : (0 <= Int_part h)%Z). { apply le_IZR. assert (-1 < IZR (Int_part h)) by lra. apply lt_IZR in H0. apply IZR_le. lia. }
  rewrite INR_IZR_INZ, Z2Nat.id by assumption. lra.
Qed.
Lemma upto_mono l a b : a <= b -> (upto a l <= upto b l)%nat.
Proof. intros H. apply filter_le_len. intros x. destruct (Rle_dec x a); [|discriminate]. intros _. destruct (Rle_dec x b); [reflexivity|lra]. Qed.
Lemma below_mono l a b : a <= b -> (below a l <= below b l)%nat.
Proof. intros H. apply filter_le_len. intros x. destruct (Rlt_dec x a); [|discriminate]. intros _. destruct (Rlt_dec x b); [reflexivity|lra]. Qed.
Lemma sorted_nth l : StronglySorted Rle l -> forall i j, (i <= j < length l)%nat -> nth i l 0 <= nth j l 0.
Proof.
  intros H. induction H as [|x l Hs IH Hf]; intros i j Hij; [cbn in Hij; lia|].
  destruct i as [|i]; destruct j as [|j]; cbn [nth]; try lia; [lra| |apply IH; cbn in Hij; lia].
  rewrite Forall_forall in Hf. apply Hf. apply nth_In. cbn in Hij. lia.
Qed.
Lemma quantile_spec l p : l <> [] -> 0 <= p <= 1 -> exists q, np_quantile l p = Ok (XR q) /\ Quantile p l q.
Proof.
  intros HN HP. unfold np_quantile. destruct (Rlt_dec p 0); [lra|]. destruct (Rlt_dec 1 p); [lra|].
  destruct l as [|x0 l0]; [congruence|]. remember (x0 :: l0) as l eqn:EL.
  assert (HL : (1 <= length l)%nat) by (subst; cbn; lia). clear EL.
  set (h := INR (length l - 1) * p). set (lo := Z.to_nat (Int_part h)).
  assert (Hh : 0 <= h) by (apply Rmult_le_pos; [apply pos_INR|lra]).
  assert (Hh' : h <= INR (length l - 1)).
  { unfold h. rewrite <- (Rmult_1_r (INR (length l - 1))) at 2. apply Rmult_le_compat_l; [apply pos_INR|lra]. }
  pose proof (floor_spec h Hh) as HF. fold lo in HF.
  assert (Hlo : (lo <= length l - 1)%nat) by (apply INR_le; lra).
  eexists. split; [reflexivity|].
  set (a := nth lo (sortR l) 0). set (b := nth (Nat.min (S lo) (length l - 1)) (sortR l) 0).
  pose proof (kth_sort l (S lo) ltac:(lia)) as KA. replace (S lo - 1)%nat with lo in KA by lia. fold a in KA. destruct KA as [_ KA].
  pose proof (Permutation_length (sortR_perm l)) as PL.
  assert (AB : a <= b) by (apply sorted_nth; [apply sortR_sorted|lia]).
  assert (Q1 : a <= a + (b - a) * (h - INR lo)). { pose proof (Rmult_le_pos (b - a) (h - INR lo) ltac:(lra) ltac:(lra)). lra. }
  assert (Q2 : a + (b - a) * (h - INR lo) <= b). { pose proof (Rmult_le_compat_l (b - a) (h - INR lo) 1 ltac:(lra) ltac:(lra)). lra. }
  unfold Quantile. fold h. split.
  - destruct (Req_dec (h - INR lo) 0) as [E|E].
    + rewrite E, Rmult_0_r, Rplus_0_r. assert (INR (below a l) <= INR lo) by (apply le_INR; lia). lra.
    + assert (Hlt : (S lo <= length l - 1)%nat). { assert (INR lo < INR (length l - 1)) by lra. apply INR_lt in H. lia. }
      pose proof (kth_sort l (S (S lo)) ltac:(lia)) as KB. replace (S (S lo) - 1)%nat with (S lo) in KB by lia.
      unfold b in *. rewrite Nat.min_l in * by lia. destruct KB as [_ KB].
      pose proof (below_mono l _ _ Q2) as BM.
      assert (INR (below (a + (nth (S lo) (sortR l) 0 - a) * (h - INR lo)) l) <= INR (S lo)) by (apply le_INR; lia).
      rewrite S_INR in H. lra.
  - pose proof (upto_mono l _ _ Q1) as UM. assert (INR (S lo) <= INR (upto (a + (b - a) * (h - INR lo)) l)) by (apply le_INR; lia).
    rewrite S_INR in H. lra.
Qed.
Lemma trues_cons b r : trues (b :: r) = ((if b then 1 else 0) + trues r)%nat.
Proof. unfold trues. cbn [filter]. destruct b; reflexivity. Qed.
Lemma trues_ge1 r : forall i, nth_error r i = Some true -> (1 <= trues r)%nat.
Proof.
  induction r as [|b r IH]; intros i H; [destruct i; discriminate|]. rewrite trues_cons.
  destruct i as [|i]; cbn in H; [injection H as ->; lia|]. apply IH in H. lia.
Qed.
Lemma trues_zero r : (forall i, nth_error r i <> Some true) -> trues r = 0%nat.
Proof.
  induction r as [|b r IH]; intros H; [reflexivity|]. rewrite trues_cons. destruct b.
  - exfalso. apply (H 0%nat). reflexivity.
  - rewrite IH; [reflexivity|]. intros i. apply (H (S i)).
Qed.
Lemma trues_one r : forall i j, trues r = 1%nat -> nth_error r i = Some true -> nth_error r j = Some true -> i = j.
Proof.
  induction r as [|b r IH]; intros i j H Hi Hj; [discriminate|]. rewrite trues_cons in H.
  destruct i as [|i]; destruct j as [|j]; cbn in Hi, Hj; [reflexivity| | |].
  - injection Hi as ->. apply trues_ge1 in Hj. lia.
  - injection Hj as ->. apply trues_ge1 in Hi. lia.
  - f_equal. apply IH; [|assumption|assumption]. pose proof (trues_ge1 r i Hi). lia.
Qed.
Lemma sum_ones (l : list nat) : Forall (fun x => 1 <= x)%nat l -> fold_right plus 0%nat l = length l -> Forall (fun x => x = 1%nat) l.
Proof.
  induction l as [|x l IH]; intros HF H; [constructor|]. inversion HF as [|? ? Hx Hl]; subst. cbn in H.
  assert (G : (length l <= fold_right plus 0 l)%nat).
  { clear -Hl. induction Hl; cbn; lia. }
  constructor; [lia|]. apply IH; [assumption|lia].
Qed.
Lemma sum_zero (l : list nat) : Forall (fun x => x = 0)%nat l -> fold_right plus 0%nat l = 0%nat.
Proof. induction 1; cbn; lia. Qed.
Lemma where_in b r i : In i (where_ b r) <-> nth_error r i = Some b.
Proof.
  unfold where_, enum. rewrite in_map_iff. split.
  - intros ([j v] & <- & H). apply filter_In in H. destruct H as [H E]. cbn [fst snd] in *. apply Bool.eqb_prop in E. subst v.
    apply In_nth_error in H. destruct H as [k Hk].
    assert (G : forall (l : list bool) a k, nth_error (combine (seq a (length l)) l) k = Some (j, b) -> j = (a + k)%nat /\ nth_error l k = Some b).
    { induction l as [|x l IH]; intros a k' H'; [destruct k'; discriminate|]. cbn [length seq combine] in H'. destruct k' as [|k']; cbn in H'.
      - injection H' as <- <-. split; [lia|reflexivity].
      - destruct (IH _ _ H') as [E1 E2]. split; [lia|exact E2]. }
    destruct (G r 0%nat k Hk) as [-> E]. exact E.
  - intros H. exists (i, b). split; [reflexivity|]. apply filter_In. split; [|cbn; destruct b; reflexivity].
    assert (G : forall (l : list bool) a k, nth_error l k = Some b -> In ((a + k)%nat, b) (combine (seq a (length l)) l)).
    { induction l as [|x l IH]; intros a k' H'; [destruct k'; discriminate|]. destruct k' as [|k']; cbn in H'.
      - injection H' as ->. left. f_equal. lia.
      - right. replace (a + S k')%nat with (S a + k')%nat by lia. apply IH. exact H'. }
    apply (G r 0%nat i H).
Qed.
Lemma draw_other_ok draw fuel : forall cands index k j k', draw_other draw fuel cands index k = Ok (j, k') -> j <> index /\ In j cands.
Proof.
  induction fuel as [|fuel IH]; intros cands index k j k' H; [discriminate|]. cbn [draw_other] in H.
  destruct cands as [|c0 cs]; [discriminate|].
  set (c := nth (draw k mod length (c0 :: cs)) (c0 :: cs) 0%nat) in *.
  destruct (Nat.eqb_spec c index) as [E|E].
  - apply IH in H. exact H.
  - assert (j = c) by congruence. subst j. split; [assumption|]. apply nth_In. apply Nat.mod_upper_bound. discriminate.
Qed.
Lemma draw_other_stuck draw fuel : forall cands index k, cands <> [] -> (forall c, In c cands -> c = index) -> draw_other draw fuel cands index k = Err OutOfFuel.
Proof.
  induction fuel as [|fuel IH]; intros cands index k HN HC; [reflexivity|]. cbn [draw_other].
  destruct cands as [|c0 cs]; [congruence|].
  set (c := nth (draw k mod length (c0 :: cs)) (c0 :: cs) 0%nat) in *.
  assert (E : c = index). { apply HC. apply nth_In. apply Nat.mod_upper_bound. discriminate. }
  rewrite E, Nat.eqb_refl. apply IH; assumption.
Qed.
Lemma draw_other_ends draw cands index : cands <> [] -> forall m k,
  nth (draw (k + m)%nat mod length cands) cands 0%nat <> index -> exists j k', forall fuel, (m < fuel)%nat -> draw_other draw fuel cands index k = Ok (j, k').
Proof.
  intros HN. induction m as [|m IH]; intros k H.
  - rewrite Nat.add_0_r in H. eexists. eexists. intros fuel Hf. destruct fuel as [|fuel]; [lia|]. cbn [draw_other].
    destruct cands as [|c0 cs]; [congruence|]. apply Nat.eqb_neq in H. rewrite H. reflexivity.
  - destruct (Nat.eqb_spec (nth (draw k mod length cands) cands 0%nat) index) as [E|E].
    + destruct (IH (S k)) as (j & k' & HJ). { replace (S k + m)%nat with (k + S m)%nat by lia. exact H. }
      exists j, k'. intros fuel Hf. destruct fuel as [|fuel]; [lia|]. cbn [draw_other].
      destruct cands as [|c0 cs]; [congruence|]. apply Nat.eqb_eq in E. rewrite E. apply HJ. lia.
    + eexists. eexists. intros fuel Hf. destruct fuel as [|fuel]; [lia|]. cbn [draw_other].
      destruct cands as [|c0 cs]; [congruence|]. apply Nat.eqb_neq in E. rewrite E. reflexivity.
Qed.
Lemma new_anchor_ok draw fuel S n index : forall k a k', new_anchor draw fuel S n index k = Ok (a, k') ->
  a <> index /\ exists r, nth_error S a = Some r /\ (2 <= trues r)%nat.
Proof.
  induction fuel as [|fuel IH]; intros k a k' H; [discriminate|]. cbn [new_anchor] in H.
  destruct (n =? 0)%nat; [discriminate|]. unfold row_of in H. destruct (nth_error S (draw k mod n)%nat) as [r|] eqn:ER; [|discriminate].
  cbn [rthen] in H. destruct (Nat.ltb_spec (trues r) 2) as [HT|HT].
  - rewrite Nat.eqb_refl in H. apply IH in H. exact H.
  - destruct (Nat.eqb_spec (draw k mod n) index) as [E|E]; [apply IH in H; exact H|].
    assert (a = (draw k mod n)%nat) by congruence. subst a. split; [assumption|]. exists r. split; assumption.
Qed.
Lemma new_anchor_stuck draw fuel S n index : (0 < n)%nat -> length S = n -> (forall i r, i <> index -> nth_error S i = Some r -> (trues r < 2)%nat) ->
  forall k, new_anchor draw fuel S n index k = Err OutOfFuel.
Proof.
  intros HN HL HS. induction fuel as [|fuel IH]; intros k; [reflexivity|]. cbn [new_anchor].
  destruct (Nat.eqb_spec n 0); [lia|]. unfold row_of. destruct (nth_error S (draw k mod n)%nat) as [r|] eqn:ER.
  - cbn [rthen]. destruct (Nat.ltb_spec (trues r) 2) as [HT|HT].
    + rewrite Nat.eqb_refl. apply IH.
    + destruct (Nat.eqb_spec (draw k mod n) index) as [E|E]; [apply IH|]. specialize (HS _ r E ER). lia.
  - apply nth_error_None in ER. pose proof (Nat.mod_upper_bound (draw k) n). lia.
Qed.
