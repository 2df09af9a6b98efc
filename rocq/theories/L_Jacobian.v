(** Lemmas about tables and sums over a batch. *)
From Coq Require Import Reals List Arith Bool Lia Lra.
From Verif Require Import M_Base M_XReal M_NN M_Jacobian S_NN L_NN P_NN S_Jacobian.
Import ListNotations.
Open Scope R_scope.

Lemma at2_table a b f i j : (i < a)%nat -> (j < b)%nat -> at2 (table2 a b f) i j = f i j.
Proof. intros Hi Hj. unfold at2, table2. rewrite nth_map_seq by exact Hi. now rewrite nth_map_seq. Qed.
Lemma at3_table a b c f i j k : (i < a)%nat -> (j < b)%nat -> (k < c)%nat -> at3 (table3 a b c f) i j k = f i j k.
Proof. intros Hi Hj Hk. unfold at3, table3. rewrite nth_map_seq by exact Hi. now apply at2_table. Qed.
Lemma rsum2_ext {A} (f g : A -> R) l : (forall x, In x l -> f x = g x) -> rsum2 (map f l) = rsum2 (map g l).
Proof. intros H. f_equal. now apply map_ext_in. Qed.
Lemma rsum2_zero {A} (f : A -> R) l : (forall x, In x l -> f x = 0) -> rsum2 (map f l) = 0.
Proof. intros H. induction l as [|a l IH]; [reflexivity|]. cbn. fold (rsum2 (map f l)). rewrite (H a) by now left. rewrite IH by (intros x Hx; apply H; now right). lra. Qed.
Lemma rsum2_pick m i (v : nat -> R) : (i < m)%nat -> rsum2 (map (fun k => (if (k =? i)%nat then 1 else 0) * v k) (seq 0 m)) = v i.
Proof.
  intros H. assert (G : forall a, rsum2 (map (fun k => (if (k =? i)%nat then 1 else 0) * v k) (seq a m)) = if ((a <=? i) && (i <? a + m))%nat then v i else 0).
  { clear H. induction m as [|m IH]; intros a.
    - cbn [seq map rsum2 fold_right]. destruct (Nat.leb_spec a i), (Nat.ltb_spec i (a + 0)); cbn [andb]; try reflexivity; lia.
    - cbn [seq map rsum2 fold_right]. fold (rsum2 (map (fun k => (if (k =? i)%nat then 1 else 0) * v k) (seq (S a) m))). rewrite IH.
      destruct (Nat.eqb_spec a i) as [->|E].
      + destruct (Nat.leb_spec (S i) i); [lia|]. destruct (Nat.leb_spec i i); [|lia]. destruct (Nat.ltb_spec i (i + S m)); [|lia]. cbn [andb]. lra.
      + destruct (Nat.leb_spec (S a) i), (Nat.leb_spec a i), (Nat.ltb_spec i (S a + m)), (Nat.ltb_spec i (a + S m)); cbn [andb]; try lia; lra. }
  rewrite G. destruct (Nat.leb_spec 0 i); [|lia]. destruct (Nat.ltb_spec i (0 + m)); [reflexivity | lia].
Qed.
Lemma upd2_len X c l t : length (upd2 X c l t) = length X.
Proof. revert c. induction X as [|x X IH]; intros [|c]; cbn; auto. Qed.
Lemma upd2_nth X c l t b : (c < length X)%nat -> nth b (upd2 X c l t) [] = if (b =? c)%nat then upd (nth c X []) l t else nth b X [].
Proof. revert c b. induction X as [|x X IH]; intros [|c] [|b] H; cbn in *; try lia; auto. apply IH. lia. Qed.
Lemma upd2_batch n X c l t : batch_of n X -> batch_of n (upd2 X c l t).
Proof. revert c. induction X as [|x X IH]; intros [|c] H; cbn; [exact H | exact H | |]; inversion H; subst; constructor; auto. now rewrite upd_len. now apply IH. Qed.
Lemma batch_row n X b : batch_of n X -> (b < length X)%nat -> length (nth b X []) = n.
Proof. intros H Hb. unfold batch_of in H. rewrite Forall_forall in H. apply H. now apply nth_In. Qed.
Lemma dpl_sum {A} (f : A -> R -> R) (d : A -> R) x l : (forall a, In a l -> derivable_pt_lim (f a) x (d a)) -> derivable_pt_lim (fun t => rsum2 (map (fun a => f a t) l)) x (rsum2 (map d l)).
Proof.
  induction l as [|a l IH]; intros H; cbn [map rsum2 fold_right].
  - apply derivable_pt_lim_const.
  - apply (derivable_pt_lim_plus (f a) (fun t => rsum2 (map (fun a => f a t) l))); [apply H; now left | apply IH; intros b Hb; apply H; now right].
Qed.
(** the sum over the rows of a quantity of each row alone has the derivative of the one row that moves *)
Lemma sum_rows (g : list R -> R) X c l d : (c < length X)%nat -> partial g l (nth c X []) d ->
  partial2 (fun Y => rsum2 (map (fun b => g (nth b Y [])) (seq 0 (length X)))) c l X d.
Proof.
  intros Hc H. unfold partial2. replace d with (rsum2 (map (fun b => (if (b =? c)%nat then 1 else 0) * d) (seq 0 (length X)))).
  2:{ rewrite (rsum2_pick (length X) c (fun _ => d)) by exact Hc. reflexivity. }
  apply (dpl_sum (fun b t => g (nth b (upd2 X c l t) []))). intros b Hb. destruct (Nat.eqb_spec b c) as [->|E].
  - rewrite Rmult_1_l. eapply dpl_ext; [|exact H]. intros t. cbn. rewrite upd2_nth by exact Hc. now rewrite Nat.eqb_refl.
  - rewrite Rmult_0_l. eapply dpl_ext; [|apply (derivable_pt_lim_const (g (nth b X [])))]. intros t. unfold fct_cte. rewrite upd2_nth by exact Hc. destruct (Nat.eqb_spec b c); [contradiction | reflexivity].
Qed.

Section L.
Variable deriv : (list (list R) -> R) -> nat -> nat -> list (list R) -> R.
Hypothesis Hd : exact_gradients deriv.

Lemma grad2_val F batch n m X c l i d : length X = batch -> batch_of n X -> (c < batch)%nat -> (l < n)%nat -> (i < m)%nat ->
  partial2 (fun Y => rsum2 (map (fun b => at2 (F Y) b i) (seq 0 batch))) c l X d -> at2 (grad2 deriv F batch n m (pick2 batch m i) X) c l = d.
Proof.
  intros HL HX Hc Hl Hi H. unfold grad2. rewrite at2_table by assumption. apply Hd; [lia | rewrite (batch_row n) by (auto; lia); exact Hl|].
  unfold partial2. eapply dpl_ext; [|exact H]. intros t. cbn. apply rsum2_ext. intros b Hb. apply in_seq in Hb. symmetry.
  rewrite <- (rsum2_pick m i (fun k => at2 (F (upd2 X c l t)) b k)) by exact Hi. apply rsum2_ext. intros k Hk. apply in_seq in Hk. unfold pick2. rewrite at2_table by lia. reflexivity.
Qed.
Lemma grad3_val F batch n m X c l i j d : length X = batch -> batch_of n X -> (c < batch)%nat -> (l < n)%nat -> (i < m)%nat -> (j < n)%nat ->
  partial2 (fun Y => rsum2 (map (fun b => at3 (J0 deriv F batch n m Y) b i j) (seq 0 batch))) c l X d -> at2 (grad3 deriv F batch n m (pick3 batch m n i j) X) c l = d.
Proof.
  intros HL HX Hc Hl Hi Hj H. unfold grad3. rewrite at2_table by assumption. apply Hd; [lia | rewrite (batch_row n) by (auto; lia); exact Hl|].
  unfold partial2. eapply dpl_ext; [|exact H]. intros t. cbn. apply rsum2_ext. intros b Hb. apply in_seq in Hb. symmetry. set (Y := upd2 X c l t).
  rewrite <- (rsum2_pick m i (fun k => at3 (J0 deriv F batch n m Y) b k j)) by exact Hi. apply rsum2_ext. intros k Hk. apply in_seq in Hk.
  destruct (Nat.eqb_spec k i) as [->|E].
  - rewrite Rmult_1_l. rewrite <- (rsum2_pick n j (fun q => at3 (J0 deriv F batch n m Y) b i q)) by exact Hj. apply rsum2_ext. intros q Hq. apply in_seq in Hq. unfold pick3. rewrite at3_table by lia.
    rewrite Nat.eqb_refl. reflexivity.
  - rewrite Rmult_0_l. apply rsum2_zero. intros q Hq. apply in_seq in Hq. unfold pick3. rewrite at3_table by lia. destruct (Nat.eqb_spec k i); [contradiction|]. cbn. lra.
Qed.
(** for a network that treats every row on its own *)
Lemma J0_val f n m X b i l d : batch_of n X -> (forall x, length x = n -> length (f x) = m) -> (b < length X)%nat -> (l < n)%nat -> (i < m)%nat ->
  partial (fun x => nth i (f x) 0) l (nth b X []) d -> at3 (J0 deriv (map f) (length X) n m X) b i l = d.
Proof.
  intros HX Hf Hb Hl Hi H. unfold J0. rewrite at3_table by assumption. apply grad2_val; auto. unfold partial2.
  eapply dpl_ext; [|exact (sum_rows (fun x => nth i (f x) 0) X b l d Hb H)]. intros t. cbn. apply rsum2_ext. intros k Hk. apply in_seq in Hk.
  unfold at2. rewrite (nth_map_list _ (upd2 X b l t) k [] []) by (rewrite upd2_len; lia). reflexivity.
Qed.
Lemma grad3_row f n m X b i j l (G : list R -> R) d : batch_of n X -> (forall x, length x = n -> length (f x) = m) -> (b < length X)%nat -> (l < n)%nat -> (i < m)%nat -> (j < n)%nat ->
  (forall x, length x = n -> partial (fun x => nth i (f x) 0) j x (G x)) -> partial G l (nth b X []) d ->
  at2 (grad3 deriv (map f) (length X) n m (pick3 (length X) m n i j) X) b l = d.
Proof.
  intros HX Hf Hb Hl Hi Hj HG H. apply grad3_val; auto. unfold partial2. eapply dpl_ext; [|exact (sum_rows G X b l d Hb H)].
  intros t. cbn. apply rsum2_ext. intros k Hk. apply in_seq in Hk. symmetry. pose proof (upd2_batch n X b l t HX) as HY.
  rewrite <- (upd2_len X b l t). apply J0_val; auto; [rewrite upd2_len; lia|]. apply HG. apply (batch_row n); [exact HY | rewrite upd2_len; lia].
Qed.
End L.
Lemma fin_concat X : concat (fin X) = map XR (concat X).
Proof. unfold fin. now rewrite concat_map. Qed.
Lemma xsum_fin' l : forall a, fold_left xadd (map XR l) (XR a) = XR (fold_left Rplus l a).
Proof. induction l as [|x l IH]; intros a; [reflexivity|]. cbn. apply IH. Qed.
Lemma guard_fin {A} X Y (k : A) : length X = length Y -> guard (fin X) (fin Y) k = Val k.
Proof. intros H. unfold guard, fin at 1 2. rewrite !map_length, H, Nat.eqb_refl. unfold checked. rewrite !fin_concat. unfold xsum. rewrite !xsum_fin'. reflexivity. Qed.
Lemma table2_shape a b f : length (table2 a b f) = a /\ Forall (fun r => length r = b) (table2 a b f).
Proof. unfold table2. rewrite map_length, seq_length. split; [reflexivity|]. apply Forall_map, Forall_forall. intros x _. now rewrite map_length, seq_length. Qed.
