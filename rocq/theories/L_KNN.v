(** Lemmas for C39 and C52. *)
From Coq Require Import Reals Lra Lia Permutation Sorted.
From Verif Require Import M_Base M_XReal M_MMD M_KNN S_Stats S_Distance S_MMD S_KNN L_PMC L_Stats L_Distance L_PosDef L_MMD.
Open Scope R_scope.

Lemma insR_perm x l : Permutation (insR x l) (x :: l).
Proof. induction l as [|y l IH]; cbn; [reflexivity|]. destruct (Rle_dec x y); [reflexivity|]. rewrite IH. apply perm_swap. Qed.
Lemma sortR_perm l : Permutation (sortR l) l.
Proof. induction l as [|x l IH]; cbn; [reflexivity|]. rewrite insR_perm, IH. reflexivity. Qed.
Lemma insR_sorted x l : StronglySorted Rle l -> StronglySorted Rle (insR x l).
Proof.
  induction l as [|y l IH]; intros H; cbn; [constructor; constructor|]. destruct (Rle_dec x y) as [Hxy|Hxy].
  - constructor; [exact H|]. inversion H as [|? ? Hs Hf]; subst. constructor; [exact Hxy|]. eapply Forall_impl; [|exact Hf]. intros z Hz. cbv beta in Hz. lra.
  - inversion H as [|? ? Hs Hf]; subst. constructor; [apply IH, Hs|]. rewrite insR_perm. constructor; [lra | exact Hf].
Qed.
Lemma sortR_sorted l : StronglySorted Rle (sortR l).
Proof. induction l as [|x l IH]; cbn; [constructor | apply insR_sorted, IH]. Qed.
Lemma filter_perm_len {A} (f : A -> bool) l l' : Permutation l l' -> length (filter f l) = length (filter f l').
Proof. intros H. induction H as [|x l l' H IH|x y l|l l' l'' H1 IH1 H2 IH2]; cbn; [reflexivity | | | congruence]; [destruct (f x); cbn; congruence | destruct (f x), (f y); reflexivity]. Qed.
Lemma kth_sorted l : StronglySorted Rle l -> forall k, (1 <= k <= length l)%nat -> KthSmallest k l (nth (k - 1) l 0).
Proof.
  intros H. induction H as [|x l Hs IH Hf]; intros k Hk; [cbn in Hk; lia|]. rewrite Forall_forall in Hf. destruct k as [|[|k]]; [lia| |].
  - cbn [Nat.sub nth]. split; [left; reflexivity|]. unfold below, upto. cbn [filter]. destruct (Rlt_dec x x); [lra|]. destruct (Rle_dec x x); [|lra]. cbn [length]. split; [|lia].
    assert (E : filter (fun d => if Rlt_dec d x then true else false) l = []). { clear IH Hs Hk. induction l as [|y l IHl]; [reflexivity|]. cbn [filter]. destruct (Rlt_dec y x) as [Hy|]; [pose proof (Hf y (or_introl eq_refl)); lra|]. apply IHl. intros z Hz. apply Hf. right. exact Hz. }
    rewrite E. cbn. lia.
  - cbn [length] in Hk. destruct (IH (S k) ltac:(lia)) as [IH1 IH2]. replace (S (S k) - 1)%nat with (S (S k - 1)) by lia. cbn [nth]. set (v := nth (S k - 1) l 0) in *. pose proof (Hf v IH1) as Hxv. split; [right; exact IH1|].
    unfold below, upto in *. cbn [filter]. destruct (Rle_dec x v); [|lra]. cbn [length]. split; [|lia]. destruct (Rlt_dec x v); cbn [length]; lia.
Qed.
Lemma kth_perm k l l' v : Permutation l l' -> KthSmallest k l v -> KthSmallest k l' v.
Proof.
  intros HP [H1 H2]. split; [eapply Permutation_in; eassumption|]. unfold below, upto in *. rewrite <- (filter_perm_len _ _ _ HP), <- (filter_perm_len _ _ _ HP). exact H2.
Qed.
Lemma kth_sort l k : (1 <= k <= length l)%nat -> KthSmallest k l (nth (k - 1) (sortR l) 0).
Proof. intros H. apply (kth_perm k (sortR l)); [apply sortR_perm|]. apply kth_sorted; [apply sortR_sorted|]. rewrite (Permutation_length (sortR_perm l)). exact H. Qed.
Lemma filter_le_len {A} (f g : A -> bool) l : (forall x, f x = true -> g x = true) -> (length (filter f l) <= length (filter g l))%nat.
Proof. intros H. induction l as [|x l IH]; cbn; [lia|]. destruct (f x) eqn:E; [rewrite (H x E); cbn; lia|]. destruct (g x); cbn; lia. Qed.
Lemma kth_unique k l v w : KthSmallest k l v -> KthSmallest k l w -> v = w.
Proof.
  assert (G : forall v w, KthSmallest k l v -> KthSmallest k l w -> ~ v < w).
  { intros a b [_ Ha] [_ Hb] Hlt. assert (upto a l <= below b l)%nat; [|lia]. apply filter_le_len. intros x. destruct (Rle_dec x a); [|discriminate]. intros _. destruct (Rlt_dec x b); [reflexivity | lra]. }
  intros Hv Hw. pose proof (G v w Hv Hw). pose proof (G w v Hw Hv). lra.
Qed.
Lemma norm_vdist' x y : norm x y = vdist x y.
Proof. unfold norm, vdist. f_equal. rewrite rsuml_total. apply f_equal, map_ext. intros; ring. Qed.
Lemma kneigh_ok k pts xs : (1 <= k <= length pts)%nat -> xs <> [] -> exists ds, kneigh k pts xs = Ok ds /\ Neighbours k pts xs ds.
Proof.
  intros Hk Hx. unfold kneigh. destruct (Nat.eqb_spec k 0); [lia|]. destruct (Nat.ltb_spec (length pts) k); [lia|]. destruct (Nat.eqb_spec (length xs) 0); [destruct xs; [congruence | discriminate]|]. cbn [orb]. eexists. split; [reflexivity|].
  unfold Neighbours. clear Hx n0. induction xs as [|x xs IH]; cbn [map]; constructor; [|exact IH]. assert (E : map (norm x) pts = map (vdist x) pts) by (apply map_ext; intros; apply norm_vdist'). rewrite E. apply kth_sort. rewrite map_length. exact Hk.
Qed.
Lemma kneigh_err k pts xs : (~ (1 <= k <= length pts))%nat \/ xs = [] -> kneigh k pts xs = Err ValueError.
Proof.
  intros H. unfold kneigh. destruct (Nat.eqb_spec k 0); [reflexivity|]. destruct (Nat.ltb_spec (length pts) k); [reflexivity|]. destruct H as [H | ->]; [exfalso; apply H; lia | reflexivity].
Qed.
Lemma kneigh_iff k pts xs ds : kneigh k pts xs = Ok ds -> (1 <= k <= length pts)%nat /\ xs <> [] /\ Neighbours k pts xs ds.
Proof.
  intros H. destruct (le_lt_dec 1 k) as [H1|H1]; [destruct (le_lt_dec k (length pts)) as [H2|H2]|].
  - destruct xs as [|x xs]; [rewrite kneigh_err in H by (right; reflexivity); discriminate|]. destruct (kneigh_ok k pts (x :: xs) ltac:(lia) ltac:(discriminate)) as (ds' & E & HN). rewrite E in H. injection H as <-. split; [lia|]. split; [discriminate | exact HN].
  - rewrite kneigh_err in H by (left; lia). discriminate.
  - rewrite kneigh_err in H by (left; lia). discriminate.
Qed.
Lemma neigh_len k pts xs ds : Neighbours k pts xs ds -> length ds = length xs.
Proof. unfold Neighbours. intros H. induction H; cbn; congruence. Qed.
Lemma neigh_nonneg k pts xs ds : Neighbours k pts xs ds -> Forall (fun d => 0 <= d) ds.
Proof.
  unfold Neighbours. intros H. induction H as [|x d xs ds [Hi _] H IH]; constructor; [|exact IH]. apply in_map_iff in Hi. destruct Hi as (y & <- & _). rewrite vdist_sq. apply sqrt_pos.
Qed.
Lemma neigh_unique k pts xs ds ds' : Neighbours k pts xs ds -> Neighbours k pts xs ds' -> ds = ds'.
Proof. unfold Neighbours. intros H. revert ds'. induction H as [|x d xs ds Hd H IH]; intros ds' H'; inversion H'; subst; [reflexivity|]. f_equal; [eapply kth_unique; eassumption | apply IH; assumption]. Qed.

(** extended reals *)
Lemma xsum_map_fin {A} (f : A -> xr) (g : A -> R) l : (forall x, In x l -> f x = XR (g x)) -> xsum (map f l) = XR (total (map g l)).
Proof.
  intros H. assert (E : map f l = map XR (map g l)) by (rewrite map_map; apply map_ext_in; exact H). rewrite E, xsum_fin. reflexivity.
Qed.
Lemma xpowr_pos r a : 0 < r -> xpowr (XR r) a = XR (Rpower r a).
Proof. intros H. cbn. rewrite rsign_pos by exact H. reflexivity. Qed.
Lemma combine_pos (l l' : list R) (a b : R) : Forall (fun x => 0 < x) l' -> In (a, b) (combine l l') -> 0 < b.
Proof. intros H Hi. apply in_combine_r in Hi. rewrite Forall_forall in H. apply H, Hi. Qed.
(** sums of non-negative or infinite or undefined terms *)
Definition nnx (a : xr) : Prop := match a with XR r => 0 <= r | XInf => True | XNInf => False | XNaN => True end.
Lemma nnx_add a b : nnx a -> nnx b -> nnx (xadd a b).
Proof. destruct a, b; cbn; intros; try tauto; lra. Qed.
Lemma nnx_sum l : Forall nnx l -> nnx (xsum l).
Proof.
  unfold xsum. assert (G : forall l a, nnx a -> Forall nnx l -> nnx (fold_left xadd l a)). { clear l. induction l as [|x l IH]; intros a Ha Hl; [exact Ha|]. cbn [fold_left]. apply IH; [apply nnx_add; [exact Ha | exact (Forall_inv Hl)] | exact (Forall_inv_tail Hl)]. }
  apply G. cbn. lra.
Qed.
Lemma nnx_term a b p : 0 <= a -> 0 <= b -> nnx (xpowr (xdiv (XR a) (XR b)) p).
Proof.
  intros Ha Hb. unfold xdiv. destruct (Rle_lt_or_eq_dec 0 b Hb) as [Hb'|<-].
  - rewrite rsign_pos by exact Hb'. destruct (Rle_lt_or_eq_dec 0 a Ha) as [Ha'|<-]; [rewrite xpowr_pos by (apply Rdiv_lt_0_compat; assumption); cbn; apply Rlt_le, exp_pos|]. unfold Rdiv. rewrite Rmult_0_l. cbn. rewrite rsign_zero. cbn. lra.
  - rewrite rsign_zero. destruct (Rle_lt_or_eq_dec 0 a Ha) as [Ha'|<-]; [rewrite rsign_pos by exact Ha'; exact I | rewrite rsign_zero; exact I].
Qed.
Lemma half_mean_range a b : (a = XNaN \/ a = XNInf \/ exists r, a = XR r /\ r <= 2) -> (b = XNaN \/ b = XNInf \/ exists r, b = XR r /\ r <= 2) ->
  (xmul (XR (/ 2)) (xadd a b) = XNaN \/ xmul (XR (/ 2)) (xadd a b) = XNInf \/ exists r, xmul (XR (/ 2)) (xadd a b) = XR r /\ r <= 2).
Proof.
  assert (E : rsign (/ 2) = Some true) by (apply rsign_pos; lra).
  intros [-> | [-> | (r & -> & Hr)]] [-> | [-> | (s & -> & Hs)]]; cbn; rewrite ?E; cbn; try tauto. right. right. eexists. split; [reflexivity | lra].
Qed.
Lemma hell_one_range p n m rho nu : Forall (fun d => 0 <= d) rho -> Forall (fun d => 0 <= d) nu -> hell_one p n m rho nu = XNaN \/ hell_one p n m rho nu = XNInf \/ exists r, hell_one p n m rho nu = XR r /\ r <= 2.
Proof.
  intros Hr Hn. unfold hell_one. set (S := xsum _). assert (HS : nnx S).
  { apply nnx_sum. apply Forall_map, Forall_forall. intros (a, b) Hi. cbn [fst snd]. rewrite Forall_forall in Hr, Hn. apply nnx_term; [eapply Hr, in_combine_l, Hi | eapply Hn, in_combine_r, Hi]. }
  set (c := 2 * sqrt (rn (n - 1) / rn m)). assert (Hc : 0 <= c) by (unfold c; pose proof (sqrt_pos (rn (n - 1) / rn m)); lra). clearbody c S.
  destruct S as [s| | |]; cbn in HS |- *; [| |contradiction|left; destruct (rsign c); reflexivity].
  - right. right. eexists. split; [reflexivity|]. pose proof (Rmult_le_pos c s Hc HS). lra.
  - destruct (Rle_lt_or_eq_dec 0 c Hc) as [Hc'|<-]; [rewrite rsign_pos by exact Hc' | rewrite rsign_zero]; cbn; [right; left; reflexivity | left; reflexivity].
Qed.
Lemma sum2_nonneg f (l l' : list R) : (forall a b, In (a, b) (combine l l') -> 0 <= f a b) -> 0 <= sum2 f l l'.
Proof. intros H. unfold sum2. apply total_nonneg. apply Forall_map, Forall_forall. intros (a, b) Hi. apply H, Hi. Qed.
Lemma hell_one_fin p n m rho nu : positive rho -> positive nu -> hell_one p n m rho nu = XR (2 - 2 * sqrt (INR (n - 1) / INR m) * sum2 (fun r v => Rpower (r / v) (INR p / 2)) rho nu).
Proof.
  intros Hr Hn. unfold hell_one. rewrite (xsum_map_fin _ (fun ab => Rpower (fst ab / snd ab) (INR p / 2))).
  - cbn [xmul xsub xopp xadd]. f_equal.
  - intros (a, b) Hi. cbn [fst snd]. unfold positive in *. rewrite Forall_forall in Hr, Hn. pose proof (Hr a (in_combine_l _ _ _ _ Hi)). pose proof (Hn b (in_combine_r _ _ _ _ Hi)). rewrite xdiv_fin by lra. apply xpowr_pos. apply Rdiv_lt_0_compat; assumption.
Qed.
Lemma inv_pow_fin l a : positive l -> inv_pow_sum l a = XR (total (map (fun r => / Rpower r a) l)).
Proof.
  intros H. unfold inv_pow_sum. apply xsum_map_fin. intros r Hi. unfold positive in H. rewrite Forall_forall in H. rewrite xpowr_pos by (apply H, Hi). pose proof (exp_pos (a * ln r)) as Hp. fold (Rpower r a) in Hp. rewrite xdiv_fin by lra. f_equal. unfold Rdiv. ring.
Qed.
Lemma inv_pow_pos l a : l <> [] -> 0 < total (map (fun r => / Rpower r a) l).
Proof.
  intros H. rewrite <- total_rsum. apply rsum_pos; [destruct l; [congruence | discriminate]|]. apply Forall_map, Forall_forall. intros r _. apply Rinv_0_lt_compat, exp_pos.
Qed.

(** classifier scores *)
Lemma filter_length_le {A} (f : A -> bool) l : (length (filter f l) <= length l)%nat.
Proof. induction l as [|x l IH]; cbn; [lia|]. destruct (f x); cbn; lia. Qed.
Lemma accuracy_range pred lab : lab <> [] -> 0 <= accuracy pred lab <= 1.
Proof.
  intros H. unfold accuracy, rn. pose proof (INR_len_pos lab H) as Hp. pose proof (filter_length_le (fun ab => Bool.eqb (fst ab) (snd ab)) (combine pred lab)) as Hf. rewrite combine_length in Hf.
  split; [apply Rmult_le_pos; [apply pos_INR | apply Rlt_le, Rinv_0_lt_compat, Hp]|]. apply (Rmult_le_reg_r (INR (length lab))); [exact Hp|]. unfold Rdiv. rewrite Rmult_assoc, Rinv_l by lra. rewrite Rmult_1_r, Rmult_1_l. apply le_INR. lia.
Qed.

(** fold labels *)
Lemma nth_error_firstn_lt' {A} (l : list A) : forall j i, (i < j)%nat -> nth_error (firstn j l) i = nth_error l i.
Proof. induction l as [|x l IH]; intros [|j] [|i] H; try lia; cbn; try reflexivity. apply IH. lia. Qed.
Lemma ceil_div_spec n f : (1 <= f)%nat -> (n <= f * ceil_div n f)%nat /\ (f * ceil_div n f < n + f)%nat.
Proof.
  intros Hf. unfold ceil_div. pose proof (Nat.div_mod (n + f - 1) f ltac:(lia)) as H. pose proof (Nat.mod_upper_bound (n + f - 1) f ltac:(lia)). lia.
Qed.
Lemma flat_repeat_nth c f : forall a i, (i < f * c)%nat -> nth_error (flat_map (fun i => repeat i c) (seq a f)) i = Some (a + i / c)%nat.
Proof.
  induction f as [|f IH]; intros a i Hi; [lia|]. assert (Hc : (c <> 0)%nat) by (intros ->; lia). cbn [seq flat_map]. destruct (le_lt_dec c i) as [H|H].
  - rewrite nth_error_app2 by (rewrite repeat_length; exact H). rewrite repeat_length, IH by lia. f_equal. replace i with (i - c + 1 * c)%nat at 2 by lia. rewrite Nat.div_add by exact Hc. lia.
  - rewrite nth_error_app1 by (rewrite repeat_length; exact H). rewrite nth_error_repeat by exact H. rewrite Nat.div_small by exact H. f_equal. lia.
Qed.
Lemma flat_repeat_len c f a : length (flat_map (fun i => repeat i c) (seq a f)) = (f * c)%nat.
Proof. revert a. induction f as [|f IH]; intros a; [reflexivity|]. cbn [seq flat_map]. rewrite app_length, repeat_length, IH. lia. Qed.
Lemma half_len f n : (1 <= f)%nat -> length (half_groups f n) = n.
Proof. intros Hf. unfold half_groups. rewrite firstn_length, flat_repeat_len. pose proof (ceil_div_spec n f Hf). lia. Qed.
Lemma half_nth f n i : (1 <= f)%nat -> (i < n)%nat -> nth_error (half_groups f n) i = Some (i / ceil_div n f)%nat.
Proof.
  intros Hf Hi. unfold half_groups. pose proof (ceil_div_spec n f Hf) as Hc. rewrite nth_error_firstn_lt' by exact Hi.
  rewrite flat_repeat_nth by lia. reflexivity.
Qed.
