(** Lemmas for C71: bins, cells, counting. *)
From Coq Require Import Reals Qreals ZArith Lia Lra.
From Verif Require Import M_Base M_Num M_XReal M_MMD M_Stats M_Graph M_Infer M_Journal M_APM M_Kernel M_Cov M_Posterior S_Journal S_Stats S_Distance L_PMC L_Stats L_Distance L_PosDef L_MMD S_Cov P_Cov S_Posterior L_Posterior.
Open Scope R_scope.

(** smallest and largest value *)
Lemma fold_min_spec : forall l x, (In (fold_left Rmin l x) (x :: l)) /\ forall y, In y (x :: l) -> fold_left Rmin l x <= y.
Proof.
  induction l as [|a l IH]; intros x; [split; [left; reflexivity|intros y [<-|[]]; cbn; lra]|]. cbn [fold_left]. destruct (IH (Rmin x a)) as [I1 I2]. split.
  - destruct I1 as [E|I1]; [|right; right; exact I1]. unfold Rmin in E at 1. destruct (Rle_dec x a); [left; exact E|right; left; exact E].
  - intros y Hy. pose proof (I2 (Rmin x a) (or_introl eq_refl)) as B. destruct Hy as [<-|[<-|Hy]]; [pose proof (Rmin_l x a); lra|pose proof (Rmin_r x a); lra|apply I2; right; exact Hy].
Qed.
Lemma fold_max_spec : forall l x, (In (fold_left Rmax l x) (x :: l)) /\ forall y, In y (x :: l) -> y <= fold_left Rmax l x.
Proof.
  induction l as [|a l IH]; intros x; [split; [left; reflexivity|intros y [<-|[]]; cbn; lra]|]. cbn [fold_left]. destruct (IH (Rmax x a)) as [I1 I2]. split.
  - destruct I1 as [E|I1]; [|right; right; exact I1]. unfold Rmax in E at 1. destruct (Rle_dec x a); [right; left; exact E|left; exact E].
  - intros y Hy. pose proof (I2 (Rmax x a) (or_introl eq_refl)) as B. destruct Hy as [<-|[<-|Hy]]; [pose proof (Rmax_l x a); lra|pose proof (Rmax_r x a); lra|apply I2; right; exact Hy].
Qed.
Lemma outer_range xs : xs <> [] -> Range xs (fst (outer_edges xs)) (snd (outer_edges xs)).
Proof.
  intros NE. destruct xs as [|x xs]; [congruence|]. destruct (fold_min_spec xs x) as [L1 L2]. destruct (fold_max_spec xs x) as [H1 H2]. unfold outer_edges. cbn [lowest highest].
  set (lo := fold_left Rmin xs x) in *. set (hi := fold_left Rmax xs x) in *. destruct (Req_EM_T lo hi) as [E|N]; cbn [fst snd].
  - right. exists lo. split; [lra|]. split; [lra|]. split; [exact L1|]. intros y Hy. specialize (L2 y Hy). specialize (H2 y Hy). lra.
  - left. split; [exact L1|]. split; [exact H1|]. split; [pose proof (L2 hi H1); lra|]. intros y Hy. split; auto.
Qed.
Lemma range_bounds xs lo hi : Range xs lo hi -> lo < hi /\ forall x, In x xs -> lo <= x <= hi.
Proof.
  intros [(_ & _ & H1 & H2)|(v & -> & -> & _ & H)]; [split; assumption|]. split; [lra|]. intros x Hx. rewrite (H x Hx). lra.
Qed.
(** edges *)
Lemma linspace_edges lo hi n : (1 <= n)%nat -> linspace lo hi n = map (edge lo hi n) (seq 0 (S n)).
Proof.
  intros Hn. unfold linspace. apply map_ext. intros k. assert (0 < INR n) by (apply lt_0_INR; lia). destruct (Nat.eqb_spec k n) as [->|_]; unfold edge; field; lra.
Qed.
Lemma edge_top lo hi n : (1 <= n)%nat -> edge lo hi n n = hi.
Proof. intros Hn. assert (0 < INR n) by (apply lt_0_INR; lia). unfold edge. field. lra. Qed.
Lemma edge_zero lo hi n : edge lo hi n 0 = lo.
Proof. unfold edge. cbn [INR]. unfold Rdiv. ring. Qed.
Lemma edge_mono lo hi n i k : (1 <= n)%nat -> lo < hi -> (i < k)%nat -> edge lo hi n i < edge lo hi n k.
Proof.
  intros Hn HL Hik. assert (N : 0 < INR n) by (apply lt_0_INR; lia). unfold edge. apply Rplus_lt_compat_l. unfold Rdiv. apply Rmult_lt_compat_r; [apply Rinv_0_lt_compat; exact N|]. apply Rmult_lt_compat_r; [lra|]. apply lt_INR. exact Hik.
Qed.
Lemma last_linspace lo hi n : (1 <= n)%nat -> last (linspace lo hi n) 0 = hi.
Proof. intros Hn. rewrite linspace_edges by exact Hn. rewrite seq_S, map_app. cbn [map Nat.add]. rewrite last_last. apply edge_top. exact Hn. Qed.
(** counting *)
Lemma filter_map_len {A B} (g : B -> bool) (f : A -> B) l : length (filter g (map f l)) = length (filter (fun x => g (f x)) l).
Proof. induction l as [|x l IH]; [reflexivity|]. cbn [map filter]. destruct (g (f x)); cbn [length]; rewrite IH; reflexivity. Qed.
Lemma count_down (P : nat -> bool) : (forall i k, (i <= k)%nat -> P k = true -> P i = true) -> forall m, exists c, (c <= m)%nat /\ length (filter P (seq 0 m)) = c /\ forall i, (i < m)%nat -> P i = (i <? c)%nat.
Proof.
  intros HP. induction m as [|m (c & Hc & E & HI)]; [exists 0%nat; split; [lia|]; split; [reflexivity|lia]|]. rewrite seq_S, filter_app, app_length, E. cbn [filter Nat.add]. destruct (P m) eqn:Pm.
  - assert (c = m) as ->. { destruct (Nat.eq_dec c m) as [|N]; [assumption|]. pose proof (HP c m ltac:(lia) Pm) as X. rewrite (HI c ltac:(lia)), Nat.ltb_irrefl in X. discriminate. }
    exists (S m). split; [lia|]. split; [cbn; lia|]. intros i Hi. destruct (Nat.eq_dec i m) as [->|N]; [rewrite Pm; symmetry; apply Nat.ltb_lt; lia|]. rewrite (HI i ltac:(lia)). destruct (Nat.ltb_spec i m), (Nat.ltb_spec i (S m)); lia || reflexivity.
  - exists c. split; [lia|]. split; [cbn; lia|]. intros i Hi. destruct (Nat.eq_dec i m) as [->|N]; [|apply HI; lia]. rewrite Pm. symmetry. apply Nat.ltb_ge. exact Hc.
Qed.
Lemma leb_true a b : leb a b = true <-> a <= b.
Proof. unfold leb. destruct (Rle_dec a b); split; intros; auto; discriminate || contradiction. Qed.
Lemma bin_spec lo hi n x : (1 <= n)%nat -> lo < hi -> lo <= x <= hi -> exists k, (k < n)%nat /\ bin_number (linspace lo hi n) x = S k /\ InBin lo hi n k x.
Proof.
  intros Hn HL [HX1 HX2]. unfold bin_number. rewrite last_linspace by exact Hn. rewrite linspace_edges by exact Hn. rewrite filter_map_len.
  destruct (count_down (fun k => leb (edge lo hi n k) x)) with (m := S n) as (c & Hc & E & HI).
  { intros i k Hik H. apply leb_true in H. apply leb_true. destruct (Nat.eq_dec i k) as [->|N]; [exact H|]. pose proof (edge_mono lo hi n i k Hn HL ltac:(lia)). lra. }
  rewrite E. assert (C1 : (1 <= c)%nat). { destruct c as [|c]; [|lia]. assert (Z : leb (edge lo hi n 0) x = true) by (apply leb_true; rewrite edge_zero; exact HX1). rewrite (HI 0%nat ltac:(lia)) in Z. discriminate. }
  destruct (Req_EM_T x hi) as [->|N].
  - assert (c = S n) as ->. { assert (Z : leb (edge lo hi n n) hi = true) by (apply leb_true; rewrite edge_top by exact Hn; lra). rewrite (HI n ltac:(lia)) in Z. apply Nat.ltb_lt in Z. lia. }
    exists (n - 1)%nat. split; [lia|]. split; [lia|]. split; [lia|]. split; [|right; split; [lia|reflexivity]]. pose proof (edge_mono lo hi n (n - 1) n Hn HL ltac:(lia)). rewrite (edge_top lo hi n Hn) in H. lra.
  - assert (c < S n)%nat. { destruct (Nat.eq_dec c (S n)) as [->|]; [|lia]. exfalso. pose proof (HI n ltac:(lia)) as Z. replace (n <? S n)%nat with true in Z by (symmetry; apply Nat.ltb_lt; lia). apply leb_true in Z. rewrite (edge_top lo hi n Hn) in Z. lra. }
    exists (c - 1)%nat. split; [lia|]. split; [lia|]. split; [lia|]. split.
    + apply leb_true. rewrite HI by lia. apply Nat.ltb_lt. lia.
    + left. replace (c - 1 + 1)%nat with c by lia. pose proof (HI c ltac:(lia)) as Z. rewrite Nat.ltb_irrefl in Z. destruct (Rle_dec (edge lo hi n c) x) as [L|G]; [apply leb_true in L; congruence|lra].
Qed.
Lemma inbin_unique lo hi n x k k' : (1 <= n)%nat -> lo < hi -> InBin lo hi n k x -> InBin lo hi n k' x -> k = k'.
Proof.
  intros Hn HL. assert (G : forall k k', InBin lo hi n k x -> InBin lo hi n k' x -> (k < k')%nat -> False).
  { clear k k'. intros k k' (K1 & K2 & K3) (K1' & K2' & K3') Hk. destruct K3 as [K3|[K3 ->]]; [|lia].
    destruct (Nat.eq_dec (k + 1) k') as [<-|N]; [lra|]. pose proof (edge_mono lo hi n (k + 1) k' Hn HL ltac:(lia)). lra. }
  intros H H'. destruct (Nat.lt_trichotomy k k') as [L|[L|L]]; [destruct (G _ _ H H' L)|exact L|destruct (G _ _ H' H L)].
Qed.
Lemma bin_iff lo hi n x k : (1 <= n)%nat -> lo < hi -> lo <= x <= hi -> bin_number (linspace lo hi n) x = S k <-> InBin lo hi n k x.
Proof.
  intros Hn HL HX. destruct (bin_spec lo hi n x Hn HL HX) as (k0 & K1 & K2 & K3). rewrite K2. split; [intros [= <-]; exact K3|]. intros H. f_equal. exact (inbin_unique lo hi n x k0 k Hn HL K3 H).
Qed.
(** cells *)
Lemma ravel_inj_acc b : forall l l' acc acc', length l = length l' -> Forall (fun k => (k < b)%nat) l -> Forall (fun k => (k < b)%nat) l' ->
  fold_left (fun a k => (a * b + k)%nat) l acc = fold_left (fun a k => (a * b + k)%nat) l' acc' -> acc = acc' /\ l = l'.
Proof.
  induction l as [|k l IH]; intros [|k' l'] acc acc' HL HF HF' E; try discriminate; [split; [exact E|reflexivity]|]. cbn [fold_left] in E. inversion HF as [|? ? Hk HFl]; subst. inversion HF' as [|? ? Hk' HFl']; subst.
  destruct (IH l' _ _ (eq_add_S _ _ HL) HFl HFl' E) as [E1 ->]. assert (acc = acc') as ->. { destruct (Nat.lt_trichotomy acc acc') as [L|[L|L]]; [|exact L|]; nia. } split; [reflexivity|]. f_equal. lia.
Qed.
Lemma ravel_inj b l l' : length l = length l' -> Forall (fun k => (k < b)%nat) l -> Forall (fun k => (k < b)%nat) l' -> ravel b l = ravel b l' -> l = l'.
Proof. intros HL HF HF' E. exact (proj2 (ravel_inj_acc b l l' 0 0 HL HF HF' E)). Qed.
Lemma cells_spec p n c : In c (cells p n) <-> length c = p /\ Forall (fun k => (k < n)%nat) c.
Proof.
  revert c. induction p as [|p IH]; intros c; cbn [cells].
  - split; [intros [<-|[]]; split; [reflexivity|constructor]|intros [H _]; destruct c; [left; reflexivity|discriminate]].
  - rewrite in_flat_map. split.
    + intros (k & Hk & Hc). apply in_map_iff in Hc. destruct Hc as (c' & <- & Hc'). apply IH in Hc'. apply in_seq in Hk. destruct Hc' as [L F]. split; [cbn; lia|constructor; [lia|exact F]].
    + intros [L F]. destruct c as [|k c]; [discriminate|]. inversion F; subst. exists k. split; [apply in_seq; lia|]. apply in_map, IH. split; [injection L as L; exact L|assumption].
Qed.
Lemma nodup_app {A} (a b : list A) : NoDup a -> NoDup b -> (forall x, In x a -> ~ In x b) -> NoDup (a ++ b).
Proof.
  intros Ha Hb. induction Ha as [|x a Hx Ha IH]; intros D; [exact Hb|]. cbn [app]. constructor.
  - intros HI. apply in_app_or in HI. destruct HI as [HI|HI]; [contradiction|]. exact (D x (or_introl eq_refl) HI).
  - apply IH. intros y Hy. apply D. right. exact Hy.
Qed.
Lemma cells_nodup p n : NoDup (cells p n).
Proof.
  induction p as [|p IH]; cbn [cells]; [constructor; [intros []|constructor]|]. generalize (seq_NoDup n 0). generalize (seq 0 n). induction 1 as [|k l Hk Hl IHl]; [constructor|]. cbn [flat_map]. apply nodup_app.
  - apply FinFun.Injective_map_NoDup; [intros a b [= E]; exact E|exact IH].
  - exact IHl.
  - intros x Hx Hy. apply in_map_iff in Hx. destruct Hx as (c & <- & _). apply in_flat_map in Hy. destruct Hy as (k' & Hk' & Hy). apply in_map_iff in Hy. destruct Hy as (c' & [= <- _] & _). contradiction.
Qed.
(** sums *)
Lemma total_filter {A} (P : A * R -> bool) : forall l, total (map snd (filter P l)) = total (map (fun q => if P q then snd q else 0) l).
Proof. induction l as [|q l IH]; [reflexivity|]. cbn [filter map]. rewrite total_cons. destruct (P q); cbn [map]; rewrite ?total_cons, IH; ring. Qed.
Lemma combine_seq {A} (f : nat -> A) w : combine (map f (seq 0 (length w))) w = map (fun s => (f s, nth s w 0)) (seq 0 (length w)).
Proof.
  assert (E : w = map (fun s => nth s w 0) (seq 0 (length w))) by (rewrite <- (map_id w) at 1; apply (map_seq_nth (fun x => x) 0)).
  transitivity (combine (map f (seq 0 (length w))) (map (fun s => nth s w 0) (seq 0 (length w)))); [rewrite <- E; reflexivity|apply combine_maps].
Qed.
Lemma bincount_sum (f : nat -> nat) w c : bincount (map f (seq 0 (length w))) w c = total (map (fun s => if (f s =? c)%nat then nth s w 0 else 0) (seq 0 (length w))).
Proof. unfold bincount. rewrite rsuml_total', total_filter, combine_seq, map_map. reflexivity. Qed.
Lemma total_single {A} (l : list A) (f : A -> bool) x0 a : NoDup l -> In x0 l -> (forall x, In x l -> f x = true <-> x = x0) -> total (map (fun x => if f x then a else 0) l) = a.
Proof.
  induction 1 as [|x l Hx Hl IH]; intros HI Hf; [destruct HI|]. cbn [map]. rewrite total_cons. destruct HI as [->|HI].
  - rewrite (proj2 (Hf x0 (or_introl eq_refl)) eq_refl). rewrite (total_ext _ (fun _ => 0)); [rewrite total_const; ring|]. intros y Hy. destruct (f y) eqn:E; [|reflexivity]. apply Hf in E; [subst; contradiction|right; exact Hy].
  - destruct (f x) eqn:E; [apply Hf in E; [subst; contradiction|left; reflexivity]|]. rewrite IH; [ring|exact HI|]. intros y Hy. apply Hf. right. exact Hy.
Qed.
