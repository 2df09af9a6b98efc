(** Facts about [num], sorting and quantiles. *)
From Verif Require Import M_Base M_Num.
From Coq Require Import Permutation Sorted Lqa Qround.

Lemma nlt_fin x y : nlt (Fin x) (Fin y) = true <-> (x < y)%Q.
Proof.
  cbn. destruct (Qle_bool y x) eqn:E; cbn.
  - apply Qle_bool_iff in E. split; [discriminate | intros H; lra].
  - split; [intros _|reflexivity]. destruct (Qlt_le_dec x y) as [H|H]; [exact H|]. apply Qle_bool_iff in H. congruence.
Qed.
Lemma nle_fin x y : nle (Fin x) (Fin y) = true <-> (x <= y)%Q.
Proof. apply Qle_bool_iff. Qed.
Lemma nlt_irrefl a : nlt a a = false.
Proof. destruct a as [q| | |]; cbn; try reflexivity. assert (H : Qle_bool q q = true) by (apply Qle_bool_iff; lra). rewrite H. reflexivity. Qed.
Lemma nlt_trans a b c : nlt a b = true -> nlt b c = true -> nlt a c = true.
Proof.
  destruct a, b, c; try (cbn; intros; congruence). rewrite !nlt_fin. intros; lra.
Qed.
Lemma nlt_nle_trans a b c : nlt a b = true -> nle b c = true -> nlt a c = true.
Proof.
  destruct a, b, c; try (cbn; intros; congruence). rewrite !nlt_fin, nle_fin. intros; lra.
Qed.
Lemma nle_nlt_trans a b c : nle a b = true -> nlt b c = true -> nlt a c = true.
Proof.
  destruct a, b, c; try (cbn; intros; congruence). rewrite !nlt_fin, nle_fin. intros; lra.
Qed.
Lemma nle_trans a b c : nle a b = true -> nle b c = true -> nle a c = true.
Proof.
  destruct a, b, c; try (cbn; intros; congruence). rewrite !nle_fin. intros; lra.
Qed.
(** a comparison that is not strictly greater: at most, or NaN is involved *)
Lemma nlt_false a b : nlt b a = false <-> nle a b = true \/ is_nan a = true \/ is_nan b = true.
Proof.
  destruct a as [x| | |], b as [y| | |]; cbn; try (intuition congruence).
  destruct (Qle_bool x y); cbn; intuition congruence.
Qed.
Lemma nle_nan_r a : nle a NaN = false.
Proof. destruct a; reflexivity. Qed.
Lemma nlt_nle a b : nlt a b = true -> nle a b = true.
Proof. destruct a, b; try (cbn; intros; congruence). rewrite nlt_fin, nle_fin. intros; lra. Qed.

(** * Sorting *)
Lemma insert_perm x l : Permutation (insert x l) (x :: l).
Proof.
  induction l as [|y l IH]; cbn; [reflexivity|]. destruct (sle x y); [reflexivity|]. rewrite IH. constructor.
Qed.
Lemma nsort_perm l : Permutation (nsort l) l.
Proof. induction l as [|x l IH]; cbn; [reflexivity|]. rewrite insert_perm, IH. reflexivity. Qed.
Lemma nsort_length l : length (nsort l) = length l.
Proof. apply Permutation_length, nsort_perm. Qed.
Lemma sle_total a b : sle a b = false -> sle b a = true.
Proof.
  destruct a as [x| | |], b as [y| | |]; cbn; try congruence. intros H. destruct (Qle_bool y x) eqn:E; [reflexivity|].
  apply not_true_iff_false in H. apply not_true_iff_false in E. rewrite Qle_bool_iff in *. exfalso. lra.
Qed.
Lemma sle_trans a b c : sle a b = true -> sle b c = true -> sle a c = true.
Proof.
  destruct a as [x| | |], b as [y| | |], c as [z| | |]; cbn; try congruence. rewrite !Qle_bool_iff. intros; lra.
Qed.
Lemma insert_sorted x l : StronglySorted (fun a b => sle a b = true) l -> StronglySorted (fun a b => sle a b = true) (insert x l).
Proof.
  induction 1 as [|y l Hs IH Hf]; cbn; [repeat constructor|]. destruct (sle x y) eqn:E.
  - constructor; [constructor; assumption|]. constructor; [exact E|]. rewrite Forall_forall in *. intros z Hz. apply sle_trans with y; auto.
  - constructor; [exact IH|]. rewrite Forall_forall in *. intros z Hz. apply (Permutation_in _ (insert_perm x l)) in Hz. destruct Hz as [<-|Hz]; [apply sle_total; exact E | auto].
Qed.
Lemma nsort_sorted l : StronglySorted (fun a b => sle a b = true) (nsort l).
Proof. induction l as [|x l IH]; cbn; [constructor|]. apply insert_sorted. exact IH. Qed.

(** finite vectors *)
Lemma fin_perm (ql : list Q) l : Permutation l (map Fin ql) -> exists ql', l = map Fin ql' /\ Permutation ql' ql.
Proof.
  intros H. assert (Hex : exists ql', l = map Fin ql').
  { assert (Hall : forall x, In x l -> exists q, x = Fin q).
    { intros x Hx. apply (Permutation_in _ H) in Hx. apply in_map_iff in Hx. destruct Hx as (q & <- & _). eauto. }
    clear H. induction l as [|x l IH]; [exists []; reflexivity|]. destruct (Hall x (or_introl eq_refl)) as [q ->].
    destruct IH as [ql' ->]; [intros y Hy; apply Hall; right; exact Hy|]. exists (q :: ql'). reflexivity. }
  destruct Hex as [ql' ->]. exists ql'. split; [reflexivity|].
  apply (Permutation_map (fun n => match n with Fin q => q | _ => 0%Q end)) in H. rewrite !map_map in H. rewrite !map_id in H. exact H.
Qed.
Definition qsorted (l : list Q) : Prop := StronglySorted Qle l.
Lemma nsort_fin ql : exists s, nsort (map Fin ql) = map Fin s /\ Permutation s ql /\ qsorted s.
Proof.
  destruct (fin_perm ql (nsort (map Fin ql)) (nsort_perm _)) as (s & E & Hp). exists s. split; [exact E|]. split; [exact Hp|].
  pose proof (nsort_sorted (map Fin ql)) as Hs. rewrite E in Hs. clear E Hp. induction s as [|x s IH]; [constructor|].
  cbn in Hs. apply StronglySorted_inv in Hs. destruct Hs as [H1 H2]. constructor; [apply IH; exact H1|].
  rewrite Forall_forall in *. intros y Hy. apply Qle_bool_iff. apply (H2 (Fin y)). apply in_map. exact Hy.
Qed.
Lemma qsorted_nth s : qsorted s -> forall i j d, (i <= j)%nat -> (j < length s)%nat -> (nth i s d <= nth j s d)%Q.
Proof.
  induction 1 as [|x s Hs IH Hf]; intros i j d Hij Hj; [cbn in Hj; lia|]. destruct i as [|i], j as [|j]; cbn [nth length] in *; try lia; try lra.
  - rewrite Forall_forall in Hf. apply Hf. apply nth_In. lia.
  - apply IH; lia.
Qed.

(** * Quantiles of finite vectors *)
Open Scope Q_scope.
Definition rank (n : nat) (q : Q) : Q := inject_Z (Z.of_nat n - 1) * q.
Lemma rank_range n q : (n <> 0)%nat -> 0 <= q -> q <= 1 -> 0 <= rank n q /\ rank n q <= inject_Z (Z.of_nat n - 1).
Proof.
  intros Hn H0 H1. unfold rank. assert (H : 0 <= inject_Z (Z.of_nat n - 1)) by (change 0 with (inject_Z 0); rewrite <- Zle_Qle; lia). nra.
Qed.
Lemma floor_range n q : (n <> 0)%nat -> 0 <= q -> q <= 1 -> (Z.to_nat (Qfloor (rank n q)) < n)%nat /\ (0 <= Qfloor (rank n q))%Z.
Proof.
  intros Hn H0 H1. destruct (rank_range n q Hn H0 H1) as [A B].
  assert (Hf : (0 <= Qfloor (rank n q))%Z). { change 0%Z with (Qfloor (inject_Z 0)). apply Qfloor_resp_le. exact A. }
  split; [|exact Hf]. apply Qfloor_resp_le in B. rewrite Qfloor_Z in B. lia.
Qed.
Lemma lerp_fin a b t : exists c, lerp (Fin a) (Fin b) t = Fin c /\ c == a + (b - a) * t.
Proof.
  unfold lerp. destruct (Qle_bool (1 # 2) t); cbn; eexists; (split; [reflexivity|]); ring.
Qed.
Definition qstat (s : list Q) (n : nat) (q : Q) : Q :=
  let p := Z.to_nat (Qfloor (rank n q)) in
  let p' := Nat.min (S p) (n - 1) in
  nth p s 0 + (nth p' s 0 - nth p s 0) * (rank n q - inject_Z (Qfloor (rank n q))).
Lemma existsb_fin ql : existsb is_nan (map Fin ql) = false.
Proof. induction ql as [|x l IH]; cbn; [reflexivity | exact IH]. Qed.
Lemma quantile_fin ql q : ql <> [] -> 0 <= q -> q <= 1 ->
  exists s c, Permutation s ql /\ qsorted s /\ quantile (map Fin ql) q = Ok (Fin c) /\ c == qstat s (length ql) q.
Proof.
  intros Hne H0 H1. destruct (nsort_fin ql) as (s & E & Hp & Hs).
  assert (Hlen : length s = length ql) by (apply Permutation_length; exact Hp).
  assert (Hn : (length ql <> 0)%nat) by (destruct ql; [congruence | cbn; lia]).
  destruct (floor_range (length ql) q Hn H0 H1) as [Hp1 Hp0].
  unfold quantile. rewrite (proj2 (Qle_bool_iff 0 q) H0), (proj2 (Qle_bool_iff q 1) H1). cbn [andb negb].
  rewrite map_length. fold (rank (length ql) q). rewrite E, existsb_fin.
  set (p := Z.to_nat (Qfloor (rank (length ql) q))) in *.
  rewrite (nth_indep (map Fin s) NaN (Fin 0)) by (rewrite map_length; lia).
  rewrite (nth_indep (map Fin s) NaN (Fin 0) (n := Nat.min (S p) (length ql - 1))) by (rewrite map_length; lia). rewrite !map_nth.
  destruct (lerp_fin (nth p s 0) (nth (Nat.min (S p) (length ql - 1)) s 0) (rank (length ql) q - inject_Z (Qfloor (rank (length ql) q)))) as (c & Ec & Hc).
  exists s, c. split; [exact Hp|]. split; [exact Hs|]. split; [|rewrite Hc; unfold qstat; fold p; reflexivity].
  rewrite Ec. destruct ql as [|x ql]; [congruence|]. reflexivity.
Qed.
(** the quantile lies between the neighbouring order statistics *)
Lemma frac_range x : 0 <= x - inject_Z (Qfloor x) /\ x - inject_Z (Qfloor x) < 1.
Proof. pose proof (Qfloor_le x). pose proof (Qlt_floor x). rewrite inject_Z_plus in H0. unfold inject_Z at 2 in H0. split; lra. Qed.
Lemma qstat_between s n q : qsorted s -> length s = n -> (n <> 0)%nat -> 0 <= q -> q <= 1 ->
  let p := Z.to_nat (Qfloor (rank n q)) in
  nth p s 0 <= qstat s n q <= nth (Nat.min (S p) (n - 1)) s 0.
Proof.
  intros Hs Hl Hn H0 H1 p. destruct (floor_range n q Hn H0 H1) as [Hp _]. fold p in Hp.
  assert (Hle : nth p s 0 <= nth (Nat.min (S p) (n - 1)) s 0) by (apply qsorted_nth; [exact Hs | lia | lia]).
  destruct (frac_range (rank n q)) as [F0 F1]. unfold qstat. fold p. 
  set (t := rank n q - inject_Z (Qfloor (rank n q))) in *. set (a := nth p s 0) in *. set (b := nth (Nat.min (S p) (n - 1)) s 0) in *. split; nra.
Qed.
