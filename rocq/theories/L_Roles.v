(** Proofs about the communicator layout. *)
From Verif Require Import M_Base M_Roles.
From Coq Require Import ZArith.

Lemma filter_none {A} (P : A -> bool) l : (forall x, In x l -> P x = false) -> filter P l = [].
Proof. induction l as [|x l IH]; intros H; cbn; [reflexivity|]. rewrite H by (left; reflexivity). apply IH. intros y Hy. apply H. right. exact Hy. Qed.
Lemma filter_all {A} (P : A -> bool) l : (forall x, In x l -> P x = true) -> filter P l = l.
Proof. induction l as [|x l IH]; intros H; cbn; [reflexivity|]. rewrite H by (left; reflexivity). f_equal. apply IH. intros y Hy. apply H. right. exact Hy. Qed.
Lemma filter_map_comm {A B} (P : B -> bool) (f : A -> B) l : filter P (map f l) = map f (filter (fun x => P (f x)) l).
Proof. induction l as [|x l IH]; cbn; [reflexivity|]. destruct (P (f x)); cbn; rewrite IH; reflexivity. Qed.

(** * Any list of scheduler ranks *)
Lemma split_rank0 col r : split_rank col r = 0 <-> forall j, j < r -> col j <> col r.
Proof.
  unfold split_rank. split.
  - intros H j Hj E. apply length_zero_iff_nil in H. assert (Hin : In j (filter (fun j => Z.eqb (col j) (col r)) (seq 0 r))).
    { apply filter_In. split; [apply in_seq; lia | apply Z.eqb_eq; exact E]. } rewrite H in Hin. destruct Hin.
  - intros H. rewrite filter_none; [reflexivity|]. intros j Hj. apply in_seq in Hj. apply Z.eqb_neq. apply H. lia.
Qed.
Lemma least (col : nat -> Z) r : exists l, l <= r /\ col l = col r /\ forall j, j < l -> col j <> col r.
Proof.
  induction r as [r IH] using lt_wf_ind.
  destruct (existsb (fun j => Z.eqb (col j) (col r)) (seq 0 r)) eqn:E.
  - apply existsb_exists in E. destruct E as (j & Hj & E). apply in_seq in Hj. apply Z.eqb_eq in E.
    destruct (IH j ltac:(lia)) as (l & H1 & H2 & H3). exists l. split; [lia|]. rewrite E in *. auto.
  - exists r. split; [lia|]. split; [reflexivity|]. intros j Hj Ec. apply not_true_iff_false in E. apply E.
    apply existsb_exists. exists j. split; [apply in_seq; lia | apply Z.eqb_eq; exact Ec].
Qed.
Lemma leader_iff sched ppm r : f_leader (role sched ppm r) = true <-> r <> 0 /\ model_rank sched ppm r = 0.
Proof.
  unfold role. destruct (Nat.eqb_spec r 0) as [->|H]; cbn; [split; [discriminate | intros [H _]; congruence]|].
  destruct (Nat.eqb_spec (model_rank sched ppm r) 0); cbn; split; try discriminate; tauto.
Qed.
Lemma one_leader sched ppm size r : r < size -> color sched ppm r <> color sched ppm 0 ->
  exists l, (l < size /\ color sched ppm l = color sched ppm r /\ f_leader (role sched ppm l) = true)
  /\ forall l', color sched ppm l' = color sched ppm r -> f_leader (role sched ppm l') = true -> l' = l.
Proof.
  intros Hr Hc. destruct (least (color sched ppm) r) as (l & H1 & H2 & H3).
  assert (Hl0 : l <> 0) by (intros ->; congruence). exists l. split.
  - split; [lia|]. split; [exact H2|]. apply leader_iff. split; [exact Hl0|]. apply split_rank0. intros j Hj. rewrite H2. apply H3. exact Hj.
  - intros l' E H. apply leader_iff in H. destruct H as [_ H]. unfold model_rank in H. rewrite split_rank0 in H.
    destruct (Nat.lt_trichotomy l' l) as [Hlt|[->|Hlt]]; [exfalso; eapply H3; eassumption | reflexivity |].
    exfalso. apply (H l Hlt). congruence.
Qed.

Lemma count_below sched r : NoDup sched -> length (filter (fun i => Nat.ltb i r) sched) <= r.
Proof.
  intros H. enough (E : length (filter (fun i => Nat.ltb i r) sched) <= length (seq 0 r)) by (rewrite seq_length in E; exact E). apply NoDup_incl_length; [apply NoDup_filter; exact H|].
  intros x Hx. apply filter_In in Hx. destruct Hx as [_ Hx]. apply Nat.ltb_lt in Hx. apply in_seq. lia.
Qed.
Lemma memb_In r l : memb r l = true <-> In r l.
Proof.
  unfold memb. rewrite existsb_exists. split; [intros (x & Hx & E); apply Nat.eqb_eq in E; subst; exact Hx|].
  intros H. exists r. rewrite Nat.eqb_refl. auto.
Qed.
Lemma color_sched sched ppm r : In r sched -> color sched ppm r = 0%Z.
Proof. intros H. unfold color. apply memb_In in H. rewrite H. reflexivity. Qed.
Lemma color_nonsched sched ppm r : NoDup sched -> 0 < ppm -> ~ In r sched -> (1 <= color sched ppm r)%Z.
Proof.
  intros Hn Hp Hr. unfold color. destruct (memb r sched) eqn:E; [apply memb_In in E; contradiction|].
  pose proof (count_below sched r Hn). apply Z.quot_le_lower_bound; lia.
Qed.

(** * The default list [0] *)
Section Default.
Variable p : nat.
Hypothesis Hp : 0 < p.
Notation col := (color [0] p).

Lemma color_pos r : col (S r) = Z.of_nat (S (r / p)).
Proof.
  unfold color. cbn [memb existsb Nat.eqb orb filter]. destruct (Nat.ltb_spec 0 (S r)); [|lia]. cbn [length].
  replace (Z.of_nat (S r) - Z.of_nat 1 + Z.of_nat p)%Z with (Z.of_nat r + 1 * Z.of_nat p)%Z by lia.
  rewrite Z.quot_div_nonneg by lia. rewrite Z.div_add by lia. rewrite <- Nat2Z.inj_div. lia.
Qed.
Lemma col_eq r j : col j = col (S r) <-> exists j', j = S j' /\ j' / p = r / p.
Proof.
  rewrite color_pos. destruct j as [|j].
  - split; [intros H; change (col 0) with 0%Z in H; lia | intros (j' & H & _); discriminate].
  - rewrite color_pos. split; [intros H; exists j; split; [reflexivity | lia] | intros (j' & H & E); injection H as ->; rewrite E; reflexivity].
Qed.
Lemma div_iff j k : j / p = k <-> k * p <= j < k * p + p.
Proof.
  split.
  - intros <-. pose proof (Nat.div_mod j p ltac:(lia)). pose proof (Nat.mod_upper_bound j p ltac:(lia)). nia.
  - intros H. symmetry. apply (Nat.div_unique j p k (j - k * p)); lia.
Qed.
Lemma mrank r : model_rank [0] p (S r) = r mod p.
Proof.
  unfold model_rank, split_rank. pose proof (Nat.div_mod r p ltac:(lia)) as Hd.
  assert (Hs : seq 0 (S r) = seq 0 (S (p * (r / p))) ++ seq (S (p * (r / p))) (r mod p)).
  { replace (S r) with (S (p * (r / p)) + r mod p) by lia. rewrite seq_app. reflexivity. }
  pose proof (Nat.mod_upper_bound r p ltac:(lia)) as Hm.
  rewrite Hs, filter_app, app_length, filter_none, filter_all, seq_length; [reflexivity| |].
  - intros j Hj. apply in_seq in Hj. apply Z.eqb_eq. apply col_eq. exists (j - 1). split; [lia|]. apply div_iff. lia.
  - intros j Hj. apply in_seq in Hj. apply Z.eqb_neq. rewrite col_eq. intros (j' & -> & E). apply div_iff in E. lia.
Qed.
Lemma scolor0 r : scolor [0] p r = 0%Z <-> r = 0 \/ r <> 0 /\ (r - 1) mod p = 0.
Proof.
  unfold scolor. destruct r as [|r]; [cbn; tauto|]. rewrite mrank. replace (S r - 1) with r by lia.
  destruct (Z.eqb_spec (col (S r)) 0) as [E|E]; [rewrite color_pos in E; lia|]. cbn [orb].
  destruct (Nat.eqb_spec (r mod p) 0); split; try lia; intros _; right; lia.
Qed.
Lemma multiples n : filter (fun j => j mod p =? 0) (seq 0 n) = map (fun k => k * p) (seq 0 ((n + p - 1) / p)).
Proof.
  induction n as [|n IH].
  - cbn [seq filter]. replace (0 + p - 1) with (p - 1) by lia. rewrite Nat.div_small by lia. reflexivity.
  - rewrite seq_S, filter_app, IH. cbn [filter Nat.add]. replace (S (n + p) - 1) with (n + 1 * p) by lia. rewrite Nat.div_add by lia.
    pose proof (Nat.div_mod n p ltac:(lia)) as Hd. pose proof (Nat.mod_upper_bound n p ltac:(lia)) as Hm.
    destruct (Nat.eqb_spec (n mod p) 0) as [E|E].
    + replace ((n + p - 1) / p) with (n / p) by (symmetry; apply div_iff; nia).
      replace (n / p + 1) with (S (n / p)) by lia. rewrite seq_S, map_app. cbn [map Nat.add]. f_equal. f_equal. nia.
    + replace ((n + p - 1) / p) with (n / p + 1) by (symmetry; apply div_iff; nia). rewrite app_nil_r. reflexivity.
Qed.
Definition nleaders (size : nat) : nat := (size - 1 + p - 1) / p.
Lemma leaders_list size : filter (fun r => f_leader (role [0] p r)) (seq 0 size) = map (fun k => S (k * p)) (seq 0 (nleaders size)).
Proof.
  destruct size as [|n]; [unfold nleaders; cbn [seq filter]; replace (0 - 1 + p - 1) with (p - 1) by lia; rewrite Nat.div_small by lia; reflexivity|].
  cbn [seq filter]. change (f_leader (role [0] p 0)) with false. cbn iota. rewrite <- seq_shift, filter_map_comm.
  unfold nleaders. replace (S n - 1) with n by lia. rewrite <- (map_map (fun k => k * p) S), <- multiples. f_equal. apply filter_ext. intros r.
  unfold role. cbn [Nat.eqb]. rewrite mrank. destruct (r mod p =? 0); reflexivity.
Qed.
Lemma smembers size : 0 < size -> scheduler_members [0] p size = 0 :: filter (fun r => f_leader (role [0] p r)) (seq 0 size).
Proof.
  intros H. unfold scheduler_members, split_members. destruct size as [|n]; [lia|]. cbn [seq filter]. change (f_leader (role [0] p 0)) with false.
  assert (E0 : scolor [0] p 0 = 0%Z) by reflexivity. rewrite E0. cbn [Z.eqb]. f_equal. apply filter_ext_in. intros r Hr. apply in_seq in Hr.
  destruct r as [|r]; [lia|]. unfold role. cbn [Nat.eqb]. rewrite mrank. pose proof (scolor0 (S r)) as Hsc. replace (S r - 1) with r in Hsc by lia.
  destruct (Nat.eqb_spec (r mod p) 0) as [E|E]; cbn.
  - apply Z.eqb_eq. apply Hsc. right. auto.
  - apply Z.eqb_neq. intros F. apply Hsc in F. lia.
Qed.
Lemma done0 size : 0 < size -> map_done0 [0] p size = true :: repeat false (nleaders size).
Proof.
  intros H. unfold map_done0. rewrite (smembers size H), leaders_list. cbn [length]. rewrite map_length, seq_length. cbn [seq map]. f_equal.
  rewrite <- seq_shift, map_map. generalize (nleaders size) as n. intros n.
  assert (G : forall a, map (fun x => memb (S x) [0]) (seq a n) = repeat false n); [|apply G].
  induction n as [|n IH]; intros a; cbn; [reflexivity|]. f_equal. apply IH.
Qed.
Lemma nleaders_pos size : 2 <= size -> 0 < nleaders size.
Proof.
  intros H. unfold nleaders. destruct (Nat.eq_dec ((size - 1 + p - 1) / p) 0) as [E|E]; [|lia]. apply div_iff in E. lia.
Qed.
Lemma team_members size k : filter (fun r => Z.eqb (col r) (Z.of_nat (S k))) (seq 0 size) = seq (S (k * p)) (Nat.min p (size - S (k * p))).
Proof.
  induction size as [|n IH]; [rewrite Nat.min_0_r; reflexivity|].
  rewrite seq_S, filter_app, IH. cbn [filter Nat.add]. destruct n as [|n].
  - change (col 0) with 0%Z. destruct (Z.eqb_spec 0 (Z.of_nat (S k))); [lia|]. replace (0 - S (k * p)) with 0 by lia. replace (1 - S (k * p)) with 0 by lia. rewrite Nat.min_0_r. reflexivity.
  - rewrite color_pos. destruct (Z.eqb_spec (Z.of_nat (S (n / p))) (Z.of_nat (S k))) as [E|E].
    + assert (n / p = k) by lia. apply div_iff in H. replace (Nat.min p (S (S n) - S (k * p))) with (S (Nat.min p (S n - S (k * p)))) by lia.
      rewrite seq_S. f_equal. f_equal. lia.
    + rewrite app_nil_r. f_equal. assert (Hne : n / p <> k) by lia. rewrite div_iff in Hne. lia.
Qed.
Lemma default_ok size : 2 <= size ->
  configure [0] p size = Ready
  /\ (forall r, r < size -> exists! k, nth_error [f_scheduler (role [0] p r); f_leader (role [0] p r); f_worker (role [0] p r)] k = Some true)
  /\ (forall r, r < size -> f_scheduler (role [0] p r) = true <-> r = 0)
  /\ (forall r, 0 < r < size -> exists! l, l < size /\ color [0] p l = color [0] p r /\ f_leader (role [0] p l) = true)
  /\ (forall k, filter (fun r => Z.eqb (color [0] p r) (Z.of_nat (S k))) (seq 0 size) = seq (S (k * p)) (Nat.min p (size - S (k * p))))
  /\ scheduler_members [0] p size = 0 :: filter (fun r => f_leader (role [0] p r)) (seq 0 size)
  /\ exists n, 0 < n /\ length (filter (fun r => f_leader (role [0] p r)) (seq 0 size)) = n /\ map_done0 [0] p size = true :: repeat false n.
Proof.
  intros Hs. split; [|split; [|split; [|split; [|split; [|split]]]]].
  - unfold configure. destruct (Nat.eqb_spec p 0); [lia|]. destruct (Nat.ltb_spec size 2); [lia | reflexivity].
  - intros r _. unfold role. destruct (r =? 0); [|destruct (model_rank [0] p r =? 0)]; cbn [f_scheduler f_leader f_worker].
    + exists 0. split; [reflexivity|]. intros [|[|[|[|k]]]]; cbn; congruence.
    + exists 1. split; [reflexivity|]. intros [|[|[|[|k]]]]; cbn; congruence.
    + exists 2. split; [reflexivity|]. intros [|[|[|[|k]]]]; cbn; congruence.
  - intros r _. unfold role. destruct (Nat.eqb_spec r 0); cbn; [tauto|]. destruct (model_rank [0] p r =? 0); cbn; split; try discriminate; tauto.
  - intros r Hr. assert (Hc : color [0] p r <> color [0] p 0).
    { destruct r as [|r]; [lia|]. rewrite color_pos. change (color [0] p 0) with 0%Z. lia. }
    destruct (one_leader [0] p size r ltac:(lia) Hc) as (l & H1 & H2). exists l. split; [exact H1|].
    intros l' (A & B & C). symmetry. apply H2; assumption.
  - apply team_members.
  - apply smembers. lia.
  - exists (nleaders size). split; [apply nleaders_pos; exact Hs|]. split; [rewrite leaders_list, map_length, seq_length; reflexivity|]. apply done0. lia.
Qed.
End Default.

Lemma general_team sched ppm size r : 0 < ppm -> NoDup sched -> In 0 sched -> r < size -> ~ In r sched ->
  exists! l, l < size /\ color sched ppm l = color sched ppm r /\ f_leader (role sched ppm l) = true.
Proof.
  intros Hp Hn H0 Hr Hns. assert (Hc : color sched ppm r <> color sched ppm 0).
  { pose proof (color_nonsched sched ppm r Hn Hp Hns). rewrite (color_sched sched ppm 0 H0). lia. }
  destruct (one_leader sched ppm size r Hr Hc) as (l & H1 & H2). exists l. split; [exact H1|]. intros l' (A & B & C). symmetry. apply H2; assumption.
Qed.
