(** C71: the posterior histogram of a journal. *)
From Coq Require Import Reals Qreals ZArith Lia Lra.
From Verif Require Import M_Base M_Num M_XReal M_MMD M_Stats M_Graph M_Infer M_Journal M_APM M_Kernel M_Cov M_Posterior S_Journal L_Journal L_Journal2 S_Stats S_Distance L_PMC L_Stats L_Distance L_PosDef L_MMD S_Cov P_Cov S_Posterior L_Posterior L_Histogram P_Posterior P_Posterior2.
Open Scope R_scope.

(** column i of the samples; the bounds of the histogram *)
Definition col_of (rows : list vec) (i : nat) : list R := map (fun r => nth i r 0) rows.
Definition bounds_of (p : nat) (rows : list vec) : list (R * R) := map (fun i => outer_edges (col_of rows i)) (seq 0 p).
Definition bin_of (n : nat) (rows : list vec) (i s : nat) : nat := bin_number (edges_of n (col_of rows i)) (nth s (col_of rows i) 0).
Definition bins_of (n p : nat) (rows : list vec) (s : nat) : list nat := map (fun i => bin_of n rows i s) (seq 0 p).

Lemma nth_seq_map {A} (f : nat -> A) d p i : (i < p)%nat -> nth i (map f (seq 0 p)) d = f i.
Proof. intros H. rewrite nth_indep with (d' := f 0%nat) by (rewrite map_length, seq_length; exact H). rewrite map_nth, seq_nth by exact H. reflexivity. Qed.
Lemma histogramdd_ok p rows n w : (1 <= p)%nat -> (1 <= n)%nat -> length w = length rows ->
  exists H, histogramdd (cov_variables (Rows p rows)) (length rows) (Z.of_nat n) w = Ok (H, map (fun i => edges_of n (col_of rows i)) (seq 0 p)) /\
  forall cell, H cell = total (map (fun s => if (ravel (n + 2) (bins_of n p rows s) =? ravel (n + 2) (map S cell))%nat then nth s w 0 else 0) (seq 0 (length w))).
Proof.
  intros Hp Hn HL. unfold histogramdd. cbn [cov_variables]. destruct (map (fun i => map (fun r => nth i r 0) rows) (seq 0 p)) as [|v0 vs] eqn:E; [destruct p; [lia|discriminate]|]. rewrite <- E. clear E v0 vs.
  replace (Z.of_nat n <? 1)%Z with false by (symmetry; apply Z.ltb_ge; lia). rewrite Nat2Z.id, !map_length, seq_length, HL, Nat.eqb_refl. cbn [negb]. eexists. split; [rewrite <- (map_map (col_of rows) (edges_of n)); reflexivity|].
  intros cell. cbv beta. rewrite map_map, <- HL, bincount_sum. f_equal. apply map_ext. intros s. do 3 f_equal. unfold bins_of, bin_of.
  rewrite map_map. fold (col_of rows). rewrite combine_maps, map_map. reflexivity.
Qed.
Lemma bin_col p n rows i s k : (i < p)%nat -> (1 <= n)%nat -> (s < length rows)%nat ->
  bin_of n rows i s = S k <-> InBin (fst (nth i (bounds_of p rows) (0, 0))) (snd (nth i (bounds_of p rows) (0, 0))) n k (nth s (col_of rows i) 0).
Proof.
  intros Hi Hn Hs. unfold bounds_of. rewrite (nth_seq_map (fun i => outer_edges (col_of rows i))) by exact Hi. unfold bin_of, edges_of.
  assert (LC : length (col_of rows i) = length rows) by apply map_length.
  assert (NE : col_of rows i <> []) by (intros E; rewrite E in LC; cbn in LC; lia). destruct (range_bounds _ _ _ (outer_range _ NE)) as [B1 B2]. apply bin_iff; [exact Hn|exact B1|]. apply B2. apply nth_In. lia.
Qed.
Lemma bin_some n rows i s : (1 <= n)%nat -> (s < length rows)%nat -> exists k, (k < n)%nat /\ bin_of n rows i s = S k.
Proof.
  intros Hn Hs. unfold bin_of, edges_of. assert (LC : length (col_of rows i) = length rows) by apply map_length.
  assert (NE : col_of rows i <> []) by (intros E; rewrite E in LC; cbn in LC; lia). destruct (range_bounds _ _ _ (outer_range _ NE)) as [B1 B2].
  destruct (bin_spec (fst (outer_edges (col_of rows i))) (snd (outer_edges (col_of rows i))) n (nth s (col_of rows i) 0) Hn B1) as (k & K1 & K2 & _); [apply B2, nth_In; lia|]. exists k. split; assumption.
Qed.
Lemma cell_of p n rows s : (1 <= n)%nat -> (s < length rows)%nat -> exists cell, In cell (cells p n) /\ bins_of n p rows s = map S cell.
Proof.
  intros Hn Hs. exists (map (fun i => pred (bin_of n rows i s)) (seq 0 p)). split.
  - apply cells_spec. split; [rewrite map_length, seq_length; reflexivity|]. apply Forall_map, Forall_forall. intros i _. destruct (bin_some n rows i s Hn Hs) as (k & K1 & K2). rewrite K2. exact K1.
  - unfold bins_of. rewrite map_map. apply map_ext. intros i. destruct (bin_some n rows i s Hn Hs) as (k & K1 & K2). rewrite K2. reflexivity.
Qed.
Lemma ravel_cell p n rows s cell : (1 <= n)%nat -> (s < length rows)%nat -> In cell (cells p n) ->
  (ravel (n + 2) (bins_of n p rows s) =? ravel (n + 2) (map S cell))%nat = true <-> bins_of n p rows s = map S cell.
Proof.
  intros Hn Hs HC. rewrite Nat.eqb_eq. split; [|intros ->; reflexivity]. apply cells_spec in HC. destruct HC as [L F]. destruct (cell_of p n rows s Hn Hs) as (c' & HC' & ->). apply cells_spec in HC'. destruct HC' as [L' F'].
  apply ravel_inj; [rewrite !map_length; congruence| |]; apply Forall_map; [eapply Forall_impl; [|exact F']|eapply Forall_impl; [|exact F]]; intros; cbn in *; lia.
Qed.

(** the s-th sample lies in the cell *)
Definition Inside {Name} (ds : list nat) (params : list (Name * list (list kval))) (bounds : list (R * R)) (n : nat) (cell : list nat) (s : nat) : Prop :=
  forall k c d, nth_error ds k = Some d -> (c < d)%nat ->
  let i := column_of ds k c in InBin (fst (nth i bounds (0, 0))) (snd (nth i bounds (0, 0))) n (nth i cell 0%nat) (nth s (coordinate params k c) 0).
Lemma inside_bins {Name} N ds (params : list (Name * list (list kval))) n cell s : (1 <= n)%nat -> Columns N ds params -> (s < N)%nat -> length cell = list_sum ds ->
  bins_of n (list_sum ds) (map (sample params) (seq 0 N)) s = map S cell <-> Inside ds params (bounds_of (list_sum ds) (map (sample params) (seq 0 N))) n cell s.
Proof.
  intros Hn HC Hs HL. set (rows := map (sample params) (seq 0 N)). set (p := list_sum ds). assert (LR : length rows = N) by (unfold rows; rewrite map_length, seq_length; reflexivity).
  assert (CC : forall k c d, nth_error ds k = Some d -> (c < d)%nat -> coordinate params k c = col_of rows (column_of ds k c)) by (intros; apply (coordinate_col N ds params k c d); assumption).
  split.
  - intros E k c d Hk Hc i. pose proof (column_bound ds k c d Hk Hc) as HB. fold i p in HB. rewrite (CC k c d Hk Hc). fold i. apply bin_col; [exact HB|exact Hn|lia|].
    assert (X : nth i (bins_of n p rows s) 0%nat = nth i (map S cell) 0%nat) by (rewrite E; reflexivity). unfold bins_of in X. rewrite (nth_seq_map (fun i => bin_of n rows i s)) in X by exact HB. rewrite X.
    rewrite nth_indep with (d' := S 0) by (rewrite map_length; lia). rewrite map_nth. reflexivity.
  - intros HI. unfold bins_of. apply nth_ext with (d := 0%nat) (d' := 0%nat); [rewrite !map_length, seq_length; symmetry; exact HL|]. intros i Hi. rewrite map_length, seq_length in Hi.
    rewrite (nth_seq_map (fun i => bin_of n rows i s)) by exact Hi. rewrite (nth_indep (map S cell)) with (d' := S 0) by (rewrite map_length; fold p in HL; lia). rewrite map_nth.
    destruct (column_all ds i Hi) as (k & c & d & Hk & Hc & <-). apply (bin_col p); [exact Hi|exact Hn|lia|]. rewrite <- (CC k c d Hk Hc). exact (HI k c d Hk Hc).
Qed.

(** The histogram has n bins of the same length in every coordinate, from the smallest to the largest value of the coordinate
    (or half a unit around the only value).  A cell holds the total weight of the samples in the cell.  Every sample lies in
    exactly one cell, so that the whole histogram holds the total weight. *)
Theorem C71_histogram : forall (Name S0 C D : Type) (j : journal Name kval S0 C D) it params w ds n,
  Holds j it params w -> Columns (length w) ds params -> (1 <= length w)%nat -> (1 <= list_sum ds)%nat -> (1 <= n)%nat ->
  exists H edges bounds, posterior_histogram j it (Z.of_nat n) = Ok (H, edges) /\ length edges = list_sum ds /\ length bounds = list_sum ds /\
  (forall k c d, nth_error ds k = Some d -> (c < d)%nat -> let i := column_of ds k c in let lo := fst (nth i bounds (0, 0)) in let hi := snd (nth i bounds (0, 0)) in
    Range (coordinate params k c) lo hi /\ nth i edges [] = map (edge lo hi n) (seq 0 (S n))) /\
  (forall cell inside, In cell (cells (list_sum ds) n) -> (forall s, (s < length w)%nat -> inside s = true <-> Inside ds params bounds n cell s) ->
    H cell = total (map (fun s => if inside s then Q2R (nth s w 0%Q) else 0) (seq 0 (length w)))) /\
  (forall s, (s < length w)%nat -> exists cell, In cell (cells (list_sum ds) n) /\ Inside ds params bounds n cell s /\
    forall cell', In cell' (cells (list_sum ds) n) -> Inside ds params bounds n cell' s -> cell' = cell) /\
  total (map H (cells (list_sum ds) n)) = total (map Q2R w).
Proof.
  intros Name S0 C D j it params w ds n HJ HC HN Hp Hn. set (rows := map (sample params) (seq 0 (length w))). set (p := list_sum ds) in *.
  assert (LR : length rows = length w) by (unfold rows; rewrite map_length, seq_length; reflexivity).
  assert (LW : length (map Q2R w) = length rows) by (rewrite map_length; symmetry; exact LR).
  destruct (histogramdd_ok p rows n (map Q2R w) Hp Hn LW) as (H & E & HV). rewrite map_length in HV.
  exists H, (map (fun i => edges_of n (col_of rows i)) (seq 0 p)), (bounds_of p rows). split; [|split; [|split; [|split; [|split; [|split]]]]].
  - unfold posterior_histogram. rewrite (holds_iter j it params w HJ). cbn [rthen fst snd]. rewrite (joined_params_ok (length w) ds) by first [assumption | apply (columns_pos _ _ _ HC Hp)]. exact E.
  - rewrite map_length, seq_length. reflexivity.
  - unfold bounds_of. rewrite map_length, seq_length. reflexivity.
  - intros k c d Hk Hc i lo hi. pose proof (column_bound ds k c d Hk Hc) as HB. fold i p in HB. subst lo hi. unfold bounds_of. rewrite (nth_seq_map (fun i => outer_edges (col_of rows i))), (nth_seq_map (fun i => edges_of n (col_of rows i))) by exact HB.
    rewrite (coordinate_col (length w) ds params k c d HC Hk Hc). fold rows. fold i. fold (col_of rows i). split; [|apply linspace_edges; exact Hn].
    apply outer_range. intros X. apply (f_equal (@length R)) in X. unfold col_of in X. rewrite map_length, LR in X. cbn in X. lia.
  - intros cell inside HCell HI. rewrite HV. apply total_ext. intros s Hs. apply in_seq in Hs. destruct Hs as [_ Hs]. cbn [Nat.add] in Hs.
    assert (B : (ravel (n + 2) (bins_of n p rows s) =? ravel (n + 2) (map S cell))%nat = inside s).
    { apply Bool.eq_iff_eq_true. rewrite (HI s Hs), (ravel_cell p n rows s cell Hn ltac:(lia) HCell). apply inside_bins; try assumption. apply cells_spec in HCell. apply HCell. }
    rewrite B. destruct (inside s); [|reflexivity]. rewrite nth_indep with (d' := Q2R 0) by (rewrite map_length; exact Hs). rewrite (map_nth Q2R). reflexivity.
  - intros s Hs. destruct (cell_of p n rows s Hn ltac:(lia)) as (cell & C1 & C2). exists cell. split; [exact C1|]. split; [apply (inside_bins (length w) ds params n cell s Hn HC Hs); [apply cells_spec in C1; apply C1|exact C2]|].
    intros cell' C1' HI. apply (inside_bins (length w) ds params n cell' s Hn HC Hs) in HI; [|apply cells_spec in C1'; apply C1']. fold rows p in HI. rewrite C2 in HI. clear -HI. revert cell' HI. induction cell as [|a l IH]; intros [|a' l'] E; try discriminate; [reflexivity|]. injection E as -> E. f_equal. apply IH. exact E.
  - rewrite (map_ext H _ HV). rewrite (total_swap (fun cell s => if (ravel (n + 2) (bins_of n p rows s) =? ravel (n + 2) (map S cell))%nat then nth s (map Q2R w) 0 else 0)).
    transitivity (total (map (fun s => nth s (map Q2R w) 0) (seq 0 (length w)))).
    + apply total_ext. intros s Hs. apply in_seq in Hs. destruct Hs as [_ Hs]. cbn [Nat.add] in Hs. destruct (cell_of p n rows s Hn ltac:(lia)) as (cell & C1 & C2).
      apply (total_single (cells p n) (fun c => ravel (n + 2) (bins_of n p rows s) =? ravel (n + 2) (map S c))%nat cell); [apply cells_nodup|exact C1|].
      intros c Hc. rewrite (ravel_cell p n rows s c Hn ltac:(lia) Hc), C2. split; [|intros ->; reflexivity]. clear. intros E. revert c E. induction cell as [|a l IH]; intros [|a' l'] E; try discriminate; [reflexivity|]. injection E as -> E. f_equal. apply IH. exact E.
    + rewrite <- (map_length Q2R w). rewrite <- (map_seq_nth (fun x => x) 0 (map Q2R w)), map_id. reflexivity.
Qed.
Print Assumptions C71_histogram.

(** Refused: no bins, a number of weights that is not the number of samples, and two or more parameters stored as plain
    numbers. *)
Theorem C71_refused : forall (Name S0 C D : Type) (j : journal Name kval S0 C D) it params w ds N bins,
  Holds j it params w -> Columns N ds params -> (1 <= N)%nat -> (1 <= list_sum ds)%nat -> (bins < 1)%Z \/ length w <> N -> posterior_histogram j it bins = Err ValueError.
Proof.
  intros Name S0 C D j it params w ds N bins HJ HC HN Hp HB. unfold posterior_histogram. rewrite (holds_iter j it params w HJ). cbn [rthen fst snd].
  rewrite (joined_params_ok N ds) by first [assumption | apply (columns_pos _ _ _ HC Hp)]. cbn [rthen]. unfold histogramdd. destruct (cov_variables _) as [|v0 vs]; [reflexivity|]. destruct (Z.ltb_spec bins 1); [reflexivity|].
  destruct HB as [HB|HB]; [lia|]. cbn [cov_observations]. rewrite !map_length, !seq_length. replace (length w =? N)%nat with false by (symmetry; apply Nat.eqb_neq; exact HB). reflexivity.
Qed.
Print Assumptions C71_refused.
Theorem C71_numbers_refuted : forall (Name S0 C D : Type) (j : journal Name kval S0 C D) it params w bins,
  Holds j it params w -> Forall (fun kc => NumberColumn (length w) (snd kc)) params -> (1 <= length w)%nat -> (2 <= length params)%nat ->
  posterior_histogram j it bins = Err ValueError.
Proof.
  intros Name S0 C D j it params w bins HJ HF Hn Hp. destruct (joined_params_numbers (length w) params Hn) as (l & E & L & _); [destruct params; [cbn in Hp; lia|discriminate]|exact HF|].
  unfold posterior_histogram. rewrite (holds_iter j it params w HJ). cbn [rthen fst snd]. rewrite E. cbn [rthen cov_variables cov_observations]. unfold histogramdd. destruct (bins <? 1)%Z; [reflexivity|]. rewrite !map_length, seq_length, L.
  replace (length w =? length w * length params)%nat with false by (symmetry; apply Nat.eqb_neq; nia). reflexivity.
Qed.
Print Assumptions C71_numbers_refuted.

Example C71_case : exists H edges, posterior_histogram (j70 p70 [1%Q; 3%Q]) None 4 = Ok (H, edges) /\ total (map H (cells 3 4)) = 4 /\ H [0; 0; 0]%nat = 1 /\ H [3; 3; 3]%nat = 3 /\ nth 0 edges [] = [1; 3 / 2; 2; 5 / 2; 3].
Proof.
  destruct (C71_histogram nat nat nat nat (j70 p70 [1%Q; 3%Q]) None p70 [1%Q; 3%Q] [1; 2]%nat 4 (holds70 _ _) columns70 ltac:(cbn; lia) ltac:(cbn; lia) ltac:(lia)) as (H & edges & b & E & _ & _ & HE & HH & _ & HT).
  exists H, edges. split; [exact E|]. change (list_sum [1; 2]%nat) with 3%nat in *.
  assert (Q3 : Q2R 3 = 3) by (unfold Q2R; cbn; lra).
  assert (R1 : forall lo hi a c, a < c -> Range [a; c] lo hi -> lo = a /\ hi = c).
  { intros lo hi a c Hac [(I1 & I2 & H1 & H2)|(v & _ & _ & _ & H1)]; [|rewrite (H1 a (or_introl eq_refl)) in Hac; rewrite (H1 c (or_intror (or_introl eq_refl))) in Hac; lra].
    cbn in I1, I2. destruct I1 as [<-|[<-|[]]], I2 as [<-|[<-|[]]]; try lra. }
  pose proof (HE 0%nat 0%nat 1%nat eq_refl ltac:(lia)) as E0. pose proof (HE 1%nat 0%nat 2%nat eq_refl ltac:(lia)) as E1. pose proof (HE 1%nat 1%nat 2%nat eq_refl ltac:(lia)) as E2. cbv zeta in E0, E1, E2.
  change (column_of [1; 2]%nat 0 0) with 0%nat in E0. change (column_of [1; 2]%nat 1 0) with 1%nat in E1. change (column_of [1; 2]%nat 1 1) with 2%nat in E2.
  destruct E0 as [E0 F0], E1 as [E1 _], E2 as [E2 _]. 
  apply R1 in E0; [|unfold Q2R; cbn; lra]. apply R1 in E1; [|unfold Q2R; cbn; lra]. apply R1 in E2; [|unfold Q2R; cbn; lra].
  destruct E0 as [L0 U0], E1 as [L1 U1], E2 as [L2 U2].
  assert (CO : coordinate p70 0 0 = [1; 3] /\ coordinate p70 1 0 = [10; 14] /\ coordinate p70 1 1 = [0; 5]) by (unfold coordinate, numbers, values, Q2R; cbn; repeat split; repeat f_equal; lra).
  destruct CO as (C0 & C1 & C2).
  assert (V : Q2R 1 = 1 /\ Q2R 10 = 10 /\ Q2R 14 = 14 /\ Q2R 0 = 0 /\ Q2R 5 = 5) by (unfold Q2R; cbn; repeat split; lra). destruct V as (V1 & V10 & V14 & V0 & V5).
  cbn in L0, U0, L1, U1, L2, U2. rewrite V1 in L0. rewrite Q3 in U0. rewrite V10 in L1. rewrite V14 in U1. rewrite V0 in L2. rewrite V5 in U2.
  assert (HK : forall cell s, Inside [1; 2]%nat p70 b 4 cell s <-> InBin 1 3 4 (nth 0 cell 0%nat) (nth s [1; 3] 0) /\ InBin 10 14 4 (nth 1 cell 0%nat) (nth s [10; 14] 0) /\ InBin 0 5 4 (nth 2 cell 0%nat) (nth s [0; 5] 0)).
  { intros cell s. split.
    - intros HI. pose proof (HI 0%nat 0%nat 1%nat eq_refl ltac:(lia)) as A0. pose proof (HI 1%nat 0%nat 2%nat eq_refl ltac:(lia)) as A1. pose proof (HI 1%nat 1%nat 2%nat eq_refl ltac:(lia)) as A2. cbv zeta in A0, A1, A2.
      change (column_of [1; 2]%nat 0 0) with 0%nat in A0. change (column_of [1; 2]%nat 1 0) with 1%nat in A1. change (column_of [1; 2]%nat 1 1) with 2%nat in A2. rewrite L0, U0, C0 in A0. rewrite L1, U1, C1 in A1. rewrite L2, U2, C2 in A2. auto.
    - intros (A0 & A1 & A2) k c d Hk Hc. destruct k as [|[|k]]; [injection Hk as <-|injection Hk as <-|destruct k; discriminate].
      + assert (c = 0%nat) as -> by lia. cbv zeta. change (column_of [1; 2]%nat 0 0) with 0%nat. rewrite L0, U0, C0. exact A0.
      + destruct c as [|[|c]]; [| |lia]; cbv zeta; [change (column_of [1; 2]%nat 1 0) with 1%nat; rewrite L1, U1, C1; exact A1|change (column_of [1; 2]%nat 1 1) with 2%nat; rewrite L2, U2, C2; exact A2]. }
  split; [rewrite HT; cbn; rewrite V1, Q3; lra|]. split; [|split].
  - rewrite (HH [0; 0; 0]%nat (fun s => (s =? 0)%nat)); [cbn; rewrite V1; lra|apply cells_spec; split; [reflexivity|repeat constructor; lia]|].
    intros s Hs. rewrite HK. destruct s as [|[|s]]; [| |cbn in Hs; lia]; cbn [nth Nat.eqb]; unfold InBin, edge; cbn [INR Nat.add].
    + split; [intros _|reflexivity]. split; [|split]; (split; [lia|]; split; [lra|left; lra]).
    + split; [discriminate|]. intros ((_ & _ & [X|[X _]]) & _); [lra|lia].
  - rewrite (HH [3; 3; 3]%nat (fun s => (s =? 1)%nat)); [cbn; rewrite Q3; lra|apply cells_spec; split; [reflexivity|repeat constructor; lia]|].
    intros s Hs. rewrite HK. destruct s as [|[|s]]; [| |cbn in Hs; lia]; cbn [nth Nat.eqb]; unfold InBin, edge; cbn [INR Nat.add].
    + split; [discriminate|]. intros ((_ & X & _) & _). lra.
    + split; [intros _|reflexivity]. split; [|split]; (split; [lia|]; split; [lra|right; split; [reflexivity|lra]]).
  - rewrite F0. cbn in L0, U0 |- *. rewrite L0, U0. unfold edge. cbn [INR]. repeat (f_equal; [lra|]). f_equal. lra.
Qed.
Example C71_refused_case : posterior_histogram (j70 p70 [1%Q; 3%Q]) None 0 = Err ValueError.
Proof. apply (C71_refused _ _ _ _ _ _ p70 [1%Q; 3%Q] [1; 2]%nat 2 _ (holds70 _ _) columns70); [lia|cbn; lia|left; lia]. Qed.
