(** Lemmas for C70 and C71: joining the parameters of a journal. *)
From Coq Require Import Reals Qreals ZArith Lia Lra.
From Verif Require Import M_Base M_Num M_XReal M_MMD M_Stats M_Graph M_Infer M_Journal M_APM M_Kernel M_Cov M_Posterior S_Journal L_Journal L_Journal2 S_Stats S_Distance L_PMC L_Stats L_Distance L_PosDef L_MMD S_Cov P_Cov S_Posterior.
Open Scope nat_scope.

Lemma at_pyget {A} (l : list A) i x : at_pos l i = Some x -> pyget l i = Ok x.
Proof. intros H. rewrite pyget_spec, H. reflexivity. Qed.
Lemma holds_iter {Name S C D} (j : journal Name kval S C D) it params w : Holds j it params w -> of_iteration j it = Ok (params, map Q2R w).
Proof.
  intros (H1 & a & H2 & H3). unfold of_iteration. change (match it with Some i => i | None => (Z.of_nat (length (j_names j)) - 1)%Z end) with (iter_of j it).
  apply at_pyget in H1. apply at_pyget in H2. unfold ndict, column in *. rewrite H1. cbn [rthen]. rewrite H2. cbn [rthen]. rewrite H3. reflexivity.
Qed.

(** columns *)
Lemma map_seq_nth {A B} (f : A -> B) d : forall l, map f l = map (fun s => f (nth s l d)) (seq 0 (length l)).
Proof.
  induction l as [|x l IH]; [reflexivity|]. cbn [length seq map nth]. f_equal. rewrite <- seq_shift, map_map. exact IH.
Qed.
Definition row_of (col : list (list kval)) (s : nat) : list R := numbers (nth s col []).
Lemma joined_ok n d col : 1 <= n -> Column n d col -> joined col = Ok (Rows d (map (row_of col) (seq 0 n))).
Proof.
  intros Hn [HL HF].
  assert (E : exists ls, mapR one_entry col = Ok (map KA ls) /\ all_arrays (map KA ls) = Ok ls /\ Forall (fun l => length l = d) ls /\ map (map Q2R) ls = map numbers col).
  { clear HL. induction HF as [|s col (l & -> & Hl) _ (ls & E1 & E2 & E3 & E4)]; [exists []; repeat (split; [reflexivity|]); split; constructor|].
    exists (l :: ls). cbn [mapR one_entry map all_arrays]. rewrite E1, E2. split; [reflexivity|]. split; [reflexivity|]. split; [constructor; assumption|].
    rewrite E4. f_equal. unfold numbers, values. cbn. rewrite app_nil_r. reflexivity. }
  destruct E as (ls & E1 & E2 & E3 & E4). unfold joined. rewrite E1. cbn [rthen].
  replace (map (row_of col) (seq 0 n)) with (map (map Q2R) ls) by (rewrite E4, <- HL; apply (map_seq_nth numbers [])).
  destruct ls as [|l0 ls]; [assert (X : length (map numbers col) = 0) by (rewrite <- E4; reflexivity); rewrite map_length in X; lia|].
  cbn [map]. inversion E3 as [|? ? H0 E3']; subst. cbn [map] in E2. rewrite E2. cbn [rthen].
  replace (forallb _ _) with true; [reflexivity|]. symmetry. apply forallb_forall. intros l Hl. rewrite Forall_forall in E3. rewrite (E3 l Hl). apply Nat.eqb_refl.
Qed.
Lemma zip_map n (f g : nat -> list R) a : zip_rows (map f (seq a n)) (map g (seq a n)) = map (fun s => f s ++ g s) (seq a n).
Proof. unfold zip_rows. rewrite combine_maps, map_map. reflexivity. Qed.
Lemma beside_ok n : forall cols ds d f, length ds = length cols ->
  beside d (map f (seq 0 n)) (map (fun dc => Rows (fst dc) (map (row_of (snd dc)) (seq 0 n))) (combine ds cols))
  = Ok (Rows (d + list_sum ds) (map (fun s => f s ++ flat_map (fun c => row_of c s) cols) (seq 0 n))).
Proof.
  induction cols as [|c cols IH]; intros [|e ds] d f HL; try discriminate.
  - cbn. rewrite Nat.add_0_r. do 2 f_equal. apply map_ext. intros s. rewrite app_nil_r. reflexivity.
  - cbn [combine map fst snd beside]. rewrite !map_length, Nat.eqb_refl, zip_map. injection HL as HL. rewrite (IH ds (d + e) (fun s => f s ++ row_of c s) HL).
    do 2 f_equal; [change (list_sum (e :: ds)) with (e + list_sum ds); lia|]. apply map_ext. intros s. cbn [flat_map]. rewrite app_assoc. reflexivity.
Qed.
(** the samples: one row per sample, the numbers of all parameters one after the other *)
Definition sample {Name} (params : list (Name * list (list kval))) (s : nat) : list R := flat_map (fun c => row_of c s) (map snd params).
Lemma joined_params_ok {Name} n ds (params : list (Name * list (list kval))) : 1 <= n -> params <> [] -> Columns n ds params ->
  joined_params params = Ok (Rows (list_sum ds) (map (sample params) (seq 0 n))).
Proof.
  intros Hn NE HC. assert (HL : length ds = length (map snd params)) by (rewrite map_length; clear -HC; induction HC; cbn; congruence).
  assert (E : mapR (fun kc : Name * list (list kval) => joined (snd kc)) params = Ok (map (fun dc => Rows (fst dc) (map (row_of (snd dc)) (seq 0 n))) (combine ds (map snd params)))).
  { clear NE HL. induction HC as [|d [k c] ds params H HC IH]; [reflexivity|]. cbn [mapR snd]. cbn [snd] in H. rewrite (joined_ok n d c Hn H), IH. reflexivity. }
  unfold joined_params. rewrite E. cbn [rthen]. destruct params as [|[k c] params]; [congruence|]. destruct ds as [|d ds]; [discriminate|].
  cbn [map combine fst snd hstack]. rewrite beside_ok by (injection HL as HL; exact HL). reflexivity.
Qed.
Lemma row_len n d col s : Column n d col -> s < n -> length (row_of col s) = d.
Proof.
  intros [HL HF] Hs. rewrite Forall_forall in HF. assert (Hs2 : s < length col) by lia. destruct (HF (nth s col []) (nth_In col [] Hs2)) as (l & E & Hl). unfold row_of. rewrite E. unfold numbers, values. cbn. rewrite app_nil_r, map_length. exact Hl.
Qed.
Lemma sample_len {Name} n ds (params : list (Name * list (list kval))) s : Columns n ds params -> s < n -> length (sample params s) = list_sum ds.
Proof.
  intros HC Hs. unfold sample. induction HC as [|d kc ds params H HC IH]; [reflexivity|]. cbn [map flat_map]. rewrite app_length, IH, (row_len n d) by assumption. reflexivity.
Qed.
Lemma sample_nth {Name} n : forall ds (params : list (Name * list (list kval))) s k c d, Columns n ds params -> s < n -> nth_error ds k = Some d -> c < d ->
  exists name col, nth_error params k = Some (name, col) /\ nth (column_of ds k c) (sample params s) 0%R = nth c (numbers (nth s col [])) 0%R.
Proof.
  intros ds params s k c d HC Hs. revert k. induction HC as [|e [name col] ds params H HC IH]; intros k Hk Hc; [destruct k; discriminate|].
  cbn [snd] in H. unfold sample. cbn [map snd flat_map]. destruct k as [|k].
  - injection Hk as ->. exists name, col. split; [reflexivity|]. unfold column_of. cbn [firstn list_sum fold_right]. rewrite app_nth1 by (rewrite (row_len n d) by assumption; exact Hc). reflexivity.
  - cbn [nth_error] in Hk. destruct (IH k Hk Hc) as (name' & col' & E1 & E2). exists name', col'. split; [exact E1|]. rewrite <- E2.
    assert (CE : column_of (e :: ds) (S k) c = e + column_of ds k c) by (unfold column_of; cbn [firstn]; change (list_sum (e :: firstn k ds)) with (e + list_sum (firstn k ds)); lia).
    rewrite CE, app_nth2; rewrite (row_len n e) by assumption; [|lia]. f_equal. lia.
Qed.
(** coordinate c of the k-th parameter is the column of the joined matrix *)
Lemma coordinate_col {Name} n ds (params : list (Name * list (list kval))) k c d : Columns n ds params -> nth_error ds k = Some d -> c < d ->
  coordinate params k c = map (fun x => nth (column_of ds k c) x 0%R) (map (sample params) (seq 0 n)).
Proof.
  intros HC Hk Hc. rewrite map_map. destruct (nth_error params k) as [[name col]|] eqn:E.
  - unfold coordinate. rewrite E. assert (HL : length col = n).
    { clear -HC Hk E. revert k Hk E. induction HC as [|e kc ds params H HC IH]; intros [|k] Hk E; try discriminate; [injection E as ->; exact (proj1 H)|exact (IH k Hk E)]. }
    rewrite (map_seq_nth (fun s => nth c (numbers s) 0%R) []), HL. apply map_ext_in. intros s Hs. apply in_seq in Hs.
    destruct (sample_nth n ds params s k c d HC ltac:(lia) Hk Hc) as (name' & col' & E1 & E2). rewrite E in E1. injection E1 as <- <-. symmetry. exact E2.
  - exfalso. apply nth_error_None in E. assert (k < length ds) by (apply nth_error_Some; congruence). assert (length ds = length params) by (clear -HC; induction HC; cbn; congruence). lia.
Qed.
Lemma column_bound ds k c d : nth_error ds k = Some d -> c < d -> column_of ds k c < list_sum ds.
Proof.
  revert k. induction ds as [|e ds IH]; intros [|k] Hk Hc; try discriminate; unfold column_of in *.
  - injection Hk as ->. cbn [firstn]. change (list_sum (d :: ds)) with (d + list_sum ds). change (list_sum []) with 0. lia.
  - cbn [nth_error firstn] in *. specialize (IH k Hk Hc). change (list_sum (e :: ds)) with (e + list_sum ds). change (list_sum (e :: firstn k ds)) with (e + list_sum (firstn k ds)). lia.
Qed.
Lemma column_all ds i : i < list_sum ds -> exists k c d, nth_error ds k = Some d /\ c < d /\ column_of ds k c = i.
Proof.
  revert i. induction ds as [|e ds IH]; intros i Hi; [cbn in Hi; lia|]. change (list_sum (e :: ds)) with (e + list_sum ds) in Hi. destruct (Nat.lt_ge_cases i e) as [L|G].
  - exists 0, i, e. split; [reflexivity|]. split; [exact L|]. reflexivity.
  - destruct (IH (i - e) ltac:(lia)) as (k & c & d & H1 & H2 & H3). exists (S k), c, d. split; [exact H1|]. split; [exact H2|].
    unfold column_of in *. cbn [firstn]. change (list_sum (e :: firstn k ds)) with (e + list_sum (firstn k ds)). lia.
Qed.

(** np.cov *)
Open Scope R_scope.
Lemma wmean_average w rows i : S_Cov.wmean w rows i = average_of w (map (fun x => nth i x 0) rows).
Proof. unfold S_Cov.wmean, over, average_of. rewrite combine_map_r, map_map. reflexivity. Qed.
Lemma wcov_covariance w rows i j : wcov w rows i j = covariance w (map (fun x => nth i x 0) rows) (map (fun x => nth j x 0) rows).
Proof.
  unfold wcov, covariance. rewrite !wmean_average. unfold over. rewrite combine_maps, combine_map_r, map_map. reflexivity.
Qed.
Lemma entries_fin' w p rows f : total w <> 0 -> 0 < f ->
  map (fun u => map (fun v => xmul (wprod w u v) (xdiv (XR 1) (XR (clip f)))) (map (fun i => map (fun r => nth i r 0) rows) (seq 0 p))) (map (fun i => map (fun r => nth i r 0) rows) (seq 0 p))
  = P_Cov.table p (fun i j => over w rows (fun a x => a * (S_Cov.coord x i - S_Cov.wmean w rows i) * (S_Cov.coord x j - S_Cov.wmean w rows j)) / f).
Proof.
  intros HT Hf. unfold P_Cov.table. rewrite map_map. apply map_ext. intros i. rewrite map_map. apply map_ext. intros j.
  rewrite wprod_fin by assumption. unfold clip. destruct (Rle_dec f 0) as [|N]; [lra|]. rewrite xdiv_fin by lra. cbn [xmul]. f_equal. unfold Rdiv. ring.
Qed.
Lemma no_negative w : Forall (fun a => 0 <= a) w -> existsb (fun x => if Rlt_dec x 0 then true else false) w = false.
Proof. induction 1 as [|a w Ha HF IH]; [reflexivity|]. cbn [existsb]. destruct (Rlt_dec a 0); [lra|exact IH]. Qed.
Lemma cov_columns_ok p rows w : (1 <= p)%nat -> length w = length rows -> TwoPositive w -> cov_columns (Rows p rows) w = Ok (squeeze_cov (P_Cov.table p (wcov w rows))).
Proof.
  intros Hp HW HT. destruct (fact_pos w HT) as [T F]. unfold cov_columns. cbn [cov_variables cov_observations].
  destruct (map (fun i => map (fun r => nth i r 0) rows) (seq 0 p)) as [|v vs] eqn:E; [destruct p; [lia|discriminate]|]. rewrite <- E. clear E v vs.
  rewrite HW, Nat.eqb_refl, (no_negative w (proj1 HT)), rsuml_total'. cbn [negb]. destruct (Req_EM_T (total w) 0) as [|_]; [lra|]. do 2 f_equal.
  replace (rsuml (map (fun x => x * x) w)) with (total (map (fun a => a ^ 2) w)) by (symmetry; rewrite rsuml_total'; apply total_ext; intros; simpl; ring).
  change (total w - total (map (fun a => a ^ 2) w) / total w) with (fact w). rewrite entries_fin' by (assumption || lra). reflexivity.
Qed.
