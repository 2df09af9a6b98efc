(** Proofs about posterior_mean and resample. *)
From Verif Require Import M_Base M_Journal S_Journal L_Journal.
From Coq Require Import Permutation Lqa.

Lemma mapR_Ok {A B} (f : A -> res B) l ys : mapR f l = Ok ys <-> Forall2 (fun x y => f x = Ok y) l ys.
Proof.
  revert ys. induction l as [|x l IH]; intros ys; cbn.
  - split; [intros H; inversion H; constructor | intros H; inversion H; reflexivity].
  - destruct (f x) as [y|e] eqn:E.
    + destruct (mapR f l) as [ys'|e] eqn:E2.
      * split; intros H.
        -- inversion H; subst. constructor; [exact E | apply IH; reflexivity].
        -- inversion H as [|? y' ? ys2 Hy Hr]; subst. apply IH in Hr. congruence.
      * split; [discriminate|]. intros H. inversion H as [|? y' ? ys2 Hy Hr]; subst. apply IH in Hr. discriminate.
    + split; [discriminate|]. intros H. inversion H as [|? y' ? ys2 Hy Hr]; subst. congruence.
Qed.
Lemma mapR_map {A B} (f : A -> res B) (g : A -> B) l : (forall x, In x l -> f x = Ok (g x)) -> mapR f l = Ok (map g l).
Proof.
  intros H. apply mapR_Ok. induction l as [|x l IH]; cbn; constructor; [apply H; left; reflexivity|]. apply IH. intros y Hy. apply H. right. exact Hy.
Qed.

(** * Weighted means *)
Open Scope Q_scope.
Definition colk (k : nat) (rows : list (list Q)) : list Q := map (fun r => nth k r 0) rows.
Definition wmean (ws xs : list Q) : Q := qdot ws xs / qsum ws.

Lemma qdot_cons w ws x xs : qdot (w :: ws) (x :: xs) = w * x + qdot ws xs.
Proof. reflexivity. Qed.
Lemma qdot_total ws xs : qdot ws xs = weighted_total (combine ws xs).
Proof. unfold qdot. induction (combine ws xs) as [|[w x] r IH]; cbn; [reflexivity|]. rewrite IH. reflexivity. Qed.
Lemma qsum_total ws : qsum ws = total ws.
Proof. induction ws as [|w r IH]; cbn; [reflexivity|]. rewrite IH. reflexivity. Qed.
Lemma qdot_bounds ws xs lo hi : length ws = length xs -> Forall (fun w => 0 <= w) ws -> (forall x, In x xs -> between lo hi x) ->
  lo * qsum ws <= qdot ws xs /\ qdot ws xs <= hi * qsum ws.
Proof.
  revert xs. induction ws as [|w ws IH]; intros [|x xs] Hl Hw Hx; cbn in Hl; try discriminate.
  - unfold qdot. cbn. lra.
  - inversion Hw as [|? ? Hw1 Hw2]; subst. destruct (IH xs ltac:(lia) Hw2 (fun y Hy => Hx y (or_intror Hy))) as [A B]. rewrite qdot_cons. cbn [qsum].
    destruct (Hx x (or_introl eq_refl)). nra.
Qed.
Lemma wmean_bounds ws xs lo hi : length ws = length xs -> Forall (fun w => 0 <= w) ws -> ~ qsum ws == 0 -> (forall x, In x xs -> between lo hi x) ->
  between lo hi (wmean ws xs).
Proof.
  intros Hl Hw Hs Hx. destruct (qdot_bounds ws xs lo hi Hl Hw Hx) as [A B]. pose proof (qsum_nonneg ws Hw).
  assert (0 < qsum ws). { destruct (Qlt_le_dec 0 (qsum ws)); [assumption | exfalso; apply Hs; lra]. }
  split; [apply Qle_shift_div_l | apply Qle_shift_div_r]; assumption.
Qed.
Lemma qdot_scale c ws xs : qdot (map (fun w => c * w) ws) xs == c * qdot ws xs.
Proof.
  revert xs. induction ws as [|w ws IH]; intros [|x xs]; cbn [map]; try (unfold qdot; cbn; ring). rewrite !qdot_cons, IH. ring.
Qed.
Lemma wmean_scale c ws xs : ~ c == 0 -> ~ qsum ws == 0 -> wmean (map (fun w => c * w) ws) xs == wmean ws xs.
Proof. intros Hc Hs. unfold wmean. rewrite qdot_scale, qsum_scale. field. split; assumption. Qed.
Lemma map_nth_seq {A} (l : list A) d : l = map (fun i => nth i l d) (seq 0 (length l)).
Proof.
  induction l as [|x l IH]; [reflexivity|]. cbn [length seq map nth]. f_equal. rewrite <- seq_shift, map_map. exact IH.
Qed.
Lemma combine_map {A B C} (f : A -> B) (g : A -> C) l : combine (map f l) (map g l) = map (fun x => (f x, g x)) l.
Proof. induction l as [|x l IH]; cbn; [reflexivity|]. rewrite IH. reflexivity. Qed.
Lemma qdot_perm ws xs perm : length ws = length xs -> Permutation perm (seq 0 (length ws)) ->
  qdot (map (fun i => nth i ws 0) perm) (map (fun i => nth i xs 0) perm) == qdot ws xs.
Proof.
  intros Hl Hp. unfold qdot. rewrite combine_map, map_map. cbn [fst snd].
  rewrite (qsum_perm _ (map (fun i => nth i ws 0 * nth i xs 0) (seq 0 (length ws)))) by (apply Permutation_map; exact Hp).
  assert (E : combine ws xs = map (fun i => (nth i ws 0, nth i xs 0)) (seq 0 (length ws))).
  { rewrite <- combine_map. f_equal; [apply map_nth_seq | rewrite Hl; apply map_nth_seq]. }
  rewrite E, map_map. reflexivity.
Qed.
Lemma qsum_permute ws perm : Permutation perm (seq 0 (length ws)) -> qsum (map (fun i => nth i ws 0) perm) == qsum ws.
Proof.
  intros Hp. rewrite (qsum_perm _ (map (fun i => nth i ws 0) (seq 0 (length ws)))) by (apply Permutation_map; exact Hp). rewrite <- map_nth_seq. reflexivity.
Qed.

(** * Squeezing and averaging *)
Lemma squeeze_1 rows : (2 <= length rows)%nat -> Forall (fun r => length r = 1%nat) rows -> squeeze rows = Q1 (colk 0 rows).
Proof.
  intros Hn H. assert (E : forallb (fun r => Nat.eqb (length r) 1) rows = true).
  { apply forallb_forall. intros r Hr. rewrite Forall_forall in H. rewrite (H r Hr). reflexivity. }
  destruct rows as [|r0 [|r1 rows]]; cbn [length] in Hn; try lia. unfold squeeze. destruct r0 as [|x0 [|? ?]]; rewrite E; f_equal; unfold colk; apply map_ext; intros [|? ?]; reflexivity.
Qed.
Lemma squeeze_d rows d : (2 <= length rows)%nat -> (d <> 1)%nat -> Forall (fun r => length r = d) rows -> squeeze rows = Q2 rows.
Proof.
  intros Hn Hd H. assert (E : forallb (fun r => Nat.eqb (length r) 1) rows = false).
  { destruct rows as [|r rows]; [cbn in Hn; lia|]. inversion H; subst. cbn. destruct (Nat.eqb_spec (length r) 1); [contradiction | reflexivity]. }
  destruct rows as [|r0 [|r1 rows]]; cbn [length] in Hn; try lia. unfold squeeze. destruct r0 as [|x0 [|? ?]]; rewrite E; reflexivity.
Qed.
Definition mean_of (rows : list (list Q)) (d : nat) (ws : list Q) : avg :=
  if Nat.eqb d 1 then V0 (wmean ws (colk 0 rows)) else V1 (map (fun k => wmean ws (colk k rows)) (seq 0 d)).
Lemma average_regular rows n d ws : (2 <= n)%nat -> regular rows n d -> length ws = n -> ~ qsum ws == 0 ->
  average (squeeze rows) ws = Ok (mean_of rows d ws).
Proof.
  intros Hn [Hl Hr] Hw Hs. assert (E : Qeq_bool (qsum ws) 0 = false) by (destruct (Qeq_bool (qsum ws) 0) eqn:E; [apply Qeq_bool_iff in E; contradiction | reflexivity]).
  unfold mean_of. destruct (Nat.eqb_spec d 1) as [->|Hd].
  - rewrite squeeze_1 by (assumption || lia). cbn [average]. unfold colk. rewrite map_length, Hw, Hl, Nat.eqb_refl, E. reflexivity.
  - rewrite (squeeze_d rows d) by (assumption || lia). cbn [average]. rewrite Hw, Hl, Nat.eqb_refl, E. f_equal. f_equal.
    destruct rows as [|r rows]; [cbn in Hl; lia|]. inversion Hr; subst. reflexivity.
Qed.
Lemma coord_mean rows d ws k x : coord (mean_of rows d ws) k = Some x -> (k < d)%nat /\ x = wmean ws (colk k rows).
Proof.
  unfold mean_of. destruct (Nat.eqb_spec d 1) as [->|Hd]; cbn [coord].
  - destruct (Nat.eqb_spec k 0) as [->|]; [|discriminate]. intros H. inversion H. split; [lia | reflexivity].
  - intros H. assert (Hk : (k < d)%nat). { apply nth_error_Some_lt in H || (assert (nth_error (map (fun k0 : nat => wmean ws (colk k0 rows)) (seq 0 d)) k <> None) by congruence; apply nth_error_Some in H0; rewrite map_length, seq_length in H0; exact H0). }
    split; [exact Hk|]. rewrite nth_error_map in H. rewrite (nth_error_nth' (seq 0 d) 0%nat) in H by (rewrite seq_length; exact Hk).
    rewrite seq_nth in H by exact Hk. cbn in H. congruence.
Qed.
Lemma coord_defined rows d ws k : (k < d)%nat -> exists x, coord (mean_of rows d ws) k = Some x.
Proof.
  intros Hk. unfold mean_of. destruct (Nat.eqb_spec d 1) as [->|Hd]; cbn [coord].
  - replace k with 0%nat by lia. eexists. reflexivity.
  - rewrite nth_error_map, (nth_error_nth' (seq 0 d) 0%nat) by (rewrite seq_length; exact Hk). eexists. reflexivity.
Qed.

(** * posterior_mean *)
Section PM.
Variables Name S C D : Type.
Notation journal := (journal Name Q S C D).
Definition one_mean (w : arr) (kc : Name * list (list Q)) : res (Name * avg) :=
  match average (squeeze (snd kc)) (wvals w) with Ok v => Ok (fst kc, v) | Err e => Err e end.
Lemma pm_unfold (j : journal) it params w : pyget (j_names j) (iter_of j it) = Ok params -> pyget (j_weights j) (iter_of j it) = Ok w ->
  posterior_mean j it = mapR (one_mean w) params.
Proof. intros H1 H2. unfold posterior_mean. fold (iter_of j it). rewrite H1, H2. reflexivity. Qed.

Definition regparams (params : list (Name * list (list Q))) (n : nat) : Prop :=
  Forall (fun kc => exists d, (1 <= d)%nat /\ regular (snd kc) n d) params.
Definition width (kc : Name * list (list Q)) : nat := length (hd [] (snd kc)).
Lemma regular_width rows n d : (2 <= n)%nat -> regular rows n d -> length (hd [] rows) = d.
Proof. intros Hn [Hl Hr]. destruct rows as [|r rows]; [cbn in Hl; lia|]. inversion Hr; subst. reflexivity. Qed.
Lemma one_mean_reg w kc n : (2 <= n)%nat -> (exists d, (1 <= d)%nat /\ regular (snd kc) n d) -> length (wvals w) = n -> ~ qsum (wvals w) == 0 ->
  one_mean w kc = Ok (fst kc, mean_of (snd kc) (width kc) (wvals w)).
Proof.
  intros Hn (d & Hd & Hr) Hw Hs. unfold one_mean, width. rewrite (regular_width _ n d Hn Hr). rewrite (average_regular _ n d) by assumption. reflexivity.
Qed.
Lemma pm_regular (j : journal) it params w n : pyget (j_names j) (iter_of j it) = Ok params -> pyget (j_weights j) (iter_of j it) = Ok w ->
  (2 <= n)%nat -> regparams params n -> length (wvals w) = n -> ~ qsum (wvals w) == 0 ->
  posterior_mean j it = Ok (map (fun kc => (fst kc, mean_of (snd kc) (width kc) (wvals w))) params).
Proof.
  intros H1 H2 Hn Hr Hw Hs. rewrite (pm_unfold j it params w H1 H2). apply mapR_map. intros kc Hin. unfold regparams in Hr. rewrite Forall_forall in Hr.
  apply (one_mean_reg w kc n); auto.
Qed.

Lemma pm_convex (j : journal) it params w n : pyget (j_names j) (iter_of j it) = Ok params -> pyget (j_weights j) (iter_of j it) = Ok w ->
  (2 <= n)%nat -> regparams params n -> length (wvals w) = n -> Forall (fun x => 0 <= x) (wvals w) -> ~ qsum (wvals w) == 0 ->
  exists r, posterior_mean j it = Ok r /\ map fst r = map fst params
  /\ forall m name rows a, nth_error params m = Some (name, rows) -> nth_error r m = Some (name, a) ->
       forall k, (k < length (hd [] rows))%nat -> exists x, coord a k = Some x
       /\ x == weighted_total (combine (wvals w) (map (fun row => nth k row 0) rows)) / total (wvals w)
       /\ forall lo hi, (forall row, In row rows -> between lo hi (nth k row 0)) -> between lo hi x.
Proof.
  intros H1 H2 Hn Hr Hw Hp Hs. eexists. split; [eapply pm_regular; eassumption|]. split; [rewrite map_map; reflexivity|].
  intros m name rows a Hm Ha k Hk. unfold column in *. rewrite nth_error_map, Hm in Ha. cbn in Ha. injection Ha as <-. unfold width; cbn [fst snd].
  destruct (coord_defined rows (length (hd [] rows)) (wvals w) k Hk) as [x Hx]. exists x. split; [exact Hx|].
  apply coord_mean in Hx. destruct Hx as [_ ->]. split; [unfold wmean; rewrite qdot_total, qsum_total; reflexivity|]. intros lo hi Hb. apply wmean_bounds; auto.
  - unfold colk. rewrite map_length. apply nth_error_In in Hm. unfold regparams in Hr. rewrite Forall_forall in Hr. destruct (Hr _ Hm) as (d & _ & Hl & _). cbn in Hl. congruence.
  - intros y Hy. unfold colk in Hy. apply in_map_iff in Hy. destruct Hy as (row & <- & Hrow). apply Hb. exact Hrow.
Qed.

Definition same_res (r r' : list (Name * avg)) : Prop := Forall2 (fun p q => fst p = fst q /\ same_avg (snd p) (snd q)) r r'.
Lemma avg_rescale a ws c v : ~ c == 0 -> average a ws = Ok v -> exists v', average a (map (fun x => c * x) ws) = Ok v' /\ same_avg v v'.
Proof.
  intros Hc H. assert (Hb : forall ws, Qeq_bool (qsum ws) 0 = false -> Qeq_bool (qsum (map (fun x => c * x) ws)) 0 = false /\ ~ qsum ws == 0).
  { intros ws0 E. apply Qeq_bool_neq in E. split; [|exact E]. destruct (Qeq_bool (qsum (map (fun x => c * x) ws0)) 0) eqn:E2; [|reflexivity].
    apply Qeq_bool_iff in E2. rewrite qsum_scale in E2. apply Qmult_integral in E2. tauto. }
  destruct a as [x|l|rows]; cbn in H |- *; [discriminate| |].
  - rewrite map_length. destruct (Nat.eqb (length ws) (length l)); [|discriminate]. destruct (Qeq_bool (qsum ws) 0) eqn:E; [discriminate|]. destruct (Hb ws E) as [-> Hs].
    inversion H; subst. eexists. split; [reflexivity|]. cbn. symmetry. apply wmean_scale; assumption.
  - rewrite map_length. destruct (Nat.eqb (length ws) (length rows)); [|discriminate]. destruct (Qeq_bool (qsum ws) 0) eqn:E; [discriminate|]. destruct (Hb ws E) as [-> Hs].
    inversion H; subst. eexists. split; [reflexivity|]. cbn. clear H. induction (seq 0 (length (hd [] rows))) as [|k l IH]; cbn [map]; [constructor|]. constructor; [symmetry; apply wmean_scale; assumption | exact IH].
Qed.
Lemma pm_rescale (j j' : journal) it c params w w' r : ~ c == 0 ->
  pyget (j_names j) (iter_of j it) = Ok params -> pyget (j_weights j) (iter_of j it) = Ok w ->
  pyget (j_names j') (iter_of j' it) = Ok params -> pyget (j_weights j') (iter_of j' it) = Ok w' -> wvals w' = map (fun x => c * x) (wvals w) ->
  posterior_mean j it = Ok r -> exists r', posterior_mean j' it = Ok r' /\ same_res r r'.
Proof.
  intros Hc H1 H2 H1' H2' Hw H. rewrite (pm_unfold j it params w H1 H2) in H. rewrite (pm_unfold j' it params w' H1' H2'). clear H1 H2 H1' H2'.
  apply mapR_Ok in H. induction H as [|kc v params r Hv _ IH]; [exists []; split; [reflexivity | constructor]|].
  destruct IH as (r' & E & Hs). unfold one_mean in Hv. destruct (average (squeeze (snd kc)) (wvals w)) as [a|] eqn:Ea; [|discriminate].
  destruct (avg_rescale _ _ c a Hc Ea) as (a' & Ea' & Hsa). inversion Hv; subst v.
  exists ((fst kc, a') :: r'). split; [|constructor; [cbn; auto | exact Hs]]. cbn. unfold one_mean at 1. rewrite Hw, Ea', E. reflexivity.
Qed.

Definition permute {A} (d : A) (perm : list nat) (l : list A) : list A := map (fun i => nth i l d) perm.
Lemma pm_permute (j j' : journal) it perm params w w' n : Permutation perm (seq 0 n) ->
  pyget (j_names j) (iter_of j it) = Ok params -> pyget (j_weights j) (iter_of j it) = Ok w ->
  pyget (j_names j') (iter_of j' it) = Ok (map (fun kc => (fst kc, permute [] perm (snd kc))) params) ->
  pyget (j_weights j') (iter_of j' it) = Ok w' -> wvals w' = permute 0 perm (wvals w) ->
  (2 <= n)%nat -> regparams params n -> length (wvals w) = n -> ~ qsum (wvals w) == 0 ->
  exists r r', posterior_mean j it = Ok r /\ posterior_mean j' it = Ok r' /\ same_res r r'.
Proof.
  intros Hperm H1 H2 H1' H2' Hw Hn Hr Hl Hs.
  assert (Hlen : length perm = n) by (rewrite (Permutation_length Hperm); apply seq_length).
  assert (Hlt : forall i, In i perm -> (i < n)%nat) by (intros i Hi; apply (Permutation_in _ Hperm) in Hi; apply in_seq in Hi; lia).
  assert (Hreg : forall rows d, regular rows n d -> regular (permute [] perm rows) n d).
  { intros rows d [A B]. split; [unfold permute; rewrite map_length; exact Hlen|]. apply Forall_forall. intros r Hin. unfold permute in Hin.
    apply in_map_iff in Hin. destruct Hin as (i & <- & Hi). rewrite Forall_forall in B. apply B. apply nth_In. rewrite A. apply Hlt. exact Hi. }
  eexists. eexists. split; [eapply pm_regular; eassumption|]. split.
  { eapply pm_regular; try eassumption.
    - unfold regparams in *. apply Forall_forall. intros kc Hin. apply in_map_iff in Hin. destruct Hin as (kc0 & <- & Hin). cbn [snd].
      rewrite Forall_forall in Hr. destruct (Hr kc0 Hin) as (d & Hd & Hd2). exists d. split; [exact Hd | apply Hreg; exact Hd2].
    - rewrite Hw. unfold permute. rewrite map_length. exact Hlen.
    - rewrite Hw. unfold permute. rewrite qsum_permute by (rewrite Hl; exact Hperm). exact Hs. }
  rewrite Hw, map_map. clear H1 H1'. unfold same_res. induction Hr as [|kc params (d & Hd & Hd2) _ IH]; cbn [map]; [constructor|]. constructor; [|exact IH]. cbn [fst snd]. split; [reflexivity|].
  unfold width. cbn [snd]. rewrite (regular_width _ n d Hn Hd2), (regular_width _ n d Hn (Hreg _ _ Hd2)).
  assert (Hm : forall k, wmean (wvals w) (colk k (snd kc)) == wmean (permute 0 perm (wvals w)) (colk k (permute [] perm (snd kc)))).
  { intros k. unfold wmean. assert (Hc : colk k (permute [] perm (snd kc)) = permute 0 perm (colk k (snd kc))).
    { unfold colk, permute. rewrite map_map. apply map_ext_in. intros i Hi. destruct Hd2 as [Hl2 _].
      rewrite (nth_indep (map (fun r => nth k r 0) (snd kc)) 0 ((fun r => nth k r 0) [])) by (rewrite map_length, Hl2; apply Hlt; exact Hi).
      rewrite (map_nth (fun r => nth k r 0)). reflexivity. }
    rewrite Hc. unfold permute. rewrite qdot_perm, qsum_permute; [reflexivity | rewrite Hl; exact Hperm | | rewrite Hl; exact Hperm].
    unfold colk. rewrite map_length. destruct Hd2 as [Hl2 _]. congruence. }
  unfold mean_of. destruct (Nat.eqb d 1); cbn; [apply Hm|]. induction (seq 0 d) as [|k l IHl]; cbn [map]; [constructor|]. constructor; [apply Hm | exact IHl].
Qed.
End PM.

(** * resample *)
Open Scope nat_scope.
Section RS.
Variables Name E S C D : Type.
Variable neqb : Name -> Name -> bool.
Hypothesis neqb_spec : forall a b, reflect (a = b) (neqb a b).
Notation journal := (journal Name E S C D).

Lemma firstn_skipn_concat {A} (ls : list (list A)) m c : nth_error ls m = Some c ->
  firstn (length c) (skipn (length (concat (firstn m ls))) (concat ls)) = c.
Proof.
  revert m. induction ls as [|l ls IH]; intros [|m] H; cbn in H; try discriminate.
  - inversion H; subst. cbn. rewrite firstn_app, Nat.sub_diag, firstn_all, app_nil_r. reflexivity.
  - cbn [firstn concat]. rewrite app_length, skipn_app. rewrite (skipn_all2 l) by lia. cbn [app].
    replace (length l + length (concat (firstn m ls)) - length l) with (length (concat (firstn m ls))) by lia. apply IH. exact H.
Qed.

Lemma pyget_nat {A} (l : list A) i d : i < length l -> pyget l (Z.of_nat i) = Ok (nth i l d).
Proof.
  intros H. rewrite pyget_spec. unfold at_pos. destruct (Z.leb_spec 0 (Z.of_nat i)); [|lia]. rewrite Nat2Z.id, (nth_error_nth' l d H). reflexivity.
Qed.

Lemma name_cols_ok rows draw n pre nd :
  (forall i, In i draw -> nth i rows [] = concat (map (fun kc : Name * list (list E) => nth i (snd kc) []) (pre ++ nd))) ->
  (forall kc, In kc (pre ++ nd) -> snd kc <> [] /\ (forall i, In i draw -> i < length (snd kc)) /\ exists s, Forall (fun e => length e = s) (snd kc)) ->
  length draw = n -> n <> 0 \/ n = 0 ->
  name_cols (map (fun i => nth i rows []) draw) n nd (fold_right (fun kc a => length (hd [] (snd kc)) + a) 0 pre)
  = Ok (map (fun kc => (fst kc, map (fun i => nth i (snd kc) []) draw)) nd).
Proof.
  revert pre. induction nd as [|[name col] nd IH]; intros pre Hrow Hcol Hn Hd; [reflexivity|].
  cbn [name_cols]. destruct (Hcol (name, col)) as (Hne & Hlt & s & Hs); [apply in_or_app; right; left; reflexivity|]. cbn [snd] in *.
  destruct col as [|c0 col]; [congruence|]. remember (c0 :: col) as cc eqn:Hcc.
  set (start := fold_right (fun kc a => length (hd [] (snd kc)) + a) 0 pre).
  assert (E1 : mapR (fun i => match pyget (map (fun i => nth i rows []) draw) (Z.of_nat i) with Ok row => Ok (firstn (length c0) (skipn start row)) | Err e => Err e end) (seq 0 n)
            = Ok (map (fun i => nth i cc []) draw)).
  { rewrite (map_nth_seq (map (fun i => nth i cc []) draw) []), map_length, Hn. apply mapR_map. intros k Hk. apply in_seq in Hk.
    rewrite (pyget_nat _ k []) by (rewrite map_length; lia). f_equal.
    rewrite (nth_indep _ [] ((fun i => nth i rows []) 0)) by (rewrite map_length; lia). rewrite (map_nth (fun i => nth i rows [])).
    rewrite (nth_indep (map (fun i => nth i cc []) draw) [] ((fun i => nth i cc []) 0)) by (rewrite map_length; lia). rewrite (map_nth (fun i => nth i cc [])).
    set (i := nth k draw 0). assert (Hi : In i draw) by (apply nth_In; lia). rewrite (Hrow i Hi), map_app. cbn [map snd].
    assert (Hstart : start = length (concat (firstn (length pre) (map (fun kc : Name * list (list E) => nth i (snd kc) []) pre ++ nth i cc [] :: map (fun kc => nth i (snd kc) []) nd)))).
    { rewrite firstn_app. rewrite map_length, Nat.sub_diag, firstn_O, app_nil_r. rewrite firstn_all2 by (rewrite map_length; lia).
      unfold start. clear - Hcol Hi. induction pre as [|kc pre IHp]; cbn; [reflexivity|]. rewrite app_length. rewrite IHp by (intros kc' Hin; apply Hcol; right; exact Hin). f_equal.
      destruct (Hcol kc) as (A & B & s & Hs); [left; reflexivity|]. rewrite Forall_forall in Hs. destruct (snd kc) as [|e0 l] eqn:E0; [congruence|]. cbn [hd].
      rewrite (Hs e0) by (left; reflexivity). symmetry. apply Hs. apply nth_In. apply B. exact Hi. }
    assert (Hc0 : length c0 = length (nth i cc [])).
    { rewrite Forall_forall in Hs. rewrite (Hs c0) by (rewrite Hcc; left; reflexivity). symmetry. apply Hs. apply nth_In. apply Hlt. exact Hi. }
    rewrite Hstart, Hc0. apply firstn_skipn_concat. rewrite nth_error_app2 by (rewrite map_length; lia). rewrite map_length, Nat.sub_diag. reflexivity. }
  rewrite E1. specialize (IH (pre ++ [(name, cc)])). rewrite <- !app_assoc in IH. cbn [app] in IH.
  assert (E2 : fold_right (fun kc a => length (hd [] (snd kc)) + a) 0 (pre ++ [(name, cc)]) = start + length c0).
  { unfold start. rewrite fold_right_app. cbn. rewrite Hcc. cbn. rewrite Nat.add_0_r. clear. induction pre as [|kc pre IHp]; cbn; [reflexivity|]. rewrite IHp. lia. }
  rewrite E2 in IH. rewrite IH by assumption. reflexivity.
Qed.

Lemma resample_ok (j : journal) rows nd n_old n_samples replace draw :
  fits j rows nd n_old ->
  let n := match n_samples with Some n => n | None => n_old end in
  (replace = false -> n <= n_old) ->
  length draw = n -> (forall i, In i draw -> i < n_old) ->
  exists j', resample neqb j n_samples replace draw = Ok j'
  /\ j_acc j' = [map (fun i => nth i rows []) draw]
  /\ j_names j' = [map (fun kc => (fst kc, map (fun i => nth i (snd kc) []) draw)) nd]
  /\ j_weights j' = [Col (repeat 1%Q n)] /\ j_nsamples j' = Some n /\ jtype j' = 0
  /\ exists v, j_ess j' = [v] /\ ess_of (Col (repeat 1%Q n)) = Ok v.
Proof.
  intros (F1 & F2 & (w & F3 & F3') & F4 & F5 & F6 & F7 & F8 & F9 & F10) n Hrep Hlen Hdraw. unfold resample.
  unfold get_accepted_parameters, get_last_or. rewrite pyget_spec, at_last, F1. cbn [or_index].
  unfold get_weights, get_len1. rewrite pyget_spec, at_last, F3. cbn [or_index]. rewrite F4. fold n.
  assert (E1 : (n_old <? n) && negb replace = false).
  { destruct replace; [apply andb_false_r|]. specialize (Hrep eq_refl). destruct (Nat.ltb_spec n_old n); [lia | reflexivity]. }
  rewrite E1, F3', Nat.eqb_refl. cbn [negb].
  rewrite (mapR_map _ (fun i => nth i rows [])) by (intros i Hi; apply pyget_nat; rewrite F7; apply Hdraw; exact Hi). rewrite F5. cbn [negb].
  unfold get_parameters, get_len1. rewrite pyget_spec, at_len1, F2. cbn [or_index].
  assert (Enc : name_cols (map (fun i => nth i rows []) draw) n nd 0 = Ok (map (fun kc => (fst kc, map (fun i => nth i (snd kc) []) draw)) nd)).
  { refine (name_cols_ok rows draw n [] nd _ _ Hlen _).
  - intros i Hi. cbn [app]. apply F10. apply Hdraw. exact Hi.
  - cbn [app]. intros kc Hin. destruct (F9 kc Hin) as [A B]. split; [destruct (snd kc); [cbn in A; lia | discriminate]|]. split; [|exact B]. intros i Hi. rewrite A. apply Hdraw. exact Hi.
  - lia. }
  unfold column. rewrite Enc. clear Enc.
  assert (E2 : exists v, ess_of (Col (repeat 1%Q n)) = Ok v) by (cbn; destruct (Qeq_bool _ _); eauto). destruct E2 as [v E2]. rewrite E2.
    eexists. split; [reflexivity|]. cbn. split; [reflexivity|]. split; [|eauto 10]. rewrite dict_nodup; [reflexivity | exact neqb_spec|]. rewrite map_map. exact F8.
Qed.
Lemma resample_refuses (j : journal) rows nd n_old n draw : fits j rows nd n_old -> n_old < n -> resample neqb j (Some n) false draw = Err RuntimeError.
Proof.
  intros (F1 & F2 & (w & F3 & F3') & F4 & _) H. unfold resample.
  unfold get_accepted_parameters, get_last_or. rewrite pyget_spec, at_last, F1. cbn [or_index].
  unfold get_weights, get_len1. rewrite pyget_spec, at_last, F3. cbn [or_index]. rewrite F4.
  destruct (Nat.ltb_spec n_old n); [reflexivity | lia].
Qed.
End RS.
