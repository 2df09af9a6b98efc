(** Proofs about the plots of a journal (C80). *)
From Coq Require Import QArith ZArith Lqa Lia.
From Verif Require Import M_Base M_MMD M_Journal S_Journal L_Journal L_Journal2 M_Kernel M_Plot S_Plot.
Open Scope nat_scope.
Local Notation qsum := M_Journal.qsum.

Lemma in_numbered {A} (l : list A) i x : In (i, x) (numbered l) <-> nth_error l i = Some x.
Proof.
  unfold numbered. assert (G : forall k, In (i, x) (combine (seq k (length l)) l) <-> (k <= i /\ nth_error l (i - k) = Some x)).
  { induction l as [|y l IH]; intros k; cbn [length seq combine In].
    - split; [tauto|]. intros [_ H]. destruct (i - k); discriminate.
    - rewrite IH. split.
      + intros [E|[Hk H]]; [injection E as -> ->; rewrite Nat.sub_diag; split; [lia|reflexivity]|]. split; [lia|]. replace (i - k) with (Datatypes.S (i - Datatypes.S k)) by lia. exact H.
      + intros [Hk H]. destruct (Nat.eq_dec i k) as [->|N]; [rewrite Nat.sub_diag in H; left; cbn in H; congruence|right]. split; [lia|]. replace (i - k) with (Datatypes.S (i - Datatypes.S k)) in H by lia. exact H. }
  rewrite G, Nat.sub_0_r. split; [tauto|]. intros H. split; [lia|exact H].
Qed.
Lemma in_put_at {Name} pos (l : list (art Name)) q a : In (q, a) (put_at Name pos l) <-> q = pos /\ In a l.
Proof. unfold put_at. rewrite in_map_iff. split; [intros (b & E & H); injection E as <- <-; auto|intros [-> H]; exists a; auto]. Qed.
Lemma in_when {A} b (l : list A) x : In x (when b l) <-> b = true /\ In x l.
Proof. destruct b; cbn; intuition discriminate. Qed.
Lemma nth_named {A} (l : list A) i : i < length l -> exists x, nth_error l i = Some x.
Proof. intros H. destruct (nth_error l i) as [x|] eqn:E; [eauto|]. apply nth_error_None in E. lia. Qed.
Lemma named_lt {A} (l : list A) i x : nth_error l i = Some x -> i < length l.
Proof. intros E. apply nth_error_Some. congruence. Qed.

(** smallest and largest numbers *)
Lemma qsum_fold l : qsum l = fold_right Qplus 0%Q l.
Proof. induction l as [|x l IH]; [reflexivity|]. cbn [M_Journal.qsum fold_right]. rewrite IH. reflexivity. Qed.
Lemma wmean_eq ws xs : wmean ws xs = weighted_mean ws xs.
Proof. unfold wmean, weighted_mean, qdot. rewrite !qsum_fold. reflexivity. Qed.
Lemma right_ok v lim : RightRange v lim <-> limits_ok v = true /\ unpack v = Ok lim.
Proof.
  destruct lim as [a b]. destruct v as [l|l|sh l]; cbn [RightRange fst snd limits_ok unpack].
  - destruct l as [|[b1 q1] [|[b2 q2] [|c l]]]; cbn; split; try (intros [H _]; discriminate H); try (intros [_ H]; discriminate H).
    + intros [H (q & E)]. injection H as -> ->. injection E as -> _. auto.
    + intros [-> H]. injection H as -> ->. split; [reflexivity|eauto].
  - destruct l as [|x [|y [|z l]]]; cbn; split; try discriminate; try (intros [_ H]; discriminate H).
    + intros H. injection H as -> ->. auto.
    + intros [_ H]. injection H as -> ->. reflexivity.
  - split.
    + intros [-> ->]. auto.
    + intros [H E]. destruct sh as [|x [|y [|z sh]]]; try discriminate H. apply Bool.andb_true_iff in H. destruct H as [Hx Hy]. apply Nat.eqb_eq in Hx, Hy. subst. split; [reflexivity|]. destruct l as [|p [|q [|r l]]]; try discriminate E. injection E as -> ->. reflexivity.
Qed.
Lemma qmin_in x l : In (qmin (x :: l)) (x :: l).
Proof.
  cbn [qmin]. assert (G : forall a, In (fold_left (fun a b => if Qle_bool a b then a else b) l a) (a :: l)).
  { induction l as [|y l IH]; intros a; [left; reflexivity|]. cbn [fold_left]. destruct (IH (if Qle_bool a y then a else y)) as [E|H]; [rewrite <- E; destruct (Qle_bool a y); cbn; auto|right; right; exact H]. }
  apply G.
Qed.
Lemma qmax_in x l : In (qmax (x :: l)) (x :: l).
Proof.
  cbn [qmax]. assert (G : forall a, In (fold_left (fun a b => if Qle_bool a b then b else a) l a) (a :: l)).
  { induction l as [|y l IH]; intros a; [left; reflexivity|]. cbn [fold_left]. destruct (IH (if Qle_bool a y then y else a)) as [E|H]; [rewrite <- E; destruct (Qle_bool a y); cbn; auto|right; right; exact H]. }
  apply G.
Qed.
Lemma qmin_le l : forall x, In x l -> (qmin l <= x)%Q.
Proof.
  destruct l as [|a l]; intros x H; [destruct H|]. cbn [qmin].
  assert (G : forall l a, (fold_left (fun a b => if Qle_bool a b then a else b) l a <= a)%Q /\ forall x, In x l -> (fold_left (fun a b => if Qle_bool a b then a else b) l a <= x)%Q).
  { clear. induction l as [|y l IH]; intros a; [split; [apply Qle_refl|intros x []]|]. cbn [fold_left]. destruct (IH (if Qle_bool a y then a else y)) as [H1 H2].
    assert (K : ((if Qle_bool a y then a else y) <= a)%Q /\ ((if Qle_bool a y then a else y) <= y)%Q).
    { destruct (Qle_bool a y) eqn:E; [apply Qle_bool_iff in E; split; [apply Qle_refl|exact E]|]. split; [|apply Qle_refl]. apply Qnot_lt_le. intros L. apply Qlt_le_weak, Qle_bool_iff in L. congruence. }
    destruct K as [K1 K2]. split; [eapply Qle_trans; eassumption|]. intros x [->|H]; [eapply Qle_trans; eassumption|apply H2, H]. }
  destruct (G l a) as [G1 G2]. destruct H as [<-|H]; [exact G1|apply G2, H].
Qed.
Lemma qmax_ge l : forall x, In x l -> (x <= qmax l)%Q.
Proof.
  destruct l as [|a l]; intros x H; [destruct H|]. cbn [qmax].
  assert (G : forall l a, (a <= fold_left (fun a b => if Qle_bool a b then b else a) l a)%Q /\ forall x, In x l -> (x <= fold_left (fun a b => if Qle_bool a b then b else a) l a)%Q).
  { clear. induction l as [|y l IH]; intros a; [split; [apply Qle_refl|intros x []]|]. cbn [fold_left]. destruct (IH (if Qle_bool a y then y else a)) as [H1 H2].
    assert (K : (a <= (if Qle_bool a y then y else a))%Q /\ (y <= (if Qle_bool a y then y else a))%Q).
    { destruct (Qle_bool a y) eqn:E; [apply Qle_bool_iff in E; split; [exact E|apply Qle_refl]|]. split; [apply Qle_refl|]. apply Qnot_lt_le. intros L. apply Qlt_le_weak, Qle_bool_iff in L. congruence. }
    destruct K as [K1 K2]. split; [eapply Qle_trans; eassumption|]. intros x [->|H]; [eapply Qle_trans; eassumption|apply H2, H]. }
  destruct (G l a) as [G1 G2]. destruct H as [<-|H]; [exact G1|apply G2, H].
Qed.
Lemma default_padded xs : xs <> [] -> exists r lim, default_limits xs = Ok r /\ limits_ok r = true /\ unpack r = Ok lim /\ Padded xs lim.
Proof.
  destruct xs as [|x xs]; [congruence|]. intros _. eexists _, _. split; [reflexivity|]. split; [reflexivity|]. split; [reflexivity|]. exists (qmin (x :: xs)), (qmax (x :: xs)).
  split; [apply qmin_in|]. split; [apply qmax_in|]. split; [|reflexivity]. intros y Hy. split; [apply qmin_le, Hy|apply qmax_ge, Hy].
Qed.

Section Plot.
Variables Name S C D : Type.
Variable neqb : Name -> Name -> bool.
Hypothesis neqb_spec : forall a b, reflect (a = b) (neqb a b).
Notation journal := (journal Name kval S C D).

Lemma dget_map {V} (f : Name -> V) l n : dget neqb (map (fun n => (n, f n)) l) n = if in_dec (fun a b => match neqb_spec a b with ReflectT _ e => left e | ReflectF _ e => right e end) n l then Some (f n) else None.
Proof.
  induction l as [|m l IH]; [reflexivity|]. cbn [map dget]. destruct (neqb_spec n m) as [->|N].
  - destruct (in_dec _ m (m :: l)) as [_|X]; [reflexivity|exfalso; apply X; left; reflexivity].
  - rewrite IH. destruct (in_dec _ n l) as [H|H], (in_dec _ n (m :: l)) as [H'|H']; try reflexivity; exfalso; [apply H'; right; exact H|]. destruct H' as [->|H']; [apply N; reflexivity|exact (H H')].
Qed.
Lemma at_map {V} (f : Name -> V) l n : In n l -> at_key Name neqb (map (fun n => (n, f n)) l) n = Ok (f n).
Proof. intros H. unfold at_key. rewrite dget_map. destruct (in_dec _ n l) as [_|X]; [reflexivity|contradiction]. Qed.

Section Read.
Variables (j : journal) (it : option Z) (all : list Name) (col : Name -> list Q) (ws : list Q).
Hypothesis R : Readable j it all col ws.
Lemma squeeze_one (xs : list Q) : 2 <= length xs -> squeeze (map (flat_map flat) (map (fun x => [KA [x]]) xs)) = Q1 xs.
Proof.
  intros H. rewrite map_map. cbn [flat_map flat app]. destruct xs as [|a [|b xs]]; cbn in H; try lia.
  assert (F : forall l : list Q, forallb (fun r => length r =? 1) (map (fun x => [x]) l) = true) by (induction l as [|x l IH]; [reflexivity|exact IH]).
  assert (G : forall l : list Q, map (fun r => hd 0%Q r) (map (fun x => [x]) l) = l) by (induction l as [|x l IH]; [reflexivity|cbn; rewrite IH; reflexivity]).
  unfold squeeze. cbn [map]. change ([a] :: [b] :: map (fun x => [x]) xs) with (map (fun x : Q => [x]) (a :: b :: xs)). rewrite F, G. reflexivity.
Qed.
Lemma mean_ok : mean_of Name S C D j it = Ok (map (fun n => (n, V0 (wmean ws (col n)))) all).
Proof.
  destruct R as (H1 & H2 & H3 & H4 & H5 & H6). rewrite <- qsum_fold in H6. unfold mean_of.
  assert (E1 : pyget (j_names j) (match it with Some i => i | None => (Z.of_nat (length (j_names j)) - 1)%Z end) = Ok (univariate all col)) by (unfold get_parameters, get_len1 in H1; destruct it; exact H1).
  assert (E2 : pyget (j_weights j) (match it with Some i => i | None => (Z.of_nat (length (j_names j)) - 1)%Z end) = Ok (Col ws)) by (unfold get_weights, get_len1 in H2; destruct it; [exact H2|rewrite <- H3; exact H2]).
  rewrite E1. cbn [rthen]. rewrite E2. cbn [rthen wvals]. unfold univariate.
  rewrite (mapR_map _ (fun kc => (fst kc, V0 (wmean ws (col (fst kc)))))).
  - rewrite map_map. reflexivity.
  - intros kc Hin. apply in_map_iff in Hin. destruct Hin as (n & <- & Hn). cbn [fst snd]. rewrite squeeze_one by (rewrite (H5 n Hn); exact H4). cbn [average]. rewrite (H5 n Hn), Nat.eqb_refl. destruct (Qeq_bool (qsum ws) 0) eqn:E; [apply Qeq_bool_iff in E; contradiction|]. reflexivity.
Qed.
Lemma weights_ok : weights_of Name S C D j it = Ok ws.
Proof. destruct R as (_ & H2 & _ & H4 & _). unfold weights_of. rewrite H2. cbn [rthen]. destruct ws; [cbn in H4; lia|reflexivity]. Qed.
Definition tab (n : Name) : stack := Table 1 (map (fun x => [x]) (col n)).
Lemma concatenate_one xs : xs <> [] -> concatenate (map (fun x => [KA [x]]) xs) = Ok (Table 1 (map (fun x => [x]) xs)).
Proof.
  destruct xs as [|x xs]; [congruence|]. intros _. unfold concatenate.
  assert (E : concat (map (fun x => [KA [x]]) (x :: xs)) = map (fun x => KA [x]) (x :: xs)) by (induction (x :: xs) as [|y l IH]; [reflexivity|cbn; rewrite IH; reflexivity]).
  rewrite E. cbn [map]. change (KA [x] :: map (fun x0 => KA [x0]) xs) with (map (fun x => KA [x]) (x :: xs)).
  assert (M : forall l, mapR (fun v => match v with KA l0 => if length l0 =? length [x] then Ok l0 else Err ValueError | KS _ => Err ValueError end) (map (fun x => KA [x]) l) = Ok (map (fun x => [x]) l)) by (induction l as [|y l IH]; [reflexivity|cbn [map mapR]; rewrite IH; reflexivity]).
  rewrite (M (x :: xs)). reflexivity.
Qed.
Lemma col_nonempty n : In n all -> col n <> [].
Proof. intros Hn E. destruct R as (_ & _ & _ & H4 & H5 & _). specialize (H5 n Hn). rewrite E in H5. cbn in H5. lia. Qed.
Lemma post_ok names : incl names all ->
  mapR (fun n => rthen (get_parameters j it) (fun d => rthen (at_key Name neqb d n) (fun c => rthen (concatenate c) (fun a => Ok (n, a))))) names = Ok (map (fun n => (n, tab n)) names).
Proof.
  intros Hi. apply mapR_map. intros n Hn. destruct R as (H1 & _). rewrite H1. cbn [rthen]. unfold univariate. rewrite (at_map (fun n => map (fun x => [KA [x]]) (col n))) by (apply Hi, Hn). cbn [rthen]. rewrite concatenate_one by (apply col_nonempty, Hi, Hn). reflexivity.
Qed.
Lemma means_ok names : incl names all -> mapR (fun x => rthen (mean_of Name S C D j it) (fun d => at_key Name neqb d x)) names = Ok (map (fun n => V0 (wmean ws (col n))) names).
Proof. intros Hi. apply mapR_map. intros n Hn. rewrite mean_ok. cbn [rthen]. apply (at_map (fun n => V0 (wmean ws (col n)))), Hi, Hn. Qed.
(** the matrix of all samples *)
Definition zipped (cols : list (list Q)) : list (list Q) := map (fun i => map (fun c => nth i c 0%Q) cols) (seq 0 (length ws)).
Lemma combine_seq (f g : nat -> list Q) l : map (fun p => fst p ++ snd p) (combine (map f l) (map g l)) = map (fun i => f i ++ g i) l.
Proof. induction l as [|x l IH]; [reflexivity|]. cbn. rewrite IH. reflexivity. Qed.
Lemma rows_of n : In n all -> map (fun x => [x]) (col n) = map (fun i => [nth i (col n) 0%Q]) (seq 0 (length ws)).
Proof. intros Hn. destruct R as (_ & _ & _ & _ & H5 & _). rewrite <- (H5 n Hn). rewrite (map_nth_seq (col n) 0%Q) at 1. rewrite map_map. reflexivity. Qed.
Lemma side_ok names : incl names all -> forall cols, side_by_side (zipped cols) (map tab names) = Ok (zipped (cols ++ map col names)).
Proof.
  induction names as [|n names IH]; intros Hi cols; cbn [map side_by_side]; [rewrite app_nil_r; reflexivity|]. unfold tab at 1. rewrite rows_of by (apply Hi; left; reflexivity).
  unfold zipped at 1. rewrite !map_length, !seq_length, Nat.eqb_refl. unfold zipped at 1. rewrite combine_seq.
  replace (map (fun i => map (fun c => nth i c 0%Q) cols ++ [nth i (col n) 0%Q]) (seq 0 (length ws))) with (zipped (cols ++ [col n])) by (unfold zipped; apply map_ext; intros i; rewrite map_app; reflexivity).
  rewrite IH by (intros m Hm; apply Hi; right; exact Hm). rewrite <- app_assoc. reflexivity.
Qed.
Lemma width_tab names : width (map tab names) = length names.
Proof. unfold width. rewrite map_map. cbn [tab]. induction names as [|n l IH]; [reflexivity|]. cbn [map length]. rewrite <- IH. reflexivity. Qed.
Lemma hstack_ok names : incl names all -> names <> [] -> hstack_t (map tab names) = Ok (Some (map col names)).
Proof.
  intros Hi Hne. destruct names as [|n names]; [congruence|]. unfold hstack_t. cbn [map]. unfold tab at 1. rewrite rows_of by (apply Hi; left; reflexivity).
  change (map (fun i => [nth i (col n) 0%Q]) (seq 0 (length ws))) with (zipped [col n]). rewrite side_ok by (intros m Hm; apply Hi; right; exact Hm). cbn [rthen app].
  change (tab n :: map tab names) with (map tab (n :: names)). change (col n :: map col names) with (map col (n :: names)). rewrite width_tab. f_equal. f_equal.
  etransitivity; [|symmetry; apply (map_nth_seq (map col (n :: names)) [])]. rewrite map_length. apply map_ext_in. intros k Hk. apply in_seq in Hk.
  unfold zipped. rewrite map_map. assert (Hc : exists m, In m (n :: names) /\ nth k (map col (n :: names)) [] = col m).
  { destruct (nth_named (n :: names) k) as (m & Em); [lia|]. exists m. split; [apply (nth_error_In _ k), Em|]. apply nth_error_nth. rewrite nth_error_map, Em. reflexivity. }
  destruct Hc as (m & Hm & Ec). rewrite Ec. destruct R as (_ & _ & _ & _ & H5 & _). rewrite <- (H5 m (Hi m Hm)). rewrite (map_nth_seq (col m) 0%Q) at 2. apply map_ext. intros i.
  rewrite (nth_indep _ 0%Q (nth i [] 0%Q)) by (rewrite map_length, map_length; lia). rewrite (map_nth (fun c => nth i c 0%Q)). rewrite Ec. reflexivity.
Qed.
(** the plotted ranges *)
Definition ranged (r0 : rdict Name) (names : list Name) (lim : Name -> Q * Q) : Prop := Ranged neqb r0 names col lim.
Definition right_ranges (r0 : rdict Name) (names : list Name) : Prop := forall n v, In n names -> dget neqb r0 n = Some v -> exists lim, RightRange v lim.
Lemma numbers_tab n : numbers (tab n) = col n.
Proof. cbn [tab numbers]. induction (col n) as [|x l IH]; [reflexivity|]. cbn. rewrite IH. reflexivity. Qed.
Lemma fill_ok shown names : incl names shown -> incl shown all -> forall r0, right_ranges r0 names -> exists r1 lim, fill_ranges Name neqb (map (fun n => (n, tab n)) shown) names r0 = (r1, Ok tt) /\ ranged r0 names lim
  /\ (forall n, In n names -> exists v, dget neqb r1 n = Some v /\ RightRange v (lim n)) /\ (forall n, ~ In n names -> dget neqb r1 n = dget neqb r0 n) /\ (forall n v, dget neqb r0 n = Some v -> dget neqb r1 n = Some v).
Proof.
  induction names as [|n names IH]; intros Hi Hs r0 Hr.
  - exists r0, (fun _ => (0, 0)%Q). split; [reflexivity|]. split; [intros m []|]. split; [intros m []|]. split; [reflexivity|auto].
  - cbn [fill_ranges]. destruct (dget neqb r0 n) as [v|] eqn:E.
    + destruct (Hr n v (or_introl eq_refl) E) as (lv & Rv). destruct (proj1 (right_ok _ _) Rv) as (Ov & Uv). rewrite Ov. destruct (IH (fun m Hm => Hi m (or_intror Hm)) Hs r0 (fun m w Hm => Hr m w (or_intror Hm))) as (r1 & lim & F & L & G & K1 & K2).
      exists r1, (fun m => if neqb m n then lv else lim m). split; [exact F|]. split; [|split; [|split; [intros m Hm; apply K1; intros X; apply Hm; right; exact X|exact K2]]].
      * intros m Hm. destruct (neqb_spec m n) as [->|N]; [rewrite E; exact Rv|]. destruct Hm as [->|Hm]; [congruence|apply L, Hm].
      * intros m Hm. destruct (neqb_spec m n) as [->|N]; [exists v; split; [apply K2, E|exact Rv]|]. destruct Hm as [->|Hm]; [congruence|apply G, Hm].
    + rewrite (at_map tab) by (apply Hi; left; reflexivity). cbn [rthen]. rewrite numbers_tab. destruct (default_padded (col n)) as (v & lv & -> & Ov & Uv & Pv); [apply col_nonempty, Hs, Hi; left; reflexivity|].
      assert (Hr' : right_ranges (dset neqb r0 n v) names).
      { intros m w Hm Hw. rewrite (dget_dset _ _ _ neqb_spec) in Hw. destruct (neqb_spec m n) as [->|N]; [injection Hw as <-; exists lv; apply right_ok; auto|apply (Hr m w (or_intror Hm) Hw)]. }
      destruct (IH (fun m Hm => Hi m (or_intror Hm)) Hs (dset neqb r0 n v) Hr') as (r1 & lim & F & L & G & K1 & K2).
      exists r1, (fun m => if neqb m n then lv else lim m). split; [exact F|]. split; [|split; [|split]].
      * intros m Hm. destruct (neqb_spec m n) as [->|N]; [rewrite E; exact Pv|]. destruct Hm as [->|Hm]; [congruence|]. specialize (L m Hm). rewrite (dget_dset _ _ _ neqb_spec) in L. destruct (neqb_spec m n); [congruence|exact L].
      * intros m Hm. destruct (neqb_spec m n) as [->|N]; [exists v; split; [apply K2; rewrite (dget_dset _ _ _ neqb_spec); destruct (neqb_spec n n); congruence|apply right_ok; auto]|]. destruct Hm as [->|Hm]; [congruence|apply G, Hm].
      * intros m Hm. rewrite K1 by (intros X; apply Hm; right; exact X). rewrite (dget_dset _ _ _ neqb_spec). destruct (neqb_spec m n) as [->|N]; [exfalso; apply Hm; left; reflexivity|reflexivity].
      * intros m w Hw. apply K2. rewrite (dget_dset _ _ _ neqb_spec). destruct (neqb_spec m n) as [->|N]; [congruence|exact Hw].
Qed.
End Read.

Lemma mapR_in {A B} (f : A -> res (list B)) (P : A -> B -> Prop) l : (forall x, In x l -> exists y, f x = Ok y /\ forall b, In b y <-> P x b) ->
  exists ys, mapR f l = Ok ys /\ forall b, In b (concat ys) <-> exists x, In x l /\ P x b.
Proof.
  induction l as [|x l IH]; intros H; [exists []; split; [reflexivity|]; intros b; split; [intros []|intros (y & [] & _)]|].
  destruct (H x (or_introl eq_refl)) as (y & E & Hy). destruct IH as (ys & Es & Hys); [intros z Hz; apply H; right; exact Hz|].
  exists (y :: ys). split; [cbn [mapR]; rewrite E, Es; reflexivity|]. intros b. cbn [concat]. rewrite in_app_iff, Hy, Hys. split.
  - intros [Hb|(z & Hz & Hb)]; [exists x|exists z]; cbn; auto.
  - intros (z & [<-|Hz] & Hb); [left|right; exists z]; auto.
Qed.
Lemma pairs_S n : flat_map (fun x => map (fun y => (x, y)) (seq 0 x)) (seq 0 (Datatypes.S n)) = flat_map (fun x => map (fun y => (x, y)) (seq 0 x)) (seq 0 n) ++ map (fun y => (n, y)) (seq 0 n).
Proof. rewrite seq_S, flat_map_app. cbn [flat_map plus]. rewrite app_nil_r. reflexivity. Qed.
Lemma pairs_len n : 2 * length (flat_map (fun x => map (fun y => (x, y)) (seq 0 x)) (seq 0 n)) = n * (n - 1).
Proof. induction n as [|n IH]; [reflexivity|]. rewrite pairs_S, app_length, map_length, seq_length. destruct n; [reflexivity|]. cbn [Nat.sub] in *. rewrite Nat.sub_0_r in IH. nia. Qed.
Lemma pairs_nth n k x y : nth_error (flat_map (fun x => map (fun y => (x, y)) (seq 0 x)) (seq 0 n)) k = Some (x, y) <-> y < x /\ x < n /\ 2 * k = x * (x - 1) + 2 * y.
Proof.
  induction n as [|n IH]; [cbn [seq flat_map]; split; [destruct k; discriminate|lia]|]. rewrite pairs_S.
  pose proof (pairs_len n) as L. set (l := flat_map _ (seq 0 n)) in *. destruct (Nat.lt_ge_cases k (length l)) as [H|H].
  - rewrite nth_error_app1 by exact H. rewrite IH. split; [intros (A & B & C0); repeat split; [exact A|lia|exact C0]|]. intros (A & B & C0). split; [exact A|]. split; [|exact C0]. assert (x <> n) by (intros ->; nia). lia.
  - rewrite nth_error_app2 by exact H. rewrite nth_error_map. split.
    + destruct (nth_error (seq 0 n) (k - length l)) as [z|] eqn:E; [|discriminate]. cbn. intros X; injection X as <- <-. pose proof (named_lt _ _ _ E) as Z. rewrite seq_length in Z. apply (nth_error_nth _ _ 0) in E. rewrite seq_nth in E by exact Z. split; [lia|]. split; [lia|]. nia.
    + intros (A & B & C0). assert (x = n) as ->. { destruct (Nat.eq_dec x n); [assumption|exfalso]. assert (x < n) by lia. assert (k < length l); [|lia]. apply (named_lt _ _ (x, y)). apply IH. auto. }
      replace (k - length l) with y by nia. rewrite (nth_error_nth' _ 0) by (rewrite seq_length; exact A). rewrite seq_nth by exact A. reflexivity.
Qed.

Section Draw.
Variables (names : list Name) (col : Name -> list Q) (ws : list Q) (lim : Name -> Q * Q) (mean : Name -> Q) (truth : option (list Q)) (samples show_mean write_mean : bool) (ranges : rdict Name).
Hypothesis Hlim : forall n, In n names -> limits_at Name neqb ranges n = Ok (lim n).
Hypothesis Htruth : match truth with Some t => length t = length names | None => True end.
Notation data := (map col names).
Notation means := (map (fun n => V0 (mean n)) names).
Notation pairs_of := (PairShown col ws lim mean truth samples show_mean).
Notation single_of := (SingleShown col ws lim mean truth show_mean write_mean).
Lemma at_named {B} (f : Name -> B) i n : nth_error names i = Some n -> at_index (map f names) i = Ok (f n).
Proof. intros E. unfold at_index. rewrite nth_error_map, E. reflexivity. Qed.
Lemma pair_ok x y nx ny : named names x nx -> named names y ny ->
  exists l, pair_arts Name neqb samples show_mean truth ws ranges means names data x y = Ok l /\ forall a, In a l <-> pairs_of x y nx ny a.
Proof.
  unfold named. intros Hx Hy. unfold pair_arts. rewrite (at_named col y ny Hy), (at_named col x nx Hx). cbn [rthen].
  unfold at_index at 1 2. rewrite Hx, Hy. cbn [rthen]. rewrite (Hlim ny) by apply (nth_error_In _ _ Hy). rewrite (Hlim nx) by apply (nth_error_In _ _ Hx). cbn [rthen].
  rewrite (at_named (fun n => V0 (mean n)) y ny Hy), (at_named (fun n => V0 (mean n)) x nx Hx). cbn [rthen].
  assert (T : exists tl, match truth with Some t => rthen (at_index t x) (fun tx => rthen (at_index t y) (fun ty => Ok [HLine Green (V0 tx) (lim ny); VLine Green (V0 ty) (lim nx)])) | None => Ok [] end = Ok tl
    /\ forall a : art Name, In a tl <-> (exists v, true_value truth x v /\ a = HLine Green (V0 v) (lim ny)) \/ (exists v, true_value truth y v /\ a = VLine Green (V0 v) (lim nx))).
  { unfold true_value. destruct truth as [t|].
    - destruct (nth_named t x) as (tx & Ex); [rewrite Htruth; apply (named_lt _ _ _ Hx)|]. destruct (nth_named t y) as (ty & Ey); [rewrite Htruth; apply (named_lt _ _ _ Hy)|].
      unfold at_index. rewrite Ex, Ey. cbn [rthen]. eexists. split; [reflexivity|]. intros a. cbn [In]. split.
      + intros [<-|[<-|[]]]; [left; exists tx|right; exists ty]; (split; [exists t; auto|reflexivity]).
      + intros [(v & (t' & E & H) & ->)|(v & (t' & E & H) & ->)]; injection E as <-; rewrite ?Ex, ?Ey in H; injection H as <-; auto.
    - exists []. split; [reflexivity|]. intros a. split; [intros []|intros [(v & (t' & E & H) & _)|(v & (t' & E & H) & _)]; discriminate]. }
  destruct T as (tl & -> & T).
  assert (M : exists ml, (if show_mean then Ok [HLine Red (V0 (mean nx)) (lim ny); VLine Red (V0 (mean ny)) (lim nx)] else Ok []) = Ok ml
    /\ forall a : art Name, In a ml <-> show_mean = true /\ (a = HLine Red (V0 (mean nx)) (lim ny) \/ a = VLine Red (V0 (mean ny)) (lim nx))).
  { destruct show_mean; eexists; (split; [reflexivity|]); intros a; cbn [In]; intuition (try discriminate; auto). }
  destruct M as (ml & -> & M). cbn [rthen]. eexists. split; [reflexivity|]. intros a. rewrite !in_app_iff, in_when, M, T. cbn [In]. split.
  - intros [[Hs [<-|[]]]|[[Hs [-> | ->]]|[[(v & Hv & ->)|(v & Hv & ->)]|[<-|[<-|[]]]]]]; constructor; assumption.
  - intros H. destruct H; eauto 10.
Qed.
Lemma single_ok i n : named names i n ->
  exists l, single_arts Name neqb show_mean write_mean truth ws ranges means data (Ok tt) i n = Ok l /\ forall a, In a l <-> single_of i n a.
Proof.
  unfold named. intros Hi. unfold single_arts. rewrite (Hlim n) by apply (nth_error_In _ _ Hi). cbn [rthen]. rewrite (at_named col i n Hi), (at_named (fun n => V0 (mean n)) i n Hi). cbn [rthen].
  assert (T : exists tl, match truth with Some t => rthen (at_index t i) (fun t => Ok [Marker Green (V0 t)]) | None => Ok [] end = Ok tl
    /\ forall a : art Name, In a tl <-> (exists v, true_value truth i v /\ a = Marker Green (V0 v))).
  { unfold true_value. destruct truth as [t|].
    - destruct (nth_named t i) as (tx & Ex); [rewrite Htruth; apply (named_lt _ _ _ Hi)|]. unfold at_index. rewrite Ex. cbn [rthen]. eexists. split; [reflexivity|]. intros a. cbn [In]. split.
      + intros [<-|[]]. exists tx. split; [exists t; auto|reflexivity].
      + intros (v & (t' & E & H) & ->). injection E as <-. rewrite Ex in H. injection H as <-. auto.
    - exists []. split; [reflexivity|]. intros a. split; [intros []|intros (v & (t' & E & H) & _); discriminate]. }
  destruct T as (tl & -> & T). cbn [rthen].
  assert (W : (if write_mean then Ok [MeanText (mean n)] else Ok []) = Ok (when write_mean [MeanText (Name := Name) (mean n)])) by (destruct write_mean; reflexivity).
  rewrite W. cbn [rthen]. eexists. split; [reflexivity|]. intros a. cbn [In]. rewrite !in_app_iff, !in_when, T. cbn [In]. split.
  - intros [<-|[[Hs [<-|[]]]|[(v & Hv & ->)|[[Hs [<-|[]]]|[<-|[]]]]]]; constructor; assumption.
  - intros H. destruct H; eauto 10.
Qed.
Notation Mat := (MatrixShown names col ws lim mean truth samples show_mean write_mean).
Notation Sing := (SinglesShown names col ws lim mean truth show_mean write_mean).
Notation Doub := (DoublesShown names col ws lim mean truth samples show_mean).
Lemma is_not_true x y : is_not x y = true -> x <> y \/ (x = y /\ 256 < x).
Proof. unfold is_not. destruct (Nat.eqb_spec x y) as [->|N]; cbn [negb orb]; [intros H; apply Nat.ltb_lt in H; auto|auto]. Qed.
Lemma matrix_gen : names <> [] ->
  exists f, scatterplot_matrix Name neqb samples show_mean write_mean truth ws ranges means names data false = Ok f /\ f_rows f = length names /\ f_cols f = length names /\ (forall pos a, In (pos, a) (f_arts f) <-> Mat pos a \/ exists x n, 256 < x /\ named names x n /\ pos = (x, x) /\ pairs_of x x n n a).
Proof.
  intros Hne. unfold scatterplot_matrix. cbn [negb andb]. rewrite map_length.
  replace ((1 <? length names) && (length names =? 1)) with false by (symmetry; destruct (Nat.ltb_spec 1 (length names)), (Nat.eqb_spec (length names) 1); cbn; try reflexivity; lia).
  destruct (mapR_in (fun x => rthen (mapR (fun y => if is_not x y then rthen (pair_arts Name neqb samples show_mean truth ws ranges means names data x y) (fun l => Ok (put_at Name (x, y) l)) else Ok []) (seq 0 (length names))) (fun l => Ok (concat l)))
    (fun x b => exists y nx ny a, is_not x y = true /\ named names x nx /\ named names y ny /\ pairs_of x y nx ny a /\ b = ((x, y), a)) (seq 0 (length names))) as (prs & -> & HP).
  { intros x Hx. apply in_seq in Hx. destruct (nth_named names x) as (nx & Ex); [lia|].
    destruct (mapR_in (fun y => if is_not x y then rthen (pair_arts Name neqb samples show_mean truth ws ranges means names data x y) (fun l => Ok (put_at Name (x, y) l)) else Ok [])
      (fun y b => is_not x y = true /\ exists ny a, named names y ny /\ pairs_of x y nx ny a /\ b = ((x, y), a)) (seq 0 (length names))) as (ys & -> & HY).
    { intros y Hy. apply in_seq in Hy. destruct (is_not x y) eqn:N; [|eexists; split; [reflexivity|]; intros b; split; [intros []|intros [X _]; discriminate]].
      - destruct (nth_named names y) as (ny & Ey); [lia|]. destruct (pair_ok x y nx ny Ex Ey) as (l & -> & Hl). cbn [rthen]. eexists. split; [reflexivity|]. intros [q a]. rewrite in_put_at, Hl. split.
        + intros [-> Ha]. split; [reflexivity|]. exists ny, a. auto.
        + intros (_ & m & a' & Em & Ha & E). injection E as -> ->. unfold named in Em. rewrite Ey in Em. injection Em as <-. auto. }
    cbn [rthen]. eexists. split; [reflexivity|]. intros b. rewrite HY. split.
    - intros (y & _ & N & ny & a & Ey & Ha & ->). exists y, nx, ny, a. auto.
    - intros (y & mx & ny & a & N & Em & Ey & Ha & ->). unfold named in Em. rewrite Ex in Em. injection Em as <-. exists y. split; [apply in_seq; split; [lia|]; apply (named_lt _ _ _ Ey)|]. split; [exact N|]. exists ny, a. auto. }
  cbn [rthen].
  destruct (mapR_in (fun il : nat * Name => rthen (single_arts Name neqb show_mean write_mean truth ws ranges means data (Ok tt) (fst il) (snd il)) (fun l => Ok (put_at Name (fst il, fst il) l)))
    (fun il b => exists a, single_of (fst il) (snd il) a /\ b = ((fst il, fst il), a)) (numbered names)) as (dgs & -> & HD).
  { intros [i n] Hin. apply in_numbered in Hin. cbn [fst snd]. destruct (single_ok i n Hin) as (l & -> & Hl). cbn [rthen]. eexists. split; [reflexivity|]. intros [q a]. rewrite in_put_at, Hl. split.
    - intros [-> Ha]. exists a. auto.
    - intros (a' & Ha & E). injection E as -> ->. auto. }
  cbn [rthen]. eexists. split; [reflexivity|]. cbn [f_rows f_cols]. split; [reflexivity|]. split; [reflexivity|]. intros pos a. cbn [f_arts]. rewrite !in_app_iff, in_flat_map, HP, HD. split.
  - intros [(x & _ & y & nx & ny & a' & N & Ex & Ey & Ha & E)|[([i n] & Hin & a' & Ha & E)|([i n] & Hin & Ha)]].
    + injection E as -> ->. destruct (is_not_true _ _ N) as [N'|[<- N']]; [left; eapply m_pair; eassumption|right]. unfold named in *. rewrite Ex in Ey. injection Ey as <-. exists x, nx. auto.
    + left. apply in_numbered in Hin. cbn [fst snd] in *. injection E as -> ->. eapply m_single; eassumption.
    + left. apply in_numbered in Hin. cbn [fst snd In] in Ha. destruct Ha as [E|Ha]; [injection E as <- <-; apply m_title, Hin|]. destruct (Nat.ltb_spec 1 (length names)) as [L|L].
      * destruct Ha as [E|[E|[]]]; injection E as <- <-; [apply m_ylabel|apply m_xlabel]; assumption.
      * destruct Ha as [E|[]]. injection E as <- <-. assert (i = 0) as -> by (pose proof (named_lt _ _ _ Hin); lia). apply m_density. pose proof (named_lt _ _ _ Hin). lia.
  - intros [H|(x & n & B & Ex & -> & Ha)]; [|left; exists x; split; [apply in_seq; pose proof (named_lt _ _ _ Ex); lia|]; exists x, n, n, a; unfold is_not; apply Nat.ltb_lt in B; rewrite B, Bool.orb_true_r; auto].
    destruct H as [x y nx ny a N Ex Ey Ha|i n a Ei Ha|i n Ei|i n Ei L|i n Ei L|L].
    + left. exists x. split; [apply in_seq; pose proof (named_lt _ _ _ Ex); lia|]. exists y, nx, ny, a. unfold is_not. destruct (Nat.eqb_spec x y); [congruence|]. auto.
    + right; left. exists (i, n). split; [apply in_numbered, Ei|]. exists a. auto.
    + right; right. exists (i, n). split; [apply in_numbered, Ei|]. left. reflexivity.
    + right; right. exists (i, n). split; [apply in_numbered, Ei|]. apply Nat.ltb_lt in L. rewrite L. right; left. reflexivity.
    + right; right. exists (i, n). split; [apply in_numbered, Ei|]. apply Nat.ltb_lt in L. rewrite L. right; right; left. reflexivity.
    + right; right. destruct (nth_named names 0) as (n & En); [lia|]. exists (0, n). split; [apply in_numbered, En|]. replace (1 <? length names) with false by (symmetry; apply Nat.ltb_ge; lia). right; left. reflexivity.
Qed.
Lemma singles_ok : names <> [] ->
  exists f, scatterplot_matrix Name neqb samples show_mean write_mean truth ws ranges means names data true = Ok f /\ f_rows f = 1 /\ f_cols f = length names /\ shows f Sing.
Proof.
  intros Hne. unfold scatterplot_matrix. cbn [negb andb rthen]. rewrite map_length.
  replace ((length names =? 1) && (1 <? length names)) with false by (symmetry; destruct (Nat.ltb_spec 1 (length names)), (Nat.eqb_spec (length names) 1); cbn; try reflexivity; lia).
  replace ((1 <? length names) && (length names =? 1)) with false by (symmetry; destruct (Nat.ltb_spec 1 (length names)), (Nat.eqb_spec (length names) 1); cbn; try reflexivity; lia).
  destruct (mapR_in (fun il : nat * Name => rthen (single_arts Name neqb show_mean write_mean truth ws ranges means data (Ok tt) (fst il) (snd il)) (fun l => Ok (put_at Name (0, fst il) l)))
    (fun il b => exists a, single_of (fst il) (snd il) a /\ b = ((0, fst il), a)) (numbered names)) as (dgs & -> & HD).
  { intros [i n] Hin. apply in_numbered in Hin. cbn [fst snd]. destruct (single_ok i n Hin) as (l & -> & Hl). cbn [rthen]. eexists. split; [reflexivity|]. intros [q a]. rewrite in_put_at, Hl. split.
    - intros [-> Ha]. exists a. auto.
    - intros (a' & Ha & E). injection E as -> ->. auto. }
  cbn [rthen]. eexists. split; [reflexivity|]. cbn [f_rows f_cols]. split; [reflexivity|]. split; [reflexivity|]. intros pos a. cbn [f_arts app]. rewrite !in_app_iff, in_map_iff, HD. cbn [In]. split.
  - intros [([i n] & Hin & a' & Ha & E)|[([i n] & E & Hin)|[E|[]]]].
    + apply in_numbered in Hin. cbn [fst snd] in *. injection E as -> ->. eapply s_single; eassumption.
    + apply in_numbered in Hin. cbn [fst snd] in *. injection E as <- <-. apply s_title, Hin.
    + injection E as <- <-. apply s_density.
  - intros H. destruct H as [i n a Ei Ha|i n Ei|].
    + left. exists (i, n). split; [apply in_numbered, Ei|]. exists a. auto.
    + right; left. exists (i, n). split; [reflexivity|apply in_numbered, Ei].
    + right; right; left. reflexivity.
Qed.
Lemma doubles_ok : 2 <= length names ->
  exists f, double_marginals_plot Name neqb samples show_mean truth ws ranges means names data = Ok f /\ f_rows f = 1 /\ 2 * f_cols f = length names * (length names - 1) /\ shows f Doub.
Proof.
  intros H2. unfold double_marginals_plot. rewrite map_length. pose proof (pairs_len (length names)) as L. pose proof (pairs_nth (length names)) as PN.
  destruct (flat_map (fun x => map (fun y => (x, y)) (seq 0 x)) (seq 0 (length names))) as [|p0 ps] eqn:EP; [cbn in L; destruct (length names) as [|[|m]]; [lia|lia|cbn in L; lia]|]. rewrite <- EP in *. clear EP p0 ps. set (prs := flat_map _ _) in *.
  destruct (mapR_in (fun kxy : nat * (nat * nat) => let '(k, (x, y)) := kxy in
                 rthen (pair_arts Name neqb samples show_mean truth ws ranges means names data x y) (fun l => rthen (at_index names x) (fun nx => rthen (at_index names y) (fun ny =>
                 Ok (put_at Name (0, k) (l ++ [YLabel nx; XLabel ny])))))) 
    (fun kxy b => let '(k, (x, y)) := kxy in exists nx ny a, named names x nx /\ named names y ny /\ (pairs_of x y nx ny a \/ a = YLabel nx \/ a = XLabel ny) /\ b = ((0, k), a)) (numbered prs)) as (ys & -> & HY).
  { intros [k [x y]] Hin. apply in_numbered, PN in Hin. destruct (nth_named names x) as (nx & Ex); [lia|]. destruct (nth_named names y) as (ny & Ey); [lia|].
    destruct (pair_ok x y nx ny Ex Ey) as (l & -> & Hl). cbn [rthen]. unfold at_index. rewrite Ex, Ey. cbn [rthen]. eexists. split; [reflexivity|]. intros [q a]. rewrite in_put_at, in_app_iff, Hl. cbn [In]. split.
    - intros [-> Ha]. exists nx, ny, a. split; [exact Ex|]. split; [exact Ey|]. split; [|reflexivity]. destruct Ha as [Ha|[<-|[<-|[]]]]; auto.
    - intros (mx & my & a' & Em & Em' & Ha & E). injection E as -> ->. unfold named in *. rewrite Ex in Em. rewrite Ey in Em'. injection Em as <-. injection Em' as <-. split; [reflexivity|]. destruct Ha as [Ha|[-> | ->]]; auto. }
  cbn [rthen]. eexists. split; [reflexivity|]. cbn [f_rows f_cols]. split; [reflexivity|]. split; [exact L|]. intros pos a. cbn [f_arts]. rewrite HY. split.
  - intros ([k [x y]] & Hin & nx & ny & a' & Ex & Ey & Ha & E). apply in_numbered, PN in Hin. destruct Hin as (A & B & K). injection E as -> ->. destruct Ha as [Ha|[Ha|Ha]]; [|rewrite Ha|rewrite Ha]; [eapply (d_pair _ _ _ _ _ _ _ _ k x y nx ny)|eapply (d_ylabel _ _ _ _ _ _ _ _ k x y nx)|eapply (d_xlabel _ _ _ _ _ _ _ _ k x y nx ny)]; assumption.
  - assert (G : forall k x y, y < x -> 2 * k = x * (x - 1) + 2 * y -> x < length names -> In (k, (x, y)) (numbered prs) /\ exists nx ny, named names x nx /\ named names y ny).
    { intros k x y A K B. split; [apply in_numbered, PN; auto|]. destruct (nth_named names x) as (nx & Ex); [lia|]. destruct (nth_named names y) as (ny & Ey); [lia|]. exists nx, ny. auto. }
    intros H. destruct H as [k x y nx ny a A K Ex Ey Ha|k x y nx A K Ex|k x y nx ny A K Ex Ey]; destruct (G k x y A K (named_lt _ _ _ Ex)) as (Hin & mx & my & Emx & Emy); exists (k, (x, y)); (split; [exact Hin|]).
    + exists nx, ny, a. auto.
    + exists nx, my, (YLabel nx). auto 6.
    + exists nx, ny, (XLabel ny). auto 6.
Qed.
End Draw.

(** the displayed names *)
Definition resolved (j : journal) (show : option (list Name)) : res (list Name) :=
  match show with
  | None => rthen (pyget (j_names j) 0) (fun d => Ok (map fst d))
  | Some l => rthen (mapR (fun n => rthen (pyget (j_names j) 0) (fun d => if has Name neqb d n then Ok n else Err KeyError)) l) Ok
  end.
Lemma has_in {V} (d : list (Name * V)) n : has Name neqb d n = true <-> In n (map fst d).
Proof.
  unfold has. induction d as [|[m v] d IH]; [cbn; intuition discriminate|]. cbn [dget map fst In]. destruct (neqb_spec n m) as [->|N]; [intuition|]. rewrite IH. split; [auto|intros [->|H]; [congruence|exact H]].
Qed.
Lemma resolved_ok j show names d0 : pyget (j_names j) 0 = Ok d0 -> match show with None => names = map fst d0 | Some l => names = l /\ incl l (map fst d0) end -> resolved j show = Ok names.
Proof.
  intros H0 H. unfold resolved. rewrite H0. cbn [rthen]. destruct show as [l|]; [|subst; reflexivity]. destruct H as [-> Hi].
  rewrite (mapR_map _ (fun n => n)); [rewrite map_id; reflexivity|]. intros n Hn. rewrite (proj2 (has_in d0 n) (Hi n Hn)). reflexivity.
Qed.
Lemma resolved_unknown j l d0 n : pyget (j_names j) 0 = Ok d0 -> In n l -> ~ In n (map fst d0) -> resolved j (Some l) = Err KeyError.
Proof.
  intros H0 Hn Hd. unfold resolved. rewrite H0. cbn [rthen]. induction l as [|m l IH]; [destruct Hn|]. cbn [mapR]. destruct (has Name neqb d0 m) eqn:E; [|reflexivity].
  destruct Hn as [->|Hn]; [apply has_in in E; contradiction|]. specialize (IH Hn). destruct (mapR _ l); cbn in IH |- *; congruence.
Qed.
Lemma all_one_ok ws : all_one ws = true <-> Forall (fun w => (w == 1)%Q) ws.
Proof. unfold all_one. rewrite forallb_forall, Forall_forall. split; intros H x Hx; apply Qeq_bool_iff, H, Hx. Qed.
Lemma plot_ok j show r it sh single double wm sm truth all col ws names :
  Readable j it all col ws -> resolved j show = Ok names -> names <> [] -> NoDup names -> incl names all -> right_ranges match r with Some r => r | None => [] end names ->
  match truth with Some t => length t = length names | None => True end -> single && double = false -> (double = true -> 2 <= length names) ->
  exists r1 lim, let r0 := match r with Some r => r | None => [] end in let samples := match sh with Some b => b | None => all_one ws end in
  plot_posterior_distr Name S C D neqb j show r it sh single double wm sm truth =
    (match sh with Some true => if all_one ws then [] else [WSamples] | _ => [] end ++ (if forallb (fun kv => has Name neqb (map (fun n => (n, tab col n)) names) (fst kv)) r0 then [] else [WRange]), r1,
     if double then double_marginals_plot Name neqb samples sm truth ws r1 (map (fun n => V0 (weighted_mean ws (col n))) names) names (map col names)
     else scatterplot_matrix Name neqb samples sm wm truth ws r1 (map (fun n => V0 (weighted_mean ws (col n))) names) names (map col names) single)
  /\ Ranged neqb r0 names col lim /\ (forall n, In n names -> exists v, dget neqb r1 n = Some v /\ RightRange v (lim n)) /\ (forall n, ~ In n names -> dget neqb r1 n = dget neqb r0 n)
  /\ (forall n v, dget neqb r0 n = Some v -> dget neqb r1 n = Some v).
Proof.
  intros HR Hres Hne Hnd Hi Hr Ht Hsd Hd. set (r0 := match r with Some r => r | None => [] end) in *.
  destruct (fill_ok j it all col ws HR names names (incl_refl names) Hi r0 Hr) as (r1 & lim & F & L & G & K1 & K2). exists r1, lim. cbn zeta. split; [|split; [exact L|split; [|split; [exact K1|exact K2]]]].
  - unfold plot_posterior_distr. fold r0. fold (resolved j show). rewrite Hres, Hsd.
    replace ((length names =? 1) && double) with false by (symmetry; destruct double; [specialize (Hd eq_refl); destruct (Nat.eqb_spec (length names) 1); [lia|reflexivity]|apply Bool.andb_false_r]).
    replace (match truth with Some t => negb (length t =? length names) | None => false end) with false by (symmetry; destruct truth; [rewrite Ht, Nat.eqb_refl|]; reflexivity).
    rewrite (means_ok j it all col ws HR names Hi). cbn [rthen]. rewrite (post_ok j it all col ws HR names Hi). cbn [rthen]. rewrite (weights_ok j it all col ws HR). cbn [rthen].
    rewrite (dict_nodup _ _ _ neqb_spec) by (rewrite map_map; cbn [fst]; rewrite map_id; exact Hnd).
    rewrite map_map. cbn [snd]. change (map (fun x => tab col x) names) with (map (tab col) names). rewrite (hstack_ok j it all col ws HR names Hi Hne). rewrite F.
    rewrite (map_ext (fun n => V0 (wmean ws (col n))) (fun n => V0 (weighted_mean ws (col n)))) by (intros n; rewrite wmean_eq; reflexivity). destruct double; reflexivity.
  - exact G.
Qed.
Lemma displayed_resolved j show names : Displayed j show names -> resolved j show = Ok names.
Proof.
  intros (d0 & H0 & H). apply (resolved_ok j show names d0); [|exact H]. destruct (j_names j) as [|d l]; [discriminate H0|]. cbn in H0. injection H0 as ->. reflexivity.
Qed.
Lemma warned_ok sh ws r0 names col :
  Warned sh ws r0 names (match sh with Some true => if all_one ws then [] else [WSamples] | _ => [] end ++ (if forallb (fun kv : Name * limits => has Name neqb (map (fun n => (n, tab col n)) names) (fst kv)) r0 then [] else [WRange])).
Proof.
  assert (A : In WSamples (match sh with Some true => if all_one ws then [] else [WSamples] | _ => [] end) <-> sh = Some true /\ ~ Forall (fun w => w == 1)%Q ws).
  { pose proof (all_one_ok ws) as H. destruct sh as [[|]|]; [|cbn; intuition discriminate|cbn; intuition discriminate]. destruct (all_one ws) eqn:E; cbn [In].
    - split; [intros []|intros [_ N]]. apply N, H. reflexivity.
    - split; [|auto]. intros _. split; [reflexivity|]. intros X. apply H in X. discriminate. }
  assert (A' : ~ In WRange (match sh with Some true => if all_one ws then [] else [WSamples] | _ => [] end)) by (destruct sh as [[|]|]; cbn; try tauto; destruct (all_one ws); cbn; intuition discriminate).
  assert (B : forall b : bool, (In WRange (if b then [] else [WRange]) <-> b = false) /\ ~ In WSamples (if b then [] else [WRange])) by (intros []; cbn; intuition discriminate).
  split; rewrite in_app_iff.
  - destruct (B (forallb (fun kv : Name * limits => has Name neqb (map (fun n => (n, tab col n)) names) (fst kv)) r0)) as [_ B2]. rewrite A. tauto.
  - destruct (B (forallb (fun kv : Name * limits => has Name neqb (map (fun n => (n, tab col n)) names) (fst kv)) r0)) as [B1 _]. rewrite B1.
    assert (K : forall n, has Name neqb (map (fun n => (n, tab col n)) names) n = true <-> In n names) by (intros n; rewrite has_in, map_map; cbn [fst]; rewrite map_id; tauto).
    split.
    + intros [H|H]; [contradiction|]. clear A A' B B1. induction r0 as [|[n v] r0 IH]; [discriminate H|]. cbn [forallb fst map] in *. destruct (has Name neqb (map (fun n => (n, tab col n)) names) n) eqn:E.
      * destruct (IH H) as (m & Hm & Nm). exists m. split; [right; exact Hm|exact Nm].
      * exists n. split; [left; reflexivity|]. intros X. apply K in X. congruence.
    + intros (n & Hn & Nn). right. apply Bool.not_true_iff_false. intros X. rewrite forallb_forall in X. apply in_map_iff in Hn. destruct Hn as (kv & <- & Hkv). apply Nn, K, X, Hkv.
Qed.
Lemma setting_ok j show r it sh single double wm sm truth all col ws names : Setting neqb j show r it truth all col ws names -> single && double = false -> (double = true -> 2 <= length names) ->
  exists w r1 lim samples, SamplesShown sh ws samples /\ Warned sh ws (given r) names w /\ Ranged neqb (given r) names col lim /\ RangesAfter neqb (given r) r1 names lim
  /\ (forall n, In n names -> limits_at Name neqb r1 n = Ok (lim n))
  /\ plot_posterior_distr Name S C D neqb j show r it sh single double wm sm truth = (w, r1,
     if double then double_marginals_plot Name neqb samples sm truth ws r1 (map (fun n => V0 (weighted_mean ws (col n))) names) names (map col names)
     else scatterplot_matrix Name neqb samples sm wm truth ws r1 (map (fun n => V0 (weighted_mean ws (col n))) names) names (map col names) single).
Proof.
  intros (HR & HD & Hne & Hnd & Hi & Hr & Ht) Hsd Hd.
  destruct (plot_ok j show r it sh single double wm sm truth all col ws names HR (displayed_resolved j show names HD) Hne Hnd Hi Hr Ht Hsd Hd) as (r1 & lim & E & L & G & K1 & K2). cbn zeta in *.
  eexists _, r1, lim, (match sh with Some b => b | None => all_one ws end). split; [|split; [|split; [exact L|split; [|split; [|exact E]]]]].
  - unfold SamplesShown. destruct sh; [tauto|apply all_one_ok].
  - apply warned_ok.
  - intros n. fold (given r) in *. destruct (dget neqb (given r) n) as [v|] eqn:Ev; [apply K2, Ev|]. split; [|intros Hn; rewrite (K1 n Hn); exact Ev].
    exact (G n).
  - intros n Hn. destruct (G n Hn) as (v & Ev & Uv). unfold limits_at, at_key. rewrite Ev. apply right_ok, Uv.
Qed.
Lemma fill_refused (j : journal) it all col ws shown names : Readable j it all col ws -> incl names shown -> incl shown all -> forall r0 n v, In n names -> dget neqb r0 n = Some v -> limits_ok v = false ->
  snd (fill_ranges Name neqb (map (fun n => (n, tab col n)) shown) names r0) = Err TypeError.
Proof.
  intros HR. induction names as [|m names IH]; intros Hi Hs r0 n v Hn Hv Hb; [destruct Hn|]. cbn [fill_ranges]. destruct (dget neqb r0 m) as [u|] eqn:E.
  - destruct (limits_ok u) eqn:Eu; [|reflexivity]. destruct Hn as [->|Hn]; [congruence|]. apply (IH (fun k Hk => Hi k (or_intror Hk)) Hs r0 n v Hn Hv Hb).
  - rewrite (at_map (tab col)) by (apply Hi; left; reflexivity). cbn [rthen]. rewrite numbers_tab. destruct (default_padded (col m)) as (u & lu & -> & _); [apply (col_nonempty j it all col ws HR), Hs, Hi; left; reflexivity|].
    assert (N : n <> m) by congruence. destruct Hn as [->|Hn]; [congruence|]. apply (IH (fun k Hk => Hi k (or_intror Hk)) Hs _ n v Hn); [|exact Hb]. rewrite (dget_dset _ _ _ neqb_spec). destruct (neqb_spec n m); [congruence|exact Hv].
Qed.
Lemma plot_refused j show r it sh single double wm sm truth all col ws names n v :
  Readable j it all col ws -> resolved j show = Ok names -> NoDup names -> incl names all -> In n names -> dget neqb (given r) n = Some v -> limits_ok v = false ->
  match truth with Some t => length t = length names | None => True end -> single && double = false -> (double = true -> 2 <= length names) ->
  snd (plot_posterior_distr Name S C D neqb j show r it sh single double wm sm truth) = Err TypeError.
Proof.
  intros HR Hres Hnd Hi Hn Hv Hb Ht Hsd Hd. unfold plot_posterior_distr. fold (given r). fold (resolved j show). rewrite Hres, Hsd.
  replace ((length names =? 1) && double) with false by (symmetry; destruct double; [specialize (Hd eq_refl); destruct (Nat.eqb_spec (length names) 1); [lia|reflexivity]|apply Bool.andb_false_r]).
  replace (match truth with Some t => negb (length t =? length names) | None => false end) with false by (symmetry; destruct truth; [rewrite Ht, Nat.eqb_refl|]; reflexivity).
  rewrite (means_ok j it all col ws HR names Hi). cbn [rthen]. rewrite (post_ok j it all col ws HR names Hi). cbn [rthen]. rewrite (weights_ok j it all col ws HR). cbn [rthen].
  rewrite (dict_nodup _ _ _ neqb_spec) by (rewrite map_map; cbn [fst]; rewrite map_id; exact Hnd).
  rewrite map_map. cbn [snd]. change (map (fun x => tab col x) names) with (map (tab col) names). rewrite (hstack_ok j it all col ws HR names Hi) by (intros ->; destruct Hn).
  pose proof (fill_refused j it all col ws names names HR (incl_refl _) Hi (given r) n v Hn Hv Hb) as F. destruct (fill_ranges _ _ _ _ _) as [r1 [x|e]]; [discriminate F|]. cbn [snd] in *. congruence.
Qed.
Lemma trace_ok j show it all col ws names : Readable j it all col ws -> resolved j show = Ok names -> incl names all ->
  traceplot Name S C D neqb true j show it = Ok (map (fun n => (n, Q1 (col n))) names).
Proof.
  intros HR Hres Hi. unfold traceplot. cbn [negb]. fold (resolved j show). rewrite Hres. cbn [rthen]. pose proof HR as (H1 & _ & _ & H4 & H5 & _). rewrite H1. cbn [rthen].
  apply mapR_map. intros n Hn. unfold univariate. rewrite (at_map (fun n => map (fun x => [KA [x]]) (col n))) by (apply Hi, Hn). cbn [rthen]. rewrite squeeze_one; [reflexivity|]. rewrite (H5 n (Hi n Hn)). exact H4.
Qed.
End Plot.
