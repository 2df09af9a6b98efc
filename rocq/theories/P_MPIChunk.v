(** C100: chunks in the MPI backend. *)
From Coq Require Import Lia Permutation Sorting.Sorted.
From Verif Require Import M_Base M_MPIChunk.

Lemma upd_same {A} (g : nat -> A) i x : upd g i x i = x.
Proof. unfold upd. rewrite Nat.eqb_refl. reflexivity. Qed.
Lemma upd_other {A} (g : nat -> A) i x j : j <> i -> upd g i x j = g j.
Proof. intros H. unfold upd. destruct (Nat.eqb_spec j i) as [E|E]; [contradiction|reflexivity]. Qed.
Lemma concat_same {A} (g h : nat -> list A) l : (forall i, In i l -> g i = h i) -> concat (map g l) = concat (map h l).
Proof. intros H. f_equal. apply map_ext_in, H. Qed.
Lemma concat_add {A} (g h : nat -> list A) r extra : forall n a, a <= r < a + n -> h r = g r ++ extra -> (forall i, i <> r -> h i = g i) ->
  Permutation (concat (map h (seq a n))) (concat (map g (seq a n)) ++ extra).
Proof.
  induction n as [|n IH]; intros a Hr E O; [lia|]. cbn [seq map concat]. destruct (Nat.eq_dec a r) as [->|Ha].
  - rewrite E, (concat_same h g) by (intros i Hi; apply O; apply in_seq in Hi; lia). rewrite <- !app_assoc. apply Permutation_app_head, Permutation_app_comm.
  - rewrite (O a Ha), <- app_assoc. apply Permutation_app_head, IH; [lia|exact E|exact O].
Qed.

Section Chunk.
Variables V W : Type.
Variable f : V -> W.
Variable cs N : nat.
Hypothesis cs_pos : 0 < cs.

(** ** What one request makes the scheduler send *)
Fixpoint blocks (b : nat) (blk : list V) : list (nat * V) :=
  match blk with [] => [] | x :: blk' => repeat (S (length blk' + b), x) (S (length blk')) ++ blocks b blk' end.
Lemma concat_repeat_app {A} (u v : list A) k : Permutation (concat (repeat (u ++ v) k)) (concat (repeat u k) ++ concat (repeat v k)).
Proof.
  induction k as [|k IH]; [reflexivity|]. cbn [repeat concat]. rewrite <- !app_assoc. apply Permutation_app_head. rewrite IH, !app_assoc. apply Permutation_app_tail, Permutation_app_comm.
Qed.
Lemma concat_repeat_one {A} (x : A) k : concat (repeat [x] k) = repeat x k.
Proof. induction k as [|k IH]; [reflexivity|]. cbn. f_equal. exact IH. Qed.
Lemma pops_ok : forall blk rest i n chunk, n = i + (length blk + length rest) ->
  exists sent, pops (length blk) i n (blk ++ rest) chunk = (sent, Some rest) /\ Permutation (concat sent) (concat (repeat chunk (length blk)) ++ blocks (length rest) blk).
Proof.
  induction blk as [|x blk IH]; intros rest i n chunk Hn; [exists []; split; reflexivity|]. cbn [length] in Hn. cbn [length app pops].
  destruct (IH rest (S i) n (chunk ++ [(n - i, x)]) ltac:(lia)) as (sent & E & P). rewrite E. exists ((chunk ++ [(n - i, x)]) :: sent). split; [reflexivity|].
  cbn [concat]. rewrite P. replace (n - i) with (S (length blk + length rest)) by lia. cbn [blocks].
  change ((chunk ++ [(S (length blk + length rest), x)]) ++ concat (repeat (chunk ++ [(S (length blk + length rest), x)]) (length blk)) ++ blocks (length rest) blk)
    with ((chunk ++ [(S (length blk + length rest), x)]) ++ (concat (repeat (chunk ++ [(S (length blk + length rest), x)]) (length blk)) ++ blocks (length rest) blk)).
  rewrite app_assoc. change ((chunk ++ [(S (length blk + length rest), x)]) ++ concat (repeat (chunk ++ [(S (length blk + length rest), x)]) (length blk))) with (concat (repeat (chunk ++ [(S (length blk + length rest), x)]) (S (length blk)))).
  rewrite concat_repeat_app, concat_repeat_one, <- app_assoc. reflexivity.
Qed.
Lemma pops_left : forall k i n (items : list V) chunk sent rest, pops k i n items chunk = (sent, Some rest) -> length items = k + length rest.
Proof.
  induction k as [|k IH]; intros i n items chunk sent rest H; [injection H as _ ->; reflexivity|]. destruct items as [|x items]; [discriminate|]. cbn [pops] in H.
  destruct (pops k (S i) n items (chunk ++ [(n - i, x)])) as [s' r'] eqn:E. injection H as _ ->. apply IH in E. cbn. lia.
Qed.

(** ** All that is still to be sent *)
Fixpoint todo (items : list V) : list (nat * V) :=
  match items with [] => [] | x :: r => repeat (S (length r), x) (length r mod cs + 1) ++ todo r end.
Lemma todo_block : forall blk rest, length blk <= cs -> length rest mod cs = 0 -> todo (blk ++ rest) = blocks (length rest) blk ++ todo rest.
Proof.
  induction blk as [|x blk IH]; intros rest Hb Hr; [reflexivity|]. cbn [app todo blocks length] in *. rewrite IH by (exact Hr || lia). rewrite app_length, <- app_assoc. f_equal.
  rewrite Nat.add_mod, Hr, Nat.add_0_r by lia. rewrite Nat.mod_mod by lia. rewrite Nat.mod_small by lia. rewrite Nat.add_1_r. reflexivity.
Qed.

Definition res (p : nat * V) : nat * W := (fst p, f (snd p)).
Definition items_of (q : list (option (list (nat * V)))) : list (nat * V) := concat (map (fun m => match m with Some c => c | None => [] end) q).
Lemma items_app a b : items_of (a ++ b) = items_of a ++ items_of b.
Proof. unfold items_of. rewrite map_app, concat_app. reflexivity. Qed.
Lemma items_some l : items_of (map Some l) = concat l.
Proof. unfold items_of. rewrite map_map, map_id. reflexivity. Qed.
Lemma items_none k : items_of (repeat None k) = [].
Proof. induction k as [|k IH]; [reflexivity|exact IH]. Qed.
(** results of leader i, those of its messages in flight included *)
Definition share (s : mst V W) (i : nat) : list (nat * W) := rdd s i ++ map res (items_of (queue s i)).
Definition shares (s : mst V W) : list (nat * W) := concat (map (share s) (seq 0 N)).

Record inv (l : list V) (s : mst V W) : Prop := mkinv {
  i_reqs : Forall (fun r => r < N) (reqs s);
  i_div : failed s = false -> length (pend s) mod cs = length l mod cs;
  i_queue : forall i, exists ms k, queue s i = map Some ms ++ repeat None k /\ (0 < k -> pend s = [] /\ failed s = false) /\ (ph s i = Stop -> ms = [] /\ pend s = [] /\ failed s = false);
  i_all : length l mod cs = 0 -> failed s = false /\ Permutation (shares s ++ map res (todo (pend s))) (map res (todo (rev l))) }.
Lemma repeat_end {A} (x : A) k : repeat x k ++ [x] = repeat x (S k).
Proof. induction k as [|k IH]; [reflexivity|]. cbn. f_equal. exact IH. Qed.
Lemma inv_ok l s : run f cs N l s -> inv l s.
Proof.
  induction 1 as [|s s' Hrun IH Hst].
  - split; cbn [reqs failed pend queue ph].
    + constructor.
    + intros _. rewrite rev_length. reflexivity.
    + intros i. exists [], 0. split; [reflexivity|]. split; [lia|discriminate].
    + intros _. split; [reflexivity|]. unfold shares. rewrite (concat_same _ (fun _ => [])) by reflexivity. replace (concat (map (fun _ : nat => @nil (nat * W)) (seq 0 N))) with (@nil (nat * W)); [reflexivity|].
      induction (seq 0 N) as [|a t IHt]; [reflexivity|exact IHt].
  - destruct IH as [Hr Hd Hq Ha]. destruct Hst as [s' i Hi E|s' i Hi E|s' a r b Er E].
    + unfold ask in E. destruct (ph s i) eqn:Ep; try discriminate. injection E as <-. split; cbn [reqs failed pend queue ph].
      * apply Forall_app. split; [exact Hr|constructor; [exact Hi|constructor]].
      * exact Hd.
      * intros j. destruct (Hq j) as (ms & k & H1 & H2 & H3). exists ms, k. split; [exact H1|]. split; [exact H2|]. destruct (Nat.eq_dec j i) as [->|Hj]; [rewrite upd_same; discriminate|]. rewrite upd_other by exact Hj. exact H3.
      * exact Ha.
    + unfold receive in E. destruct (ph s i) eqn:Ep; try discriminate. destruct (queue s i) as [|[chunk|] t] eqn:Eq; try discriminate; injection E as <-; destruct (Hq i) as (ms & k & H1 & H2 & H3); rewrite Eq in H1.
      * destruct ms as [|m ms]; [destruct k; discriminate|]. injection H1 as -> ->. split; cbn [reqs failed pend queue ph]; [exact Hr|exact Hd| |].
        -- intros j. destruct (Nat.eq_dec j i) as [->|Hj]; [rewrite !upd_same; exists ms, k; split; [reflexivity|]; split; [exact H2|discriminate]|]. rewrite !upd_other by exact Hj. apply Hq.
        -- intros H. destruct (Ha H) as [F P]. split; [exact F|]. rewrite <- P. apply Permutation_app_tail. unfold shares. rewrite (concat_same _ (share s)); [reflexivity|]. intros j _. unfold share. cbn [rdd queue].
           destruct (Nat.eq_dec j i) as [->|Hj]; [|rewrite !upd_other by exact Hj; reflexivity]. rewrite !upd_same, Eq. unfold items_of at 2. cbn [map concat]. rewrite map_app, <- app_assoc. reflexivity.
      * destruct ms as [|m ms]; [|discriminate]. destruct k as [|k]; [discriminate|]. injection H1 as ->. destruct (H2 ltac:(lia)) as [P0 F0]. split; cbn [reqs failed pend queue ph]; [exact Hr|exact Hd| |].
        -- intros j. destruct (Nat.eq_dec j i) as [->|Hj]; [rewrite !upd_same; exists [], k; split; [reflexivity|]; split; intros _; [split; [exact P0|exact F0]|split; [reflexivity|split; [exact P0|exact F0]]]|]. rewrite !upd_other by exact Hj. apply Hq.
        -- intros H. destruct (Ha H) as [F P]. split; [exact F|]. rewrite <- P. apply Permutation_app_tail. unfold shares. rewrite (concat_same _ (share s)); [reflexivity|]. intros j _. unfold share. cbn [rdd queue].
           destruct (Nat.eq_dec j i) as [->|Hj]; [rewrite !upd_same, Eq; reflexivity|rewrite !upd_other by exact Hj; reflexivity].
    + assert (Hr' : r < N /\ Forall (fun r => r < N) (a ++ b)).
      { rewrite Er in Hr. apply Forall_app in Hr. destruct Hr as [Hra Hrb]. inversion Hrb; subst. split; [assumption|]. apply Forall_app. split; assumption. }
      destruct Hr' as [HrN Hrest]. unfold serve in E. destruct (failed s) eqn:Ef; [discriminate|]. cbn [orb] in E. destruct (forallb (done s) (seq 0 N)); [discriminate|].
      destruct (pend s) as [|x items] eqn:Epd.
      * injection E as <-. split; cbn [reqs failed pend queue ph]; [exact Hrest|exact Hd| |].
        -- intros j. destruct (Nat.eq_dec j r) as [->|Hj]; [|rewrite upd_other by exact Hj; destruct (Hq j) as (ms & k & H1 & H2 & H3); exists ms, k; split; [exact H1|]; split; [exact (fun h => conj eq_refl eq_refl)|intros h; destruct (H3 h) as [-> _]; split; [reflexivity|split; reflexivity]]].
           rewrite upd_same. destruct (Hq r) as (ms & k & H1 & H2 & H3). exists ms, (S k). split; [rewrite H1, <- app_assoc, repeat_end; reflexivity|]. split; [exact (fun h => conj eq_refl eq_refl)|intros h; destruct (H3 h) as [-> _]; split; [reflexivity|split; reflexivity]].
        -- intros H. destruct (Ha H) as [F P]. split; [reflexivity|]. rewrite <- P. apply Permutation_app_tail. unfold shares. rewrite (concat_same _ (share s)); [reflexivity|]. intros j _. unfold share. cbn [rdd queue].
           destruct (Nat.eq_dec j r) as [->|Hj]; [|rewrite upd_other by exact Hj; reflexivity]. rewrite upd_same, items_app. change (items_of [None]) with (@nil (nat * V)). rewrite app_nil_r. reflexivity.
      * destruct (pops cs 0 (length (x :: items)) (x :: items) []) as [sent rm] eqn:Epop. injection E as <-.
        assert (Hq' : forall j, exists ms, queue s j = map Some ms /\ ph s j <> Stop).
        { intros j. destruct (Hq j) as (ms & k & H1 & H2 & H3). exists ms. split; [destruct k as [|k]; [rewrite H1; apply app_nil_r|destruct (H2 ltac:(lia)); discriminate]|]. intros h. destruct (H3 h) as (_ & X & _). discriminate. }
        split; cbn [reqs failed pend queue ph]; [exact Hrest| | |].
        -- destruct rm as [rest|]; [|discriminate]. intros _. apply pops_left in Epop. rewrite <- (Hd eq_refl), Epop. rewrite Nat.add_mod, Nat.mod_same, Nat.add_0_l, Nat.mod_mod by lia. reflexivity.
        -- intros j. destruct (Hq' j) as (ms & H1 & H2). destruct (Nat.eq_dec j r) as [->|Hj]; [rewrite upd_same; exists (ms ++ sent)|rewrite upd_other by exact Hj; exists ms]; exists 0; (split; [rewrite H1, ?map_app, app_nil_r; reflexivity|]); (split; [lia|contradiction]).
        -- intros H. destruct (Ha H) as [_ P]. pose proof (Hd eq_refl) as Hlen. rewrite H in Hlen.
           assert (Hle : cs <= length (x :: items)). { destruct (le_lt_dec cs (length (x :: items))) as [L|L]; [exact L|]. rewrite Nat.mod_small in Hlen by exact L. discriminate. }
           destruct (pops_ok (firstn cs (x :: items)) (skipn cs (x :: items)) 0 (length (x :: items)) []) as (sent' & E' & P'); [rewrite <- app_length, firstn_skipn; reflexivity|].
           rewrite firstn_skipn, (firstn_length_le _ Hle), Epop in E'. injection E' as <- ->. split; [reflexivity|].
           rewrite (firstn_length_le _ Hle) in P'. assert (P2 : Permutation (concat sent) (blocks (length (skipn cs (x :: items))) (firstn cs (x :: items)))).
           { rewrite P'. replace (concat (repeat (@nil (nat * V)) cs)) with (@nil (nat * V)); [reflexivity|]. clear. induction cs as [|c IHc]; [reflexivity|exact IHc]. }
           rewrite <- P. replace (todo (x :: items)) with (todo (firstn cs (x :: items) ++ skipn cs (x :: items))) by (rewrite firstn_skipn; reflexivity). rewrite todo_block; [|rewrite firstn_length_le by exact Hle; lia|].
           2: { rewrite skipn_length. replace (length (x :: items)) with (length (x :: items) - cs + 1 * cs) in Hlen by lia. rewrite Nat.mod_add in Hlen by lia. exact Hlen. }
           rewrite map_app, app_assoc. apply Permutation_app_tail. rewrite <- P2. unfold shares. apply (concat_add (share s) _ r _ N 0); [lia| |].
           ++ unfold share. cbn [rdd queue]. rewrite upd_same, items_app, items_some, map_app, app_assoc. reflexivity.
           ++ intros j Hj. unfold share. cbn [rdd queue]. rewrite upd_other by exact Hj. reflexivity.
Qed.

(** ** Sorting by tag *)
Definition copies (l : list V) : list (nat * W) := flat_map (fun kx => repeat (S (fst kx), f (snd kx)) (fst kx mod cs + 1)) (combine (seq 0 (length l)) l).
Lemma combine_end {A B} (a a' : list A) (b b' : list B) : length a = length b -> combine (a ++ a') (b ++ b') = combine a b ++ combine a' b'.
Proof. revert b. induction a as [|x a IH]; intros [|y b] H; try discriminate; [reflexivity|]. cbn. f_equal. apply IH. injection H as H. exact H. Qed.
Lemma copies_end l x : copies (l ++ [x]) = copies l ++ repeat (S (length l), f x) (length l mod cs + 1).
Proof.
  unfold copies. rewrite app_length. cbn [length]. rewrite Nat.add_1_r, seq_S, combine_end by apply seq_length. cbn [Nat.add combine]. rewrite flat_map_app. cbn [flat_map fst snd]. rewrite app_nil_r. reflexivity.
Qed.
Lemma repeat_map {A B} (g : A -> B) x k : map g (repeat x k) = repeat (g x) k.
Proof. induction k as [|k IH]; [reflexivity|]. cbn. f_equal. exact IH. Qed.
Lemma todo_copies l : Permutation (map res (todo (rev l))) (copies l).
Proof.
  induction l as [|x l IH] using rev_ind; [reflexivity|]. rewrite rev_app_distr. cbn [rev app todo]. rewrite rev_length, map_app, repeat_map, IH, copies_end. apply Permutation_app_comm.
Qed.
Lemma copies_in l t w : In (t, w) (copies l) -> exists k x, nth_error l k = Some x /\ t = S k /\ w = f x.
Proof.
  induction l as [|x l IH] using rev_ind; [intros []|]. rewrite copies_end. intros H. apply in_app_or in H. destruct H as [H|H].
  - destruct (IH H) as (k & y & H1 & H2). exists k, y. split; [|exact H2]. rewrite nth_error_app1; [exact H1|]. apply nth_error_Some. congruence.
  - apply repeat_spec in H. injection H as -> ->. exists (length l), x. split; [|split; reflexivity]. rewrite nth_error_app2, Nat.sub_diag by lia. reflexivity.
Qed.
Definition tag_le (p q : nat * W) : Prop := fst p <= fst q.
Lemma ss_app a b : StronglySorted tag_le a -> StronglySorted tag_le b -> (forall p q, In p a -> In q b -> tag_le p q) -> StronglySorted tag_le (a ++ b).
Proof.
  intros Ha Hb H. induction Ha as [|p a Ha IH Hp]; [exact Hb|]. cbn. constructor; [apply IH; intros; apply H; [right|]; assumption|]. apply Forall_app. split; [exact Hp|]. apply Forall_forall. intros q Hq. apply H; [left; reflexivity|exact Hq].
Qed.
Lemma copies_sorted l : StronglySorted tag_le (copies l).
Proof.
  induction l as [|x l IH] using rev_ind; [constructor|]. rewrite copies_end. apply ss_app; [exact IH| |].
  - generalize (length l mod cs + 1). intros k. induction k as [|k IHk]; [constructor|]. cbn. constructor; [exact IHk|]. apply Forall_forall. intros q Hq. apply repeat_spec in Hq. subst q. unfold tag_le. lia.
  - intros [t w] q Hp Hq. apply repeat_spec in Hq. subst q. destruct (copies_in l t w Hp) as (k & y & H1 & -> & _). unfold tag_le. cbn [fst]. assert (k < length l) by (apply nth_error_Some; congruence). lia.
Qed.
Lemma sorted_unique a : forall b, Permutation a b -> StronglySorted tag_le a -> StronglySorted tag_le b -> (forall p q, In p a -> In q a -> fst p = fst q -> p = q) -> a = b.
Proof.
  induction a as [|x a IH]; intros b P Sa Sb U; [symmetry; apply Permutation_nil, P|]. destruct b as [|y b]; [symmetry in P; apply Permutation_nil in P; discriminate|].
  apply StronglySorted_inv in Sa. apply StronglySorted_inv in Sb. destruct Sa as [Sa Fa], Sb as [Sb Fb]. rewrite Forall_forall in Fa, Fb.
  assert (Hy : In y (x :: a)) by (apply (Permutation_in _ (Permutation_sym P)); left; reflexivity). assert (Hx : In x (y :: b)) by (apply (Permutation_in _ P); left; reflexivity).
  assert (E : x = y).
  { apply U; [left; reflexivity|exact Hy|]. destruct Hy as [Hy|Hy]; [congruence|]. destruct Hx as [Hx|Hx]; [congruence|]. specialize (Fa y Hy). specialize (Fb x Hx). unfold tag_le in *. lia. }
  subst y. f_equal. apply IH; [exact (Permutation_cons_inv P)|exact Sa|exact Sb|intros; apply U; [right|right|]; assumption].
Qed.
Lemma finished l s : 0 < N -> run f cs N l s -> (forall i, i < N -> ph s i = Stop) -> length l mod cs = 0 /\ Permutation (gathered N s) (copies l).
Proof.
  intros HN Hrun Hall. apply inv_ok in Hrun. destruct Hrun as [_ Hd Hq Ha]. destruct (Hq 0) as (ms0 & k0 & _ & _ & H0). destruct (H0 (Hall 0 HN)) as (_ & P0 & F0).
  specialize (Hd F0). rewrite P0 in Hd. cbn [length] in Hd. rewrite Nat.mod_0_l in Hd by lia. symmetry in Hd. split; [exact Hd|]. destruct (Ha Hd) as [_ P]. rewrite P0, app_nil_r in P. rewrite <- todo_copies, <- P.
  unfold gathered, shares. rewrite (concat_same (rdd s) (share s)); [reflexivity|]. intros i Hi. apply in_seq in Hi. destruct (Hq i) as (ms & k & H1 & _ & H3). destruct (H3 (Hall i ltac:(lia))) as (-> & _ & _). unfold share. rewrite H1. cbn [map app]. rewrite items_none. cbn [map]. rewrite app_nil_r. reflexivity.
Qed.
(** ** Every execution ends *)
Definition lsum (g : nat -> nat) : nat := list_sum (map g (seq 0 N)).
Lemma lsum_upd g h r : r < N -> (forall i, i <> r -> h i = g i) -> lsum h + g r = lsum g + h r.
Proof.
  unfold lsum. assert (X : forall n a, a <= r < a + n -> (forall i, i <> r -> h i = g i) -> list_sum (map h (seq a n)) + g r = list_sum (map g (seq a n)) + h r).
  { induction n as [|n IH]; intros a Hr O; [lia|]. cbn [seq map]. change (list_sum (?x :: ?t)) with (x + list_sum t). destruct (Nat.eq_dec a r) as [->|Ha].
    - rewrite (map_ext_in h g) by (intros i Hi; apply O; apply in_seq in Hi; lia). lia.
    - rewrite (O a Ha). specialize (IH (S a) ltac:(lia) O). lia. }
  intros Hr O. apply (X N 0); [lia|exact O].
Qed.
Definition mweight (m : option (list (nat * V))) : nat := match m with Some _ => 4 | None => 1 end.
Definition lweight (s : mst V W) (i : nat) : nat := list_sum (map mweight (queue s i)) + match ph s i with Ask => 3 | _ => 0 end.
Definition weight (s : mst V W) : nat := 4 * length (pend s) + 2 * length (reqs s) + lsum (lweight s).
Lemma weights_app a b : list_sum (map mweight (a ++ b)) = list_sum (map mweight a) + list_sum (map mweight b).
Proof. rewrite map_app. apply list_sum_app. Qed.
Lemma weights_some l : list_sum (map mweight (map Some l)) = 4 * length l.
Proof. induction l as [|x l IH]; [reflexivity|]. cbn [map length]. change (list_sum (?x :: ?t)) with (x + list_sum t). rewrite IH. cbn [mweight]. lia. Qed.
Lemma pops_count : forall k i n (items : list V) chunk sent rm, pops k i n items chunk = (sent, rm) -> length sent + length (match rm with Some r => r | None => [] end) <= length items /\ (0 < k -> items <> [] -> sent <> []).
Proof.
  induction k as [|k IH]; intros i n items chunk sent rm H; [injection H as <- <-; split; [reflexivity|lia]|]. destruct items as [|x items]; [injection H as <- <-; split; [reflexivity|contradiction]|]. cbn [pops] in H.
  destruct (pops k (S i) n items (chunk ++ [(n - i, x)])) as [s' r'] eqn:E. injection H as <- <-. apply IH in E. destruct E as [E _]. cbn [length]. split; [lia|discriminate].
Qed.
Lemma step_weight l s s' : run f cs N l s -> step V W f cs N s s' -> weight s' < weight s.
Proof.
  intros Hrun Hst. apply inv_ok in Hrun. destruct Hrun as [Hr _ _ _]. unfold weight. destruct Hst as [s' i Hi E|s' i Hi E|s' a r b Er E].
  - unfold ask in E. destruct (ph s i) eqn:Ep; try discriminate. injection E as <-. cbn [pend reqs]. rewrite app_length. cbn [length].
    set (s1 := mkmst (pend s) (failed s) (done s) (reqs s ++ [i]) (queue s) (upd (ph s) i Wait) (rdd s)). pose proof (lsum_upd (lweight s) (lweight s1) i Hi) as X. unfold lweight in X at 4 6. subst s1. cbn [queue ph] in X. rewrite upd_same, Ep in X.
    specialize (X ltac:(intros j Hj; unfold lweight; cbn [queue ph]; rewrite upd_other by exact Hj; reflexivity)). lia.
  - unfold receive in E. destruct (ph s i) eqn:Ep; try discriminate. destruct (queue s i) as [|[chunk|] t] eqn:Eq; try discriminate; injection E as <-; cbn [pend reqs]; match goal with |- _ < _ => idtac end.
    + set (s1 := mkmst (pend s) (failed s) (done s) (reqs s) (upd (queue s) i t) (upd (ph s) i Ask) (upd (rdd s) i (rdd s i ++ map (fun p => (fst p, f (snd p))) chunk))).
      pose proof (lsum_upd (lweight s) (lweight s1) i Hi) as X. unfold lweight in X at 4 6. subst s1. cbn [queue ph] in X. rewrite !upd_same, Ep, Eq in X. cbn [map mweight] in X. change (list_sum (?x :: ?t)) with (x + list_sum t) in X.
      specialize (X ltac:(intros j Hj; unfold lweight; cbn [queue ph]; rewrite !upd_other by exact Hj; reflexivity)). lia.
    + set (s1 := mkmst (pend s) (failed s) (done s) (reqs s) (upd (queue s) i t) (upd (ph s) i Stop) (rdd s)).
      pose proof (lsum_upd (lweight s) (lweight s1) i Hi) as X. unfold lweight in X at 4 6. subst s1. cbn [queue ph] in X. rewrite !upd_same, Ep, Eq in X. cbn [map mweight] in X. change (list_sum (?x :: ?t)) with (x + list_sum t) in X.
      specialize (X ltac:(intros j Hj; unfold lweight; cbn [queue ph]; rewrite !upd_other by exact Hj; reflexivity)). lia.
  - assert (HrN : r < N) by (rewrite Forall_forall in Hr; apply Hr; rewrite Er; apply in_elt). rewrite Er, app_length. cbn [length]. unfold serve in E. destruct (failed s || forallb (done s) (seq 0 N)); [discriminate|]. destruct (pend s) as [|x items] eqn:Epd.
    + injection E as <-. cbn [pend reqs length]. rewrite app_length.
      set (s1 := mkmst [] false (upd (done s) r true) (a ++ b) (upd (queue s) r (queue s r ++ [None])) (ph s) (rdd s)). pose proof (lsum_upd (lweight s) (lweight s1) r HrN) as X. unfold lweight in X at 4 6. subst s1. cbn [queue ph] in X. rewrite upd_same, weights_app in X. cbn in X.
      specialize (X ltac:(intros j Hj; unfold lweight; cbn [queue ph]; rewrite upd_other by exact Hj; reflexivity)). lia.
    + destruct (pops cs 0 (length (x :: items)) (x :: items) []) as [sent rm] eqn:Epop. injection E as <-. apply pops_count in Epop. destruct Epop as [Epop _]. cbn [pend reqs]. rewrite app_length.
      set (s1 := mkmst (match rm with Some l0 => l0 | None => [] end) (match rm with Some _ => false | None => true end) (done s) (a ++ b) (upd (queue s) r (queue s r ++ map Some sent)) (ph s) (rdd s)). pose proof (lsum_upd (lweight s) (lweight s1) r HrN) as X. unfold lweight in X at 4 6. subst s1. cbn [queue ph] in X. rewrite upd_same, weights_app, weights_some in X.
      specialize (X ltac:(intros j Hj; unfold lweight; cbn [queue ph]; rewrite upd_other by exact Hj; reflexivity)). lia.
Qed.
Definition live (s : mst V W) : Prop := forall i, i < N -> (ph s i = Wait -> queue s i <> [] \/ In i (reqs s)) /\ (done s i = true -> ph s i = Stop \/ In None (queue s i)).
Lemma live_ok l s : run f cs N l s -> live s.
Proof.
  induction 1 as [|s s' Hrun IH Hst]; [intros i Hi; split; discriminate|]. destruct Hst as [s' i Hi E|s' i Hi E|s' a r b Er E]; intros j Hj; destruct (IH j Hj) as [IH1 IH2].
  - unfold ask in E. destruct (ph s i) eqn:Ep; try discriminate. injection E as <-. cbn [ph queue reqs done]. destruct (Nat.eq_dec j i) as [->|Hji].
    + split; [intros _; right; apply in_or_app; right; left; reflexivity|]. intros H. destruct (IH2 H) as [H1|H1]; [congruence|right; exact H1].
    + rewrite upd_other by exact Hji. split; [|exact IH2]. intros H. destruct (IH1 H) as [H1|H1]; [left; exact H1|right; apply in_or_app; left; exact H1].
  - unfold receive in E. destruct (ph s i) eqn:Ep; try discriminate. destruct (queue s i) as [|[chunk|] t] eqn:Eq; try discriminate; injection E as <-; cbn [ph queue reqs done]; (destruct (Nat.eq_dec j i) as [->|Hji]; [rewrite !upd_same|rewrite !upd_other by exact Hji; split; [exact IH1|exact IH2]]).
    + split; [discriminate|]. intros H. destruct (IH2 H) as [H1|H1]; [congruence|]. rewrite Eq in H1. destruct H1 as [H1|H1]; [discriminate|right; exact H1].
    + split; [discriminate|left; reflexivity].
  - unfold serve in E. destruct (failed s || forallb (done s) (seq 0 N)); [discriminate|]. destruct (pend s) as [|x items] eqn:Epd.
    + injection E as <-. cbn [ph queue reqs done]. destruct (Nat.eq_dec j r) as [->|Hjr].
      * rewrite !upd_same. split; intros _; [left; destruct (queue s r); discriminate|right; apply in_or_app; right; left; reflexivity].
      * rewrite !upd_other by exact Hjr. split; [|exact IH2]. intros H. destruct (IH1 H) as [H1|H1]; [left; exact H1|right]. rewrite Er in H1. apply in_app_or in H1. apply in_or_app. destruct H1 as [H1|[H1|H1]]; [left; exact H1|congruence|right; exact H1].
    + destruct (pops cs 0 (length (x :: items)) (x :: items) []) as [sent rm] eqn:Epop. injection E as <-. apply pops_count in Epop. destruct Epop as [_ Epop]. specialize (Epop cs_pos ltac:(discriminate)). cbn [ph queue reqs done]. destruct (Nat.eq_dec j r) as [->|Hjr].
      * rewrite upd_same. split; [intros _; left; destruct sent; [contradiction|destruct (queue s r); discriminate]|]. intros H. destruct (IH2 H) as [H1|H1]; [left; exact H1|right; apply in_or_app; left; exact H1].
      * rewrite upd_other by exact Hjr. split; [|exact IH2]. intros H. destruct (IH1 H) as [H1|H1]; [left; exact H1|right]. rewrite Er in H1. apply in_app_or in H1. apply in_or_app. destruct H1 as [H1|[H1|H1]]; [left; exact H1|congruence|right; exact H1].
Qed.
Lemma stuck_end l s : run f cs N l s -> (forall s', ~ step V W f cs N s s') -> failed s = false -> forall i, i < N -> ph s i = Stop.
Proof.
  intros Hrun Hno Hf i Hi. pose proof (live_ok l s Hrun) as Hl. destruct (ph s i) eqn:Ep; [| |reflexivity]; exfalso.
  - apply (Hno (mkmst (pend s) (failed s) (done s) (reqs s ++ [i]) (queue s) (upd (ph s) i Wait) (rdd s))). apply s_ask with i; [exact Hi|]. unfold ask. rewrite Ep. reflexivity.
  - assert (Eq : queue s i = []). { destruct (queue s i) as [|m t] eqn:Eq; [reflexivity|exfalso]. destruct (receive V W f s i) as [s'|] eqn:E; [apply (Hno s'), s_receive with i; assumption|]. unfold receive in E. rewrite Ep, Eq in E. destruct m; discriminate. }
    destruct (Hl i Hi) as [H1 H2]. destruct (H1 Ep) as [X|X]; [contradiction|]. apply in_split in X. destruct X as (a & b & X).
    assert (Hnd : forallb (done s) (seq 0 N) = false).
    { destruct (forallb (done s) (seq 0 N)) eqn:D; [|reflexivity]. rewrite forallb_forall in D. specialize (D i ltac:(apply in_seq; lia)). destruct (H2 D) as [Y|Y]; [congruence|]. rewrite Eq in Y. destruct Y. }
    destruct (serve V W cs N s i (a ++ b)) as [s'|] eqn:E; [apply (Hno s'), (s_serve V W f cs N s s' a i b); assumption|]. unfold serve in E. rewrite Hf, Hnd in E. cbn [orb] in E. destruct (pend s) as [|x items]; [discriminate|]. destruct (pops cs 0 (length (x :: items)) (x :: items) []); discriminate.
Qed.
End Chunk.

(** C100: with any chunk size, number of leaders and order of events: if all leaders leave a map over l, then collect sorts (np.argsort by tag, whatever it does with equal tags)
    the results into a list in which item k (from 0) occurs k mod chunk_size + 1 times. *)
Theorem C100_result : forall V W (f : V -> W) chunk_size N l s sorted, 0 < chunk_size -> 0 < N -> run f chunk_size N l s -> (forall i, i < N -> ph s i = Stop) ->
  Permutation sorted (gathered N s) -> Sorted (fun p q => fst p <= fst q) sorted ->
  map snd sorted = flat_map (fun k => match nth_error l k with Some x => repeat (f x) (k mod chunk_size + 1) | None => [] end) (seq 0 (length l)).
Proof.
  intros V W f cs N l s L Hcs HN Hrun Hall P HS. destruct (finished V W f cs N Hcs l s HN Hrun Hall) as [_ Q].
  assert (E : L = copies V W f cs l).
  { symmetry. eapply (sorted_unique W cs Hcs); [rewrite P; symmetry; exact Q|apply copies_sorted; exact Hcs|apply Sorted_StronglySorted; [intros p q r H1 H2; exact (Nat.le_trans _ _ _ H1 H2)|exact HS]|].
    intros [t w] [t' w'] H1 H2 E. cbn in E. subst t'. destruct (copies_in V W f cs Hcs l t w H1) as (k & x & A1 & -> & ->). destruct (copies_in V W f cs Hcs l _ w' H2) as (k' & x' & A2 & E & ->). injection E as <-. rewrite A1 in A2. injection A2 as ->. reflexivity. }
  rewrite E. clear. induction l as [|x l IH] using rev_ind; [reflexivity|]. rewrite copies_end, map_app, IH, app_length. cbn [length]. rewrite (Nat.add_1_r (length l)), seq_S, flat_map_app. f_equal.
  - rewrite !flat_map_concat_map. f_equal. apply map_ext_in. intros k Hk. apply in_seq in Hk. rewrite nth_error_app1 by lia. reflexivity.
  - cbn [Nat.add flat_map]. rewrite nth_error_app2, Nat.sub_diag by lia. cbn [nth_error]. rewrite app_nil_r. rewrite repeat_map. reflexivity.
Qed.
(** C100 (the default): with chunk_size = 1 collect returns the function of every item, in order. *)
Theorem C100_one : forall V W (f : V -> W) N l s sorted, 0 < N -> run f 1 N l s -> (forall i, i < N -> ph s i = Stop) -> Permutation sorted (gathered N s) -> Sorted (fun p q => fst p <= fst q) sorted -> map snd sorted = map f l.
Proof.
  intros V W f N l s L HN Hrun Hall P HS. rewrite (C100_result V W f 1 N l s L) by (lia || assumption). clear. induction l as [|x l IH] using rev_ind; [reflexivity|]. rewrite app_length. cbn [length]. rewrite (Nat.add_1_r (length l)), seq_S, flat_map_app, map_app. f_equal.
  - rewrite <- IH, !flat_map_concat_map. f_equal. apply map_ext_in. intros k Hk. apply in_seq in Hk. rewrite nth_error_app1 by lia. reflexivity.
  - cbn [Nat.add flat_map]. rewrite nth_error_app2, Nat.sub_diag by lia. cbn [nth_error]. rewrite Nat.mod_1_r. reflexivity.
Qed.
(** C100 (larger chunks): the number of results is not the number of items. *)
Theorem C100_refuted : forall V W (f : V -> W) chunk_size N l s, 2 <= chunk_size -> 0 < N -> l <> [] -> run f chunk_size N l s -> (forall i, i < N -> ph s i = Stop) -> length l < length (gathered N s) /\ 2 * length (gathered N s) = length l * (chunk_size + 1).
Proof.
  intros V W f cs N l s Hcs HN Hl Hrun Hall. destruct (finished V W f cs N ltac:(lia) l s HN Hrun Hall) as [D Q]. rewrite (Permutation_length Q).
  assert (E : 2 * length (copies V W f cs l) = length l / cs * (cs * (cs + 1)) + length l mod cs * (length l mod cs + 1)).
  { clear - Hcs. induction l as [|x l IH] using rev_ind; [rewrite Nat.div_0_l, Nat.mod_0_l by lia; reflexivity|]. rewrite copies_end, !app_length, repeat_length. cbn [length]. rewrite (Nat.add_1_r (length l)).
    pose proof (Nat.div_mod (length l) cs ltac:(lia)) as A. pose proof (Nat.mod_upper_bound (length l) cs ltac:(lia)) as B. set (q := length l / cs) in *. set (r := length l mod cs) in *.
    destruct (Nat.eq_dec (S r) cs) as [E|E].
    - assert (E1 : S (length l) = (S q) * cs) by nia. rewrite E1, Nat.div_mul, Nat.mod_mul by lia. nia.
    - rewrite <- (Nat.div_unique (S (length l)) cs q (S r)), <- (Nat.mod_unique (S (length l)) cs q (S r)) by nia. nia. }
  rewrite D in E. pose proof (Nat.div_mod (length l) cs ltac:(lia)) as A. rewrite D in A. assert (E2 : 2 * length (copies V W f cs l) = length l * (cs + 1)) by nia. split; [|exact E2]. destruct l; [contradiction|]. cbn [length] in *. nia.
Qed.
(** C100 (remainders): if chunk_size does not divide the number of items, no leader ever leaves the map, in any execution. *)
Theorem C100_remainder : forall V W (f : V -> W) chunk_size N l s i, 0 < chunk_size -> length l mod chunk_size <> 0 -> run f chunk_size N l s -> ph s i <> Stop.
Proof.
  intros V W f cs N l s i Hcs Hm Hrun Hs. apply inv_ok in Hrun; [|exact Hcs]. destruct Hrun as [_ Hd Hq _]. destruct (Hq i) as (ms & k & _ & _ & H). destruct (H Hs) as (_ & P0 & F0). specialize (Hd F0). rewrite P0 in Hd. cbn [length] in Hd. rewrite Nat.mod_0_l in Hd by lia. lia.
Qed.
(** C100 (end): no execution has more than 4 n + 3 N steps, and where no process can take a step, all leaders have left the map or the scheduler has failed; the latter exactly if
    chunk_size does not divide the number n of items. *)
Inductive path {V W} (f : V -> W) (cs N : nat) : nat -> mst V W -> mst V W -> Prop :=
| path0 s : path f cs N 0 s s
| path1 n s s1 s2 : step V W f cs N s s1 -> path f cs N n s1 s2 -> path f cs N (S n) s s2.
Theorem C100_end : forall V W (f : V -> W) chunk_size N l, 0 < chunk_size -> 0 < N ->
  (forall n s, path f chunk_size N n (mkmst (rev l) false (fun _ => false) [] (fun _ => []) (fun _ => Ask) (fun _ => [])) s -> n <= 4 * length l + 3 * N) /\
  (forall s, run f chunk_size N l s -> (forall s', ~ step V W f chunk_size N s s') -> if length l mod chunk_size =? 0 then failed s = false /\ forall i, i < N -> ph s i = Stop else failed s = true).
Proof.
  intros V W f cs N l Hcs HN. split.
  - assert (X : forall n s s', run f cs N l s -> path f cs N n s s' -> n + weight V W N s' <= weight V W N s).
    { intros n s s' Hrun Hp. induction Hp as [s|n s s1 s2 Hst Hp IH]; [reflexivity|]. pose proof (step_weight V W f cs N Hcs l s s1 Hrun Hst). specialize (IH (run1 V W f cs N l s s1 Hrun Hst)). lia. }
    intros n s Hp. specialize (X n _ s (run0 V W f cs N l) Hp). unfold weight at 2 in X. cbn [pend reqs length] in X. rewrite rev_length in X. assert (E : lsum N (lweight V W (mkmst (rev l) false (fun _ => false) [] (fun _ => []) (fun _ => Ask) (fun _ => []))) = 3 * N).
    { unfold lsum. rewrite (map_ext _ (fun _ => 3)) by reflexivity. rewrite <- (seq_length N 0) at 2. induction (seq 0 N) as [|a t IH]; [reflexivity|]. cbn [map length]. change (list_sum (?x :: ?t)) with (x + list_sum t). lia. }
    lia.
  - intros s Hrun Hno. pose proof (stuck_end V W f cs N Hcs l s Hrun Hno) as He. destruct (Nat.eqb_spec (length l mod cs) 0) as [D|D].
    + pose proof (inv_ok V W f cs N Hcs l s Hrun) as [_ _ _ Ha]. destruct (Ha D) as [F _]. split; [exact F|exact (He F)].
    + destruct (failed s) eqn:F; [reflexivity|]. exfalso. exact (C100_remainder V W f cs N l s 0 Hcs D Hrun (He eq_refl 0 HN)).
Qed.
Print Assumptions C100_result.
Print Assumptions C100_one.
Print Assumptions C100_refuted.
Print Assumptions C100_remainder.
Print Assumptions C100_end.

(** Squares with chunk_size = 2: one leader, two items *)
Definition sq (x : nat) : nat := x * x.
Inductive ev := EAsk (i : nat) | EReceive (i : nat) | EServe (k : nat).
Definition doit (cs N : nat) (e : ev) (s : mst nat nat) : option (mst nat nat) :=
  match e with
  | EAsk i => if i <? N then ask nat nat s i else None
  | EReceive i => if i <? N then receive nat nat sq s i else None
  | EServe k => match nth_error (reqs s) k with Some r => serve nat nat cs N s r (firstn k (reqs s) ++ skipn (S k) (reqs s)) | None => None end
  end.
Fixpoint doall (cs N : nat) (es : list ev) (s : mst nat nat) : option (mst nat nat) :=
  match es with [] => Some s | e :: es' => match doit cs N e s with Some s' => doall cs N es' s' | None => None end end.
Definition start (l : list nat) : mst nat nat := mkmst (rev l) false (fun _ => false) [] (fun _ => []) (fun _ => Ask) (fun _ => []).
Lemma doall_run cs N l es : forall s s', run sq cs N l s -> doall cs N es s = Some s' -> run sq cs N l s'.
Proof.
  induction es as [|e es IH]; intros s s' H E; [injection E as <-; exact H|]. cbn [doall] in E. destruct (doit cs N e s) as [s1|] eqn:E1; [|discriminate]. apply (IH s1 s'); [|exact E]. apply run1 with s; [exact H|]. destruct e as [i|i|k]; cbn [doit] in E1.
  - destruct (Nat.ltb_spec i N) as [Hi|Hi]; [|discriminate]. apply s_ask with i; assumption.
  - destruct (Nat.ltb_spec i N) as [Hi|Hi]; [|discriminate]. apply s_receive with i; assumption.
  - destruct (nth_error (reqs s) k) as [r|] eqn:Er; [|discriminate]. apply (s_serve nat nat sq cs N s s1 (firstn k (reqs s)) r (skipn (S k) (reqs s))); [|exact E1].
    clear - Er. revert k Er. induction (reqs s) as [|x t IHt]; intros [|k] Er; try discriminate; [injection Er as ->; reflexivity|]. cbn [nth_error firstn skipn app] in *. f_equal. apply IHt, Er.
Qed.
(** one leader: the square of the last item is computed twice; a request of the leader stays in flight *)
Example C100_case : exists s, run sq 2 1 [3; 5] s /\ (forall i, i < 1 -> ph s i = Stop) /\ gathered 1 s = [(2, 25); (2, 25); (1, 9)] /\ reqs s = [0].
Proof.
  destruct (doall 2 1 [EAsk 0; EServe 0; EReceive 0; EAsk 0; EServe 0; EReceive 0; EAsk 0; EReceive 0] (start [3; 5])) as [s|] eqn:E; [|exfalso; vm_compute in E; discriminate]. exists s. split; [exact (doall_run _ _ _ _ _ _ (run0 nat nat sq 2 1 [3; 5]) E)|].
  vm_compute in E. injection E as <-. split; [intros [|i] Hi; [reflexivity|lia]|]. split; reflexivity.
Qed.
(** two leaders and the default chunk size *)
Example C100_one_case : exists s, run sq 1 2 [3; 5] s /\ (forall i, i < 2 -> ph s i = Stop) /\ gathered 2 s = [(1, 9); (2, 25)] /\ reqs s = [].
Proof.
  destruct (doall 1 2 [EAsk 0; EAsk 1; EServe 1; EServe 0; EReceive 1; EReceive 0; EAsk 0; EAsk 1; EServe 0; EServe 0; EReceive 0; EReceive 1] (start [3; 5])) as [s|] eqn:E; [|exfalso; vm_compute in E; discriminate]. exists s. split; [exact (doall_run _ _ _ _ _ _ (run0 nat nat sq 1 2 [3; 5]) E)|].
  vm_compute in E. injection E as <-. split; [intros [|[|i]] Hi; [reflexivity|reflexivity|lia]|]. split; reflexivity.
Qed.
(** three items in chunks of two: the IndexError *)
Example C100_remainder_case : exists s, run sq 2 1 [3; 5; 7] s /\ failed s = true /\ ph s 0 = Wait.
Proof.
  destruct (doall 2 1 [EAsk 0; EServe 0; EReceive 0; EAsk 0; EServe 0] (start [3; 5; 7])) as [s|] eqn:E; [|exfalso; vm_compute in E; discriminate]. exists s. split; [exact (doall_run _ _ _ _ _ _ (run0 nat nat sq 2 1 [3; 5; 7]) E)|].
  vm_compute in E. injection E as <-. split; reflexivity.
Qed.
(** the same, until no process can take a step: 9 steps, of at most 15 *)
Example C100_end_case : exists s, run sq 2 1 [3; 5; 7] s /\ (forall s', ~ step nat nat sq 2 1 s s') /\ failed s = true /\ rdd s 0 = [(3, 49); (3, 49); (2, 25); (1, 9)].
Proof.
  destruct (doall 2 1 [EAsk 0; EServe 0; EReceive 0; EAsk 0; EServe 0; EReceive 0; EAsk 0; EReceive 0; EAsk 0] (start [3; 5; 7])) as [s|] eqn:E; [|exfalso; vm_compute in E; discriminate]. exists s. split; [exact (doall_run _ _ _ _ _ _ (run0 nat nat sq 2 1 [3; 5; 7]) E)|].
  vm_compute in E. injection E as <-. split; [|split; reflexivity]. intros s' H. inversion H as [s1 i Hi E|s1 i Hi E|s1 a r b Er E]; [destruct i; [discriminate|lia]|destruct i; [discriminate|lia]|discriminate].
Qed.
