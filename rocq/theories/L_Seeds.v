(** Proofs about worker seeds and chunks. *)
From Verif Require Import M_Base M_Seeds S_Seeds.
From Coq Require Import Permutation Sorted.

(** * Seeds *)
Open Scope Z_scope.
Lemma zinsert_perm x l : Permutation (zinsert x l) (x :: l).
Proof. induction l as [|y l IH]; cbn; [reflexivity|]. destruct (x <=? y); [reflexivity|]. rewrite IH. constructor. Qed.
Lemma zsort_perm l : Permutation (zsort l) l.
Proof. induction l as [|x l IH]; cbn; [reflexivity|]. rewrite zinsert_perm, IH. reflexivity. Qed.
Lemma zinsert_sorted x l : StronglySorted Z.le l -> StronglySorted Z.le (zinsert x l).
Proof.
  induction 1 as [|y l Hs IH Hf]; cbn; [repeat constructor|]. destruct (Z.leb_spec x y).
  - constructor; [constructor; assumption|]. constructor; [assumption|]. rewrite Forall_forall in *. intros z Hz. specialize (Hf z Hz). lia.
  - constructor; [exact IH|]. rewrite Forall_forall in *. intros z Hz. apply (Permutation_in _ (zinsert_perm x l)) in Hz. destruct Hz as [<-|Hz]; [lia | auto].
Qed.
Lemma zsort_sorted l : StronglySorted Z.le (zsort l).
Proof. induction l as [|x l IH]; cbn; [constructor|]. apply zinsert_sorted. exact IH. Qed.
Notation cnt := (count_occ Z.eq_dec).
Lemma cnt_perm l l' v : Permutation l l' -> cnt l v = cnt l' v.
Proof. intros H. apply (proj1 (Permutation_count_occ Z.eq_dec l l') H). Qed.
(** a value of multiplicity m > 0 gives one copy of itself and m - 1 copies of its successor *)
Lemma bump_count s : StronglySorted Z.le s -> forall v, cnt (bump s) v = ((if (0 <? cnt s v)%nat then 1 else 0) + pred (cnt s (v - 1)%Z))%nat.
Proof.
  induction 1 as [|x s Hs IH Hf]; intros v; [reflexivity|]. destruct s as [|y s].
  - cbn. destruct (Z.eq_dec x v), (Z.eq_dec x (v - 1)); try lia; reflexivity.
  - cbn [bump]. fold (bump (y :: s)). set (t := y :: s) in *. change (bump (x :: t)) with ((if x =? y then x + 1 else x) :: bump t).
    rewrite Forall_forall in Hf. destruct (Z.eqb_spec x y) as [->|Hxy].
    + assert (Hc : (0 < cnt t y)%nat) by (apply count_occ_In; left; reflexivity).
      cbn [count_occ]. rewrite IH. destruct (Z.eq_dec (y + 1) v) as [Hv|Hv].
      * subst v. destruct (Z.eq_dec y (y + 1)); [lia|]. destruct (Z.eq_dec y (y + 1 - 1)) as [_|]; [|lia]. replace (y + 1 - 1) with y by lia.
        destruct (0 <? cnt t (y + 1)%Z)%nat; lia.
      * destruct (Z.eq_dec y (v - 1)); [lia|]. destruct (Z.eq_dec y v) as [->|]; [|reflexivity].
        destruct (Nat.ltb_spec 0 (cnt t v)); [reflexivity | lia].
    + assert (Hlt : x < y) by (specialize (Hf y (or_introl eq_refl)); lia).
      assert (Hn : cnt t x = 0%nat).
      { apply count_occ_not_In. intros Hin. unfold t in Hin. destruct Hin as [Hin|Hin]; [lia|]. apply StronglySorted_inv in Hs. destruct Hs as [_ Hf2]. rewrite Forall_forall in Hf2. specialize (Hf2 x Hin). lia. }
      cbn [count_occ]. rewrite IH. destruct (Z.eq_dec x v) as [->|Hv].
      * rewrite Hn. destruct (Z.eq_dec v (v - 1)); [lia|]. reflexivity.
      * destruct (Z.eq_dec x (v - 1)) as [->|]; [|reflexivity]. rewrite Hn. reflexivity.
Qed.
Lemma worker_seeds_nodup l :
  NoDup (worker_seeds l) <-> (forall v, (cnt l v <= 2)%nat) /\ (forall v, cnt l v = 2%nat -> ~ In (v + 1) l).
Proof.
  assert (Hc : forall v, cnt (worker_seeds l) v = ((if (0 <? cnt l v)%nat then 1 else 0) + pred (cnt l (v - 1)%Z))%nat).
  { intros v. unfold worker_seeds. rewrite (bump_count _ (zsort_sorted l)). rewrite !(cnt_perm (zsort l) l) by apply zsort_perm. reflexivity. }
  rewrite (NoDup_count_occ Z.eq_dec). split.
  - intros H. split.
    + intros v. specialize (H (v + 1)). rewrite Hc in H. replace (v + 1 - 1) with v in H by lia. lia.
    + intros v Hv Hin. apply (count_occ_In Z.eq_dec) in Hin. specialize (H (v + 1)). rewrite Hc in H. replace (v + 1 - 1) with v in H by lia.
      destruct (Nat.ltb_spec 0 (cnt l (v + 1))); lia.
  - intros [H1 H2] v. rewrite Hc. specialize (H1 (v - 1)). destruct (Nat.ltb_spec 0 (cnt l v)) as [Hp|Hp]; [|lia].
    assert (cnt l (v - 1) <> 2%nat). { intros E. apply (H2 _ E). replace (v - 1 + 1) with v by lia. apply (count_occ_In Z.eq_dec). exact Hp. }
    lia.
Qed.
Lemma bump_length s : length (bump s) = length s.
Proof. induction s as [|x s IH]; [reflexivity|]. destruct s as [|y s]; [reflexivity|]. cbn in *. lia. Qed.
Lemma bump_range s hi : (forall v, In v s -> 0 <= v < hi) -> forall v, In v (bump s) -> 0 <= v <= hi.
Proof.
  induction s as [|x s IH]; intros H v Hv; [destruct Hv|]. destruct s as [|y s].
  - destruct Hv as [<-|[]]. specialize (H x (or_introl eq_refl)). lia.
  - change (bump (x :: y :: s)) with ((if x =? y then x + 1 else x) :: bump (y :: s)) in Hv. destruct Hv as [<-|Hv].
    + specialize (H x (or_introl eq_refl)). destruct (x =? y); lia.
    + apply IH; [intros w Hw; apply H; right; exact Hw | exact Hv].
Qed.
Lemma worker_seeds_range l : (forall v, In v l -> 0 <= v < 2 ^ 32 - 1) ->
  length (worker_seeds l) = length l /\ forall v, In v (worker_seeds l) -> 0 <= v <= 2 ^ 32 - 1.
Proof.
  intros H. unfold worker_seeds. split; [rewrite bump_length; apply Permutation_length, zsort_perm|].
  apply bump_range. intros v Hv. apply H. apply (Permutation_in _ (zsort_perm l)). exact Hv.
Qed.

(** * Chunks *)
Open Scope nat_scope.
Lemma chunk_sizes_0 m : 0 < m -> chunk_sizes 0 m = [].
Proof. intros H. unfold chunk_sizes. rewrite Nat.div_small, Nat.mod_small by lia. reflexivity. Qed.
Lemma chunk_sizes_step n m : 0 < m -> 0 < n -> chunk_sizes n m = Nat.min n m :: chunk_sizes (n - m) m.
Proof.
  intros Hm Hn. unfold chunk_sizes. destruct (le_lt_dec m n) as [H|H].
  - rewrite Nat.min_r by exact H. remember (n - m) as k eqn:Ek. assert (E : n = k + 1 * m) by lia. rewrite E.
    rewrite Nat.div_add, Nat.mod_add by lia. rewrite Nat.add_1_r. reflexivity.
  - rewrite Nat.min_l by lia. replace (n - m) with 0 by lia. rewrite (Nat.div_small n m), (Nat.mod_small n m) by exact H. rewrite Nat.div_0_l, Nat.mod_0_l by lia. destruct n as [|n]; [lia|]. reflexivity.
Qed.
Lemma chunk_sizes_sum n m : 0 < m -> list_sum (chunk_sizes n m) = n.
Proof.
  intros Hm. induction n as [n IH] using (well_founded_induction lt_wf). destruct n as [|n]; [rewrite chunk_sizes_0 by exact Hm; reflexivity|].
  rewrite chunk_sizes_step by lia. change (list_sum (?a :: ?l)) with (a + list_sum l). cbn [list_sum fold_right]. 
  assert (E : list_sum (chunk_sizes (S n - m) m) = S n - m) by (apply IH; lia). unfold list_sum in *. rewrite E. lia.
Qed.
Lemma chunk_sizes_bound n m k : 0 < m -> In k (chunk_sizes n m) -> 0 < k <= m.
Proof.
  intros Hm Hk. unfold chunk_sizes in Hk. apply in_app_or in Hk. destruct Hk as [Hk|Hk].
  - apply repeat_spec in Hk. lia.
  - destruct (Nat.eqb_spec (n mod m) 0); [destruct Hk|]. destruct Hk as [<-|[]]. pose proof (Nat.mod_upper_bound n m). lia.
Qed.
Section C.
Variables G A : Type.
Variable gen : G -> nat -> G * list A.
Lemma chunk_loop_ok m : 0 < m -> forall fuel n g acc, length (chunk_sizes n m) <= fuel ->
  chunk_loop G A gen (Z.of_nat m) fuel (Z.of_nat n) g acc
  = Ok (fst (gen_all gen (chunk_sizes n m) g), acc ++ concat (snd (gen_all gen (chunk_sizes n m) g))).
Proof.
  intros Hm. assert (Hneg : forall fuel t g acc, (t <= 0)%Z -> chunk_loop G A gen (Z.of_nat m) fuel t g acc = Ok (g, acc)).
  { intros fuel t g acc Ht. destruct fuel; cbn; destruct (Z.ltb_spec 0 t); (lia || reflexivity). }
  induction fuel as [|f IH]; intros n g acc Hf; (destruct n as [|n]; [rewrite Hneg, chunk_sizes_0 by lia; cbn; rewrite app_nil_r; reflexivity|]).
  - rewrite chunk_sizes_step in Hf by lia. cbn in Hf. lia.
  - rewrite (chunk_sizes_step (S n)) in * by lia. cbn [length] in Hf. cbn [chunk_loop gen_all].
    destruct (Z.ltb_spec 0 (Z.of_nat (S n))); [|lia]. destruct (Z.ltb_spec (Z.min (Z.of_nat (S n)) (Z.of_nat m)) 0); [lia|].
    rewrite <- Nat2Z.inj_min, Nat2Z.id. destruct (gen g (Nat.min (S n) m)) as [g' part] eqn:Eg.
    destruct (le_lt_dec m (S n)) as [Hle|Hlt].
    + replace (Z.of_nat (S n) - Z.of_nat m)%Z with (Z.of_nat (S n - m)) by lia. rewrite IH by lia.
      destruct (gen_all gen (chunk_sizes (S n - m) m) g') as [g'' parts]. cbn. rewrite app_assoc. reflexivity.
    + rewrite Hneg by lia. replace (S n - m) with 0 by lia. rewrite chunk_sizes_0 by lia. cbn. rewrite app_nil_r. reflexivity.
Qed.
Lemma gen_all_length sizes : (forall g k, length (snd (gen g k)) = k) -> forall g, length (concat (snd (gen_all gen sizes g))) = list_sum sizes.
Proof.
  intros Hg. unfold list_sum. induction sizes as [|k sizes IH]; intros g; [reflexivity|]. cbn [gen_all fold_right]. specialize (Hg g k). destruct (gen g k) as [g' part].
  specialize (IH g'). destruct (gen_all gen sizes g') as [g'' parts]. cbn in *. rewrite app_length. lia.
Qed.
Lemma chunks_ok m n fuel g : 0 < m -> length (chunk_sizes n m) <= fuel -> (forall g k, length (snd (gen g k)) = k) ->
  exists g' xs, prior_parameters G A gen (Z.of_nat m) fuel n g = Ok (g', xs) /\ length xs = n
  /\ (g', xs) = (fst (gen_all gen (chunk_sizes n m) g), concat (snd (gen_all gen (chunk_sizes n m) g)))
  /\ list_sum (chunk_sizes n m) = n /\ forall k, In k (chunk_sizes n m) -> 0 < k <= m.
Proof.
  intros Hm Hf Hg. do 2 eexists. split; [apply chunk_loop_ok; assumption|]. cbn [app]. split; [rewrite gen_all_length by exact Hg; apply chunk_sizes_sum; exact Hm|].
  split; [reflexivity|]. split; [apply chunk_sizes_sum; exact Hm|]. intros k Hk. apply (chunk_sizes_bound n m k Hm Hk).
Qed.
Lemma chunk_zero n fuel g acc : 0 < n -> chunk_loop G A gen 0 fuel (Z.of_nat n) g acc = Err OutOfFuel.
Proof.
  intros Hn. revert g acc. induction fuel as [|f IH]; intros g acc; cbn [chunk_loop]; (destruct (Z.ltb_spec 0 (Z.of_nat n)); [|lia]); [reflexivity|].
  rewrite Z.min_r by lia. cbn. destruct (gen g 0). rewrite Z.sub_0_r. apply IH.
Qed.
End C.
Section P.
Variables G P S : Type.
Variable gen : G -> nat -> G * list (P * S).
Lemma pairs_loop_ok m : 0 < m -> forall fuel n g ps ss, length (chunk_sizes n m) <= fuel ->
  pairs_loop gen (Z.of_nat m) fuel (Z.of_nat n) g ps ss
  = Ok (fst (gen_all gen (chunk_sizes n m) g), ps ++ map (map fst) (snd (gen_all gen (chunk_sizes n m) g)), ss ++ map (map snd) (snd (gen_all gen (chunk_sizes n m) g))).
Proof.
  intros Hm. assert (Hneg : forall fuel t g ps ss, (t <= 0)%Z -> pairs_loop gen (Z.of_nat m) fuel t g ps ss = Ok (g, ps, ss)).
  { intros fuel t g ps ss Ht. destruct fuel; cbn; destruct (Z.ltb_spec 0 t); (lia || reflexivity). }
  induction fuel as [|f IH]; intros n g ps ss Hf; (destruct n as [|n]; [rewrite Hneg, chunk_sizes_0 by lia; cbn; rewrite !app_nil_r; reflexivity|]).
  - rewrite chunk_sizes_step in Hf by lia. cbn in Hf. lia.
  - rewrite (chunk_sizes_step (Datatypes.S n)) in * by lia. cbn [length] in Hf. cbn [pairs_loop gen_all].
    destruct (Z.ltb_spec 0 (Z.of_nat (Datatypes.S n))); [|lia]. destruct (Z.ltb_spec (Z.min (Z.of_nat (Datatypes.S n)) (Z.of_nat m)) 0); [lia|].
    rewrite <- Nat2Z.inj_min, Nat2Z.id. destruct (gen g (Nat.min (Datatypes.S n) m)) as [g' part] eqn:Eg.
    destruct (le_lt_dec m (Datatypes.S n)) as [Hle|Hlt].
    + replace (Z.of_nat (Datatypes.S n) - Z.of_nat m)%Z with (Z.of_nat (Datatypes.S n - m)) by lia. rewrite IH by lia.
      destruct (gen_all gen (chunk_sizes (Datatypes.S n - m) m) g') as [g'' parts]. cbn. rewrite <- !app_assoc. reflexivity.
    + rewrite Hneg by lia. replace (Datatypes.S n - m) with 0 by lia. rewrite chunk_sizes_0 by lia. cbn. reflexivity.
Qed.
Lemma pairs_ok m n fuel g : 0 < m -> 0 < n -> length (chunk_sizes n m) <= fuel -> (forall g k, length (snd (gen g k)) = k) ->
  exists g' ps ss, sample_par_sim_pairs gen (Z.of_nat m) fuel n g = Ok (g', ps, ss)
  /\ length ps = n /\ length ss = n /\ combine ps ss = concat (snd (gen_all gen (chunk_sizes n m) g)).
Proof.
  intros Hm Hn Hf Hg. unfold sample_par_sim_pairs. rewrite pairs_loop_ok by assumption. cbn [app].
  set (parts := snd (gen_all gen (chunk_sizes n m) g)).
  assert (Hne : parts <> []). { unfold parts. rewrite chunk_sizes_step by assumption. cbn. destruct (gen g (Nat.min n m)). destruct (gen_all gen _ g0). discriminate. }
  assert (Hl : length (concat parts) = n) by (unfold parts; rewrite gen_all_length by exact Hg; apply chunk_sizes_sum; exact Hm).
  destruct (map (map fst) parts) as [|p0 pr] eqn:Em; [destruct parts; [congruence | discriminate]|]. rewrite <- Em.
  do 3 eexists. split; [reflexivity|]. rewrite <- !concat_map. rewrite !map_length. split; [exact Hl|]. split; [exact Hl|].
  clear. induction (concat parts) as [|[a b] l IH]; cbn; [reflexivity|]. rewrite IH. reflexivity.
Qed.
End P.
