(** The exact prior density for every vector of the right shape, accepted or refused. *)
From Coq Require Import Permutation.
From Verif Require Import M_Base M_Graph S_Graph L_Graph L_Graph2 L_Graph3 L_Graph4.

Section WF.
Variable g : graph.
Hypothesis Hwf : wf g.

Lemma pdf_of_prior_any roots params s s1 b k :
  indep g roots -> clean g roots s1 -> vals_ok g s1 -> length (order g roots) <= length params ->
  set_parameters g roots params s = (s1, Ok (b, k)) ->
  exists s' q, pdf_of_prior g roots params s = (s', Ok q)
    /\ val s' = val s1 /\ clean g roots s'
    /\ exists relv, (forall i n, nth_error (order g roots) i = Some n -> nth_error params i = Some (relv n))
    /\ let D := fun n => gdens g n (inputs_at g (val s1) n) (relv n) in
       let paths := flat_map (E g) (flat_map (gpar g) roots) in
       (q == prodQ (map D (filter (is_cont g) (first_occ paths))) * prodQ (map D (filter (is_disc g) paths)))%Q.
Proof.
  intros Hi Hcl1 Hok1 Hk' Hset.
  destruct (get_mapping_spec g Hwf roots s1 Hi Hcl1) as (s2 & Hmap & (Hcl2 & Hcp2 & _ & _) & Hv2).
  set (relv := fun n => match relevant (pairs (order g roots) 0) params n with Ok v => v | Err _ => [] end).
  assert (Hrel0 : forall l i n, i + length l <= length params ->
     exists v, relevant (pairs l i) params n = Ok v
       /\ ((~ In n l /\ v = []) \/ exists j, nth_error l j = Some n /\ nth_error params (i + j) = Some v)).
  { induction l as [|x l IH]; intros i n Hl.
    - exists []. split; [reflexivity|]. left. split; [intros []|reflexivity].
    - unfold relevant, pairs. cbn [length seq combine find fst].
      destruct (Nat.eqb_spec x n) as [->|Hne].
      + cbn [snd]. cbn in Hl. destruct (nth_error params i) as [v|] eqn:Hv.
        * exists v. split; [reflexivity|]. right. exists 0. rewrite Nat.add_0_r. split; [reflexivity | exact Hv].
        * apply nth_error_None in Hv. lia.
      + destruct (IH (S i) n) as (v & Hv & Hcase); [cbn in Hl; lia|].
        exists v. split; [exact Hv|]. destruct Hcase as [[Hn Hv0]|[j [Hj Hj']]].
        * left. split; [|exact Hv0]. intros [H|H]; [congruence | contradiction].
        * right. exists (S j). split; [exact Hj|]. replace (i + S j) with (S i + j) by lia. exact Hj'. }
  assert (Hrel : forall n, relevant (pairs (order g roots) 0) params n = Ok (relv n)).
  { intros n. destruct (Hrel0 (order g roots) 0 n) as (v & Hv & _); [cbn; lia|]. unfold relv. rewrite Hv. reflexivity. }
  assert (Hstored : forall i n, nth_error (order g roots) i = Some n -> nth_error params i = Some (relv n)).
  { intros i n Hn. destruct (Hrel0 (order g roots) 0 n) as (v & Hv & [[Hx _]|[j [Hj Hj']]]).
    - cbn. lia.
    - exfalso. apply Hx. apply nth_error_In in Hn. exact Hn.
    - assert (j = i). { eapply NoDup_nth_error; [apply (order_NoDup g roots) | apply nth_error_Some; congruence | congruence]. }
      subst j. unfold relv. rewrite Hv. exact Hj'. }
  assert (Hok2 : vals_ok g s2) by (intros m w; rewrite Hv2; apply Hok1).
  destruct (pdf_roots_spec g Hwf (pairs (order g roots) 0) params relv Hrel (depth roots) roots s2)
    as (s3 & qs & Hrun & Hv3 & Hvis3 & Hq).
  { intros r Hr. apply depth_lt in Hr. lia. }
  { exact Hok2. }
  exists s3, (fold_left Qmult qs 1%Q). split; [|split; [|split; [|exists relv; split; [exact Hstored|]]]].
  - unfold pdf_of_prior, bind. rewrite Hset, Hmap. cbn [fst]. rewrite Hrun. reflexivity.
  - congruence.
  - intros r n Hr Hn. rewrite Hvis3. apply (Hcl2 r n Hr Hn).
  - cbn zeta. set (paths := flat_map (E g) (flat_map (gpar g) roots)).
    assert (Hperm : Permutation (flat_map (pof g (depth roots)) (flat_map (gpar g) roots)) paths).
    { apply (pof_roots_perm g Hwf). intros p Hp. apply in_flat_map in Hp. destruct Hp as [r [Hr Hp]].
      apply (par_lt g Hwf) in Hp. apply depth_lt in Hr. lia. }
    assert (Hnone : forall m, In m paths -> cpdf s2 m = None).
    { intros m Hm. unfold paths in Hm. rewrite flat_map_flat_map in Hm. apply in_flat_map in Hm.
      destruct Hm as [r [Hr Hm]]. apply (Hcp2 r m Hr). right. apply (Anc_below g Hwf). exact Hm. }
    assert (Hcongr : forall l C C', (forall m, In m l -> C m = C' m) ->
                (contrib g (Dn g relv (val s2)) C l == contrib g (Dn g relv (val s2)) C' l)%Q).
    { induction l as [|m l IH]; intros C C' HC; cbn [contrib]; [reflexivity|].
      destruct (gkind g m); try (apply IH; intros a Ha; apply HC; right; exact Ha);
        rewrite (HC m (or_introl eq_refl)); apply Qmult_comp; try reflexivity; apply IH; intros a Ha.
      - unfold upd. destruct (a =? m); [reflexivity | apply HC; right; exact Ha].
      - apply HC. right. exact Ha. }
    rewrite fold_left_prod, Qmult_1_l, Hq.
    rewrite (Hcongr _ _ (fun _ => false)).
    2:{ intros m Hm. rewrite Hnone; [reflexivity|]. apply (Permutation_in _ Hperm). exact Hm. }
    rewrite contrib_split by reflexivity.
    rewrite Hv2. change (fun n => gdens g n (inputs_at g (val s1) n) (relv n)) with (Dn g relv (val s1)).
    apply Qmult_comp.
    + apply prodQ_perm, Permutation_map.
        apply Permutation_trans with (filter (is_cont g) (first_occ (flat_map (pof g (depth roots)) (flat_map (gpar g) roots)))).
        { rewrite (filter_ext (fun m => is_cont g m && negb false) (is_cont g)); [apply Permutation_refl|].
          intros a. apply andb_true_r. }
        apply filter_perm, first_occ_perm. intros m. split; apply Permutation_in; [exact Hperm | apply Permutation_sym; exact Hperm].
    + apply prodQ_perm, Permutation_map, filter_perm. exact Hperm.
Qed.

Lemma count_rep (c : nat -> nat) l m : NoDup l ->
  count_occ Nat.eq_dec (flat_map (fun n => repeat n (c n)) l) m = if in_dec Nat.eq_dec m l then c m else 0.
Proof.
  intros Hn. induction Hn as [|x l Hx Hn IH]; [reflexivity|]. cbn [flat_map]. rewrite count_occ_app, IH.
  destruct (Nat.eq_dec x m) as [->|Hne].
  - rewrite count_occ_repeat_eq by reflexivity. destruct (in_dec Nat.eq_dec m l); [contradiction|].
    destruct (in_dec Nat.eq_dec m (m :: l)) as [_|H]; [lia | exfalso; apply H; left; reflexivity].
  - rewrite count_occ_repeat_neq by (intros ->; contradiction). cbn [plus].
    destruct (in_dec Nat.eq_dec m l), (in_dec Nat.eq_dec m (x :: l)) as [Hi|Hi]; try reflexivity.
    + exfalso. apply Hi. right. assumption.
    + destruct Hi; contradiction.
Qed.
Lemma disc_perm paths :
  Permutation (filter (is_disc g) paths)
    (flat_map (fun n => repeat n (count_occ Nat.eq_dec paths n)) (filter (is_disc g) (first_occ paths))).
Proof.
  apply (Permutation_count_occ Nat.eq_dec). intros m.
  rewrite count_rep by (apply NoDup_filter, first_occ_NoDup). rewrite count_filter.
  destruct (in_dec Nat.eq_dec m (filter (is_disc g) (first_occ paths))) as [Hi|Hi].
  - apply filter_In in Hi. destruct Hi as [_ ->]. reflexivity.
  - destruct (is_disc g m) eqn:Hd; [|reflexivity]. apply (count_occ_not_In Nat.eq_dec).
    intros Hm. apply Hi, filter_In. split; [apply first_occ_In; exact Hm | exact Hd].
Qed.
Lemma map_rep {A B} (f : A -> B) x k : map f (repeat x k) = repeat (f x) k.
Proof. induction k as [|k IH]; [reflexivity|]. cbn. rewrite IH. reflexivity. Qed.
Lemma split_mult (D : nat -> Q) (c : nat -> nat) l :
  (prodQ (map D (filter (is_cont g) l)) * prodQ (map D (flat_map (fun n => repeat n (c n)) (filter (is_disc g) l)))
   == prodQ (flat_map (fun n => repeat (D n) (match gkind g n with Disc => c n | _ => 1 end)) (filter (is_free g) l)))%Q.
Proof.
  induction l as [|x l IH]; cbn [filter]; [reflexivity|].
  unfold is_cont at 1, is_disc at 1, is_free at 1, is_hyper, is_oper.
  destruct (gkind g x) eqn:Hk; cbn [negb andb]; try exact IH; cbn [flat_map]; rewrite Hk.
  - cbn [map repeat app prodQ fold_right]. fold (prodQ (map D (filter (is_cont g) l))).
    match goal with |- (_ == _ * fold_right Qmult 1%Q ?a)%Q => fold (prodQ a) end. rewrite <- IH. ring.
  - rewrite map_app, !prodQ_app, map_rep, <- IH. ring.
Qed.
Lemma map_combine_at {A} (f : nat -> list Q -> list A) (v : nat -> list Q) o : forall params,
  length o = length params ->
  (forall i n, nth_error o i = Some n -> nth_error params i = Some (v n)) ->
  flat_map (fun nv => f (fst nv) (snd nv)) (combine o params) = flat_map (fun n => f n (v n)) o.
Proof.
  induction o as [|n o IH]; intros [|x params] Hl H; try reflexivity; try discriminate Hl.
  cbn [combine flat_map fst snd]. f_equal.
  - specialize (H 0 n eq_refl). cbn in H. injection H as ->. reflexivity.
  - apply IH; [injection Hl as Hl; exact Hl|]. intros i m Hm. apply (H (S i) m Hm).
Qed.

Lemma pdf_exact roots params s o ls :
  indep g roots -> clean g roots s -> vals_ok g s -> ParamOrder g roots o ->
  Forall2 (Expand g) (flat_map (gpar g) roots) ls ->
  Forall2 (fun n v => length v = gdim g n) o params ->
  exists b j s1 s' q, set_parameters g roots params s = (s1, Ok (b, j))
    /\ pdf_of_prior g roots params s = (s', Ok q)
    /\ val s' = val s1 /\ clean g roots s' /\ j <= length o
    /\ (forall i n, nth_error o i = Some n -> val s' n = if i <? j then nth_error params i else val s n)
    /\ (forall n, ~ In n o -> val s' n = val s n)
    /\ (if b then j = length o
        else exists n v, nth_error o j = Some n /\ nth_error params j = Some v
                         /\ gchk_out g n (inputs_at g (val s') n) v = false)
    /\ (q == prodQ (flat_map (fun nv => repeat (gdens g (fst nv) (inputs_at g (val s') (fst nv)) (snd nv))
                (match gkind g (fst nv) with Disc => count_occ Nat.eq_dec (concat ls) (fst nv) | _ => 1 end))
              (combine o params)))%Q.
Proof.
  intros Hi Hc Hv Ho Hls Hd.
  destruct (set_outcome g Hwf roots params s o Hi Hc Hv Ho Hd) as (b & j & s1 & Hset & Hc1 & Hv1 & Hj & Hin & Hout & Hb).
  apply (ParamOrder_order g Hwf) in Ho. subst o.
  assert (Hlen : length (order g roots) = length params) by (clear - Hd; induction Hd; cbn; lia).
  destruct (pdf_of_prior_any roots params s s1 b j Hi Hc1 Hv1 ltac:(lia) Hset) as (s' & q & H & Hval & Hc' & relv & Hrel & Hq).
  exists b, j, s1, s', q. rewrite !Hval. do 8 (split; [assumption || reflexivity|]).
  cbv zeta in Hq. rewrite Hq, (expand_paths g Hwf _ _ Hls).
  set (paths := flat_map (E g) (flat_map (gpar g) roots)). set (D := fun n => gdens g n (inputs_at g (val s1) n) (relv n)).
  rewrite (prodQ_perm _ _ (Permutation_map D (disc_perm paths))), split_mult.
  rewrite (map_combine_at (fun n v => repeat (gdens g n (inputs_at g (val s1) n) v)
              (match gkind g n with Disc => count_occ Nat.eq_dec paths n | _ => 1 end)) relv _ _ Hlen Hrel).
  reflexivity.
Qed.
End WF.
