(** Proofs about the graph walks: order. *)
From Verif Require Import M_Base M_Graph S_Graph.

(** * Lists *)
Lemma memb_In n l : memb n l = true <-> In n l.
Proof.
  unfold memb. rewrite existsb_exists. split.
  - intros [x [Hx He]]. apply Nat.eqb_eq in He. subst. exact Hx.
  - intros H. exists n. split; [exact H | apply Nat.eqb_refl].
Qed.
Lemma memb_false n l : memb n l = false <-> ~ In n l.
Proof.
  rewrite <- memb_In. destruct (memb n l); split; intros H; try congruence; try (intros H'; congruence).
Qed.
Lemma memb_app n l1 l2 : memb n (l1 ++ l2) = memb n l1 || memb n l2.
Proof. unfold memb. apply existsb_app. Qed.

Lemma filter_filter {A} (f h : A -> bool) l : filter f (filter h l) = filter (fun x => h x && f x) l.
Proof.
  induction l as [|x l IH]; simpl; [reflexivity|].
  destruct (h x); simpl; [destruct (f x)|]; rewrite IH; reflexivity.
Qed.
Lemma first_occ_In n l : In n (first_occ l) <-> In n l.
Proof.
  induction l as [|x l IH]; simpl; [tauto|].
  rewrite filter_In, IH. destruct (Nat.eqb_spec n x) as [->|Hne]; simpl; split; intros H.
  - left; reflexivity.
  - left; reflexivity.
  - destruct H as [H|[H _]]; [left; exact H | right; exact H].
  - destruct H as [H|H]; [left; exact H | right; split; [exact H | reflexivity]].
Qed.
Lemma first_occ_NoDup l : NoDup (first_occ l).
Proof.
  induction l as [|x l IH]; simpl; constructor.
  - rewrite filter_In, Nat.eqb_refl. simpl. intros [_ H]. discriminate.
  - apply NoDup_filter. exact IH.
Qed.
Lemma first_occ_app l1 l2 :
  first_occ (l1 ++ l2) = first_occ l1 ++ filter (fun y => negb (memb y l1)) (first_occ l2).
Proof.
  induction l1 as [|x l1 IH]; simpl.
  - induction (first_occ l2) as [|y l IHl]; simpl; [reflexivity|]. rewrite <- IHl. reflexivity.
  - rewrite IH, filter_app, filter_filter. f_equal. f_equal.
    apply filter_ext. intros a. destruct (memb a l1); destruct (Nat.eqb a x); reflexivity.
Qed.

(** * The path expansion as a function *)
Fixpoint exf (g : graph) (fuel n : nat) : list nat :=
  match fuel with
  | 0 => []
  | S f => n :: flat_map (exf g f) (gpar g n)
  end.
Definition E (g : graph) (n : nat) : list nat := exf g (S n) n.

Section WF.
Variable g : graph.
Hypothesis Hwf : wf g.

Lemma par_lt n p : In p (gpar g n) -> p < n.
Proof. apply (proj1 Hwf). Qed.
Lemma hyper_par n : is_hyper g n = true -> gpar g n = [].
Proof. intros H. unfold gpar. rewrite (proj1 (proj2 Hwf) n H). reflexivity. Qed.

Lemma flat_map_ext_in {A B} (f h : A -> list B) l :
  (forall a, In a l -> f a = h a) -> flat_map f l = flat_map h l.
Proof.
  induction l as [|x l IH]; intros H; [reflexivity|]. cbn [flat_map].
  rewrite (H x (or_introl eq_refl)), IH; [reflexivity|]. intros a Ha. apply H. right. exact Ha.
Qed.
Lemma exf_stable f f' n : n < f -> n < f' -> exf g f n = exf g f' n.
Proof.
  revert f' n. induction f as [|f IH]; intros f' n H1 H2; [lia|].
  destruct f' as [|f']; [lia|]. cbn [exf]. f_equal. apply flat_map_ext_in.
  intros p Hp. apply par_lt in Hp. apply IH; lia.
Qed.
Lemma E_unfold n : E g n = n :: flat_map (E g) (gpar g n).
Proof.
  unfold E at 1. cbn [exf]. f_equal. apply flat_map_ext_in.
  intros p Hp. apply par_lt in Hp. apply exf_stable; lia.
Qed.
Lemma E_self n : In n (E g n).
Proof. rewrite E_unfold. left. reflexivity. Qed.

Lemma E_Anc n m : In m (E g n) <-> m = n \/ Anc g m n.
Proof.
  revert m. induction n as [n IH] using lt_wf_ind. intros m. rewrite E_unfold. simpl.
  rewrite in_flat_map. split.
  - intros [H|[p [Hp Hm]]]; [left; congruence|].
    right. apply (IH p (par_lt _ _ Hp)) in Hm. destruct Hm as [->|Hm].
    + apply anc_par. exact Hp.
    + apply anc_step with p; assumption.
  - intros [H|H]; [left; congruence|]. right. inversion H as [a k Hin | a p k Hin Ha]; subst.
    + exists m. split; [exact Hin | apply E_self].
    + exists p. split; [exact Hin|]. apply (IH p (par_lt _ _ Hin)). right. exact Ha.
Qed.
Lemma Anc_lt a n : Anc g a n -> a < n.
Proof.
  intros H. induction H as [a n H|a p n Hp H IH].
  - apply par_lt. exact H.
  - apply par_lt in Hp. lia.
Qed.
Lemma E_le n m : In m (E g n) -> m <= n.
Proof. rewrite E_Anc. intros [->|H]; [lia|]. apply Anc_lt in H. lia. Qed.
Lemma Anc_trans_par a m p : Anc g m a -> In p (gpar g m) -> Anc g p a.
Proof.
  intros H Hp. induction H as [m n H|m q n Hq H IH].
  - apply anc_step with m; [exact H | apply anc_par; exact Hp].
  - apply anc_step with q; [exact Hq | apply IH; exact Hp].
Qed.
Lemma E_closed n m p : In m (E g n) -> In p (gpar g m) -> In p (E g n).
Proof.
  rewrite !E_Anc. intros [->|H] Hp; right.
  - apply anc_par. exact Hp.
  - apply Anc_trans_par with m; assumption.
Qed.

Lemma Expand_E n l : Expand g n l <-> l = E g n.
Proof.
  revert l. induction n as [n IH] using lt_wf_ind. intros l.
  assert (Hps : forall ps ls, (forall p, In p ps -> p < n) ->
                  (Forall2 (Expand g) ps ls <-> ls = map (E g) ps)).
  { intros ps. induction ps as [|p ps IHp]; intros ls Hlt; simpl.
    - split; intros H; [inversion H; reflexivity | subst; constructor].
    - split; intros H.
      + inversion H as [|? x ? ls' Hx Hls]; subst.
        apply (IH p) in Hx; [|apply Hlt; left; reflexivity].
        apply IHp in Hls; [|intros q Hq; apply Hlt; right; exact Hq]. subst. reflexivity.
      + subst. constructor.
        * apply (IH p); [apply Hlt; left; reflexivity | reflexivity].
        * apply IHp; [intros q Hq; apply Hlt; right; exact Hq | reflexivity]. }
  split; intros H.
  - inversion H as [k ls Hls]; subst. apply Hps in Hls; [|apply par_lt]. subst.
    rewrite E_unfold, flat_map_concat_map. reflexivity.
  - subst. rewrite E_unfold, flat_map_concat_map. constructor. apply Hps; [apply par_lt | reflexivity].
Qed.

(** The order as a function. *)
Definition order (roots : list nat) : list nat :=
  filter (is_free g) (first_occ (flat_map (E g) (flat_map (gpar g) roots))).
Lemma ParamOrder_order roots o : ParamOrder g roots o <-> o = order roots.
Proof.
  unfold ParamOrder, order. split.
  - intros [ls [Hls ->]]. f_equal. f_equal. rewrite flat_map_concat_map. f_equal.
    induction Hls as [|x l xs ls Hx Hls IH]; cbn [map]; [reflexivity|].
    apply Expand_E in Hx. rewrite Hx, IH. reflexivity.
  - intros ->. exists (map (E g) (flat_map (gpar g) roots)). split.
    + induction (flat_map (gpar g) roots) as [|p ps IH]; [constructor|].
      cbn [map]. constructor; [apply Expand_E; reflexivity | exact IH].
    + rewrite flat_map_concat_map. reflexivity.
Qed.
Lemma order_In roots n :
  In n (order roots) <-> is_free g n = true /\ exists r, In r roots /\ Anc g n r.
Proof.
  unfold order. rewrite filter_In, first_occ_In, in_flat_map. split.
  - intros [[p [Hp Hn]] Hf]. split; [exact Hf|]. apply in_flat_map in Hp.
    destruct Hp as [r [Hr Hp]]. exists r. split; [exact Hr|].
    apply E_Anc in Hn. destruct Hn as [->|Hn]; [apply anc_par; exact Hp | apply anc_step with p; assumption].
  - intros [Hf [r [Hr Ha]]]. split; [|exact Hf].
    inversion Ha as [a k Hin | a p k Hin Ha']; subst.
    + exists n. split; [apply in_flat_map; exists r; split; assumption | apply E_self].
    + exists p. split; [apply in_flat_map; exists r; split; assumption|].
      apply E_Anc. right. exact Ha'.
Qed.
Lemma order_NoDup roots : NoDup (order roots).
Proof. apply NoDup_filter, first_occ_NoDup. Qed.

(** * New free nodes of a walk that starts with marks [V] *)
Definition nv (V : nat -> bool) (l : list nat) : list nat :=
  filter (fun m => is_free g m && negb (V m)) (first_occ l).
Lemma nv_ext V V' l : (forall m, In m l -> is_free g m = true -> V m = V' m) -> nv V l = nv V' l.
Proof.
  intros H. unfold nv. apply filter_ext_in. intros a Ha. apply (proj1 (first_occ_In a l)) in Ha.
  destruct (is_free g a) eqn:Hf; simpl; [rewrite (H a Ha Hf); reflexivity | reflexivity].
Qed.
Lemma nv_app V V' l1 l2 :
  (forall m, In m l2 -> is_free g m = true -> V' m = V m || memb m l1) ->
  nv V (l1 ++ l2) = nv V l1 ++ nv V' l2.
Proof.
  intros H. unfold nv. rewrite first_occ_app, filter_app. f_equal. rewrite filter_filter.
  apply filter_ext_in. intros a Ha. apply (proj1 (first_occ_In a l2)) in Ha.
  destruct (is_free g a) eqn:Hf; simpl; [|apply andb_false_r].
  rewrite (H a Ha Hf). destruct (memb a l1), (V a); reflexivity.
Qed.
Lemma filter_none {A} (f : A -> bool) l : (forall a, In a l -> f a = false) -> filter f l = [].
Proof.
  induction l as [|x l IH]; intros H; [reflexivity|]. cbn [filter].
  rewrite (H x (or_introl eq_refl)). apply IH. intros a Ha. apply H. right. exact Ha.
Qed.
Lemma filter_all {A} (f : A -> bool) l : (forall a, In a l -> f a = true) -> filter f l = l.
Proof.
  induction l as [|x l IH]; intros H; [reflexivity|]. cbn [filter].
  rewrite (H x (or_introl eq_refl)). f_equal. apply IH. intros a Ha. apply H. right. exact Ha.
Qed.
Lemma nv_none V l : (forall m, In m l -> is_free g m = true -> V m = true) -> nv V l = [].
Proof.
  intros H. unfold nv. apply filter_none. intros a Ha. apply (proj1 (first_occ_In a l)) in Ha.
  destruct (is_free g a) eqn:Hf; simpl; [rewrite (H a Ha Hf); reflexivity | reflexivity].
Qed.
Lemma nv_cons V n l :
  ~ In n l ->
  nv V (n :: l) = (if is_free g n && negb (V n) then [n] else []) ++ nv V l.
Proof.
  intros Hn. unfold nv. simpl first_occ. cbn [filter].
  assert (Hf : filter (fun y => negb (y =? n)) (first_occ l) = first_occ l).
  { apply filter_all. intros a Ha. apply (proj1 (first_occ_In a l)) in Ha.
    destruct (Nat.eqb_spec a n) as [->|Hne]; [contradiction | reflexivity]. }
  rewrite Hf. destruct (is_free g n && negb (V n)); reflexivity.
Qed.

(** Marks are closed under inputs, for the nodes of [l]. *)
Definition closed (l : list nat) (V : nat -> bool) : Prop :=
  forall m p, In m l -> V m = true -> In p (gpar g m) -> is_hyper g p = false -> V p = true.
Definition marks (V V' : nat -> bool) (l : list nat) : Prop :=
  forall m, is_hyper g m = false -> V' m = V m || memb m l.
(** a list of nodes that contains the inputs of its members *)
Definition down (l : list nat) : Prop := forall m p, In m l -> In p (gpar g m) -> In p l.
Lemma down_E n : down (E g n).
Proof. intros m p. apply E_closed. Qed.
Lemma down_EE ps : down (flat_map (E g) ps).
Proof.
  intros m p Hm Hp. apply in_flat_map in Hm. destruct Hm as [q [Hq Hm]].
  apply in_flat_map. exists q. split; [exact Hq | apply E_closed with m; assumption].
Qed.
Lemma down_sub l n : down l -> In n l -> incl (E g n) l.
Proof.
  intros Hd. induction n as [n IH] using lt_wf_ind. intros Hn m Hm. rewrite E_unfold in Hm.
  destruct Hm as [->|Hm]; [exact Hn|]. apply in_flat_map in Hm. destruct Hm as [p [Hp Hm]].
  apply (IH p (par_lt _ _ Hp)); [apply Hd with n; assumption | exact Hm].
Qed.

Lemma closed_E l V n m :
  down l -> closed l V -> In n l -> V n = true -> In m (E g n) -> is_hyper g m = false -> V m = true.
Proof.
  intros Hd Hc. revert m. induction n as [n IH] using lt_wf_ind. intros m Hn HV Hm Hh.
  rewrite E_unfold in Hm. destruct Hm as [->|Hm]; [exact HV|].
  apply in_flat_map in Hm. destruct Hm as [p [Hp Hm]].
  destruct (is_hyper g p) eqn:Hhp.
  - rewrite E_unfold, (hyper_par p Hhp) in Hm. simpl in Hm. destruct Hm as [->|[]]. congruence.
  - apply (IH p (par_lt _ _ Hp)); [apply Hd with n; assumption | | exact Hm | exact Hh].
    apply (Hc n p); assumption.
Qed.
Lemma closed_marks l V V' l2 :
  down l2 -> closed l V -> marks V V' l2 -> closed l V'.
Proof.
  intros Hd Hc Hm m p Hmk HV Hp Hh.
  rewrite (Hm p Hh). destruct (is_hyper g m) eqn:Hhm.
  { rewrite (hyper_par m Hhm) in Hp. destruct Hp. }
  rewrite (Hm m Hhm) in HV. apply orb_true_iff in HV. destruct HV as [HV|HV].
  - rewrite (Hc m p Hmk HV Hp Hh). reflexivity.
  - apply orb_true_iff. right. apply memb_In. apply memb_In in HV. apply Hd with m; assumption.
Qed.
Lemma closed_mono l l' V : incl l' l -> closed l V -> closed l' V.
Proof. intros H Hc m p Hm. apply Hc. apply H. exact Hm. Qed.
Lemma incl_EE p ps : In p ps -> incl (E g p) (flat_map (E g) ps).
Proof. intros H m Hm. apply in_flat_map. exists p. split; assumption. Qed.
Lemma incl_EE_par n : incl (flat_map (E g) (gpar g n)) (E g n).
Proof. intros m Hm. rewrite E_unfold. right. exact Hm. Qed.
Lemma marks_refl V : marks V V [].
Proof. intros m _. simpl. rewrite orb_false_r. reflexivity. Qed.
Lemma marks_trans V1 V2 V3 l1 l2 : marks V1 V2 l1 -> marks V2 V3 l2 -> marks V1 V3 (l1 ++ l2).
Proof. intros H1 H2 m Hm. rewrite (H2 m Hm), (H1 m Hm), memb_app, orb_assoc. reflexivity. Qed.
Lemma marks_upd V V' l n : marks V V' l -> In n l -> marks V (upd V' n true) l.
Proof.
  intros H Hn m Hm. unfold upd. destruct (Nat.eqb_spec m n) as [->|Hne]; [|apply H; exact Hm].
  apply memb_In in Hn. rewrite Hn, orb_true_r. reflexivity.
Qed.
Lemma marks_cons V V' l n : marks V V' l -> marks V (upd V' n true) (n :: l).
Proof.
  intros H m Hm. unfold upd, memb. simpl. destruct (Nat.eqb_spec m n) as [->|Hne]; simpl.
  - rewrite orb_true_r. reflexivity.
  - apply H. exact Hm.
Qed.
Lemma free_not_hyper m : is_free g m = true -> is_hyper g m = false.
Proof. unfold is_free. destruct (is_hyper g m); simpl; [discriminate | reflexivity]. Qed.
Lemma marks_free V V' l l2 : marks V V' l -> forall m, In m l2 -> is_free g m = true -> V' m = V m || memb m l.
Proof. intros H m _ Hm. apply H. apply free_not_hyper. exact Hm. Qed.

(** E never contains n below n. *)
Lemma not_below n : ~ In n (flat_map (E g) (gpar g n)).
Proof.
  intros H. apply in_flat_map in H. destruct H as [p [Hp H]]. apply E_le in H. apply par_lt in Hp. lia.
Qed.

(** Two states that differ only in their marks. *)
Definition same (s s' : st) : Prop :=
  val s' = val s /\ cpdf s' = cpdf s /\ ctr s' = ctr s /\ tr s' = tr s.
Lemma same_refl s : same s s.
Proof. repeat split. Qed.
Lemma same_trans s1 s2 s3 : same s1 s2 -> same s2 s3 -> same s1 s3.
Proof. unfold same. intros (A&B&C&D) (A'&B'&C'&D'). repeat split; congruence. Qed.

(** * _get_mapping *)
Definition pairs (l : list nat) (i : nat) : list (nat * nat) := combine l (seq i (length l)).
Lemma pairs_app l1 l2 i : pairs (l1 ++ l2) i = pairs l1 i ++ pairs l2 (i + length l1).
Proof.
  unfold pairs. revert i. induction l1 as [|x l1 IH]; intros i; cbn [app length seq combine].
  - rewrite Nat.add_0_r. reflexivity.
  - rewrite IH. do 4 f_equal. lia.
Qed.

Lemma mapping_node_eq f n idx :
  mapping_node g (S f) n idx =
  (v <- get_vis n ;;
   let here := if negb v && is_free g n then [(n, idx)] else [] in
   let idx1 := if negb v && is_free g n then S idx else idx in
   r <- mapping_loop (mapping_node g f) (gpar g n) idx1 ;;
   set_vis n true ;;;
   ret (here ++ fst r, snd r)).
Proof. reflexivity. Qed.

Lemma mapping_loop_spec f :
  (forall n idx s, n < f -> closed (E g n) (vis s) ->
     exists s', mapping_node g f n idx s
                = (s', Ok (pairs (nv (vis s) (E g n)) idx, idx + length (nv (vis s) (E g n))))
                /\ same s s' /\ marks (vis s) (vis s') (E g n)) ->
  forall ps idx s, (forall p, In p ps -> p < f) -> closed (flat_map (E g) ps) (vis s) ->
    exists s', mapping_loop (mapping_node g f) ps idx s
               = (s', Ok (pairs (nv (vis s) (flat_map (E g) ps)) idx,
                          idx + length (nv (vis s) (flat_map (E g) ps))))
               /\ same s s' /\ marks (vis s) (vis s') (flat_map (E g) ps).
Proof.
  intros Hnode ps. induction ps as [|p ps IH]; intros idx s Hlt Hc.
  - exists s. simpl. rewrite Nat.add_0_r. repeat split. apply marks_refl.
  - destruct (Hnode p idx s) as (s1 & Hs1 & Hsame1 & Hm1);
      [apply Hlt; left; reflexivity
      | apply closed_mono with (flat_map (E g) (p :: ps)); [apply incl_EE; left; reflexivity | exact Hc] |].
    set (s2 := fst (set_vis p true s1)).
    assert (Hm2 : marks (vis s) (vis s2) (E g p)).
    { unfold s2. simpl. apply marks_upd; [exact Hm1 | apply E_self]. }
    assert (Hsame2 : same s s2).
    { apply same_trans with s1; [exact Hsame1|]. repeat split. }
    assert (Hc2 : closed (flat_map (E g) ps) (vis s2)).
    { apply closed_mono with (flat_map (E g) (p :: ps)); [cbn [flat_map]; intros m Hm; apply in_or_app; right; exact Hm|].
      apply closed_marks with (vis s) (E g p); [apply down_E | exact Hc | exact Hm2]. }
    destruct (IH (idx + length (nv (vis s) (E g p))) s2) as (s3 & Hs3 & Hsame3 & Hm3);
      [intros q Hq; apply Hlt; right; exact Hq | exact Hc2 |].
    exists s3. split; [|split].
    + cbn [mapping_loop flat_map]. unfold bind. rewrite Hs1. cbn [snd fst].
      change (set_vis p true s1) with (s2, @Ok unit tt). cbn iota beta.
      rewrite Hs3. unfold ret. cbn [fst snd].
      rewrite (nv_app (vis s) (vis s2) (E g p) (flat_map (E g) ps)); [|apply marks_free; exact Hm2].
      rewrite pairs_app, app_length, Nat.add_assoc. reflexivity.
    + apply same_trans with s2; assumption.
    + apply marks_trans with (vis s2); assumption.
Qed.

Lemma nv_E V n :
  nv V (E g n) = (if is_free g n && negb (V n) then [n] else []) ++ nv V (flat_map (E g) (gpar g n)).
Proof. rewrite E_unfold, nv_cons; [reflexivity | apply not_below]. Qed.

Lemma mapping_node_spec f :
  forall n idx s, n < f -> closed (E g n) (vis s) ->
     exists s', mapping_node g f n idx s
                = (s', Ok (pairs (nv (vis s) (E g n)) idx, idx + length (nv (vis s) (E g n))))
                /\ same s s' /\ marks (vis s) (vis s') (E g n).
Proof.
  induction f as [|f IHf]; intros n idx s Hn Hc; [lia|].
  rewrite mapping_node_eq. unfold bind, get_vis. cbn [fst snd].
  set (b := negb (vis s n) && is_free g n).
  destruct (mapping_loop_spec f IHf (gpar g n) (if b then S idx else idx) s)
    as (s1 & Hs1 & Hsame1 & Hm1);
    [intros p Hp; apply par_lt in Hp; lia | apply closed_mono with (E g n); [apply incl_EE_par | exact Hc] |].
  rewrite Hs1. unfold ret. cbn [fst snd].
  assert (Hnv : nv (vis s) (E g n) = (if b then [n] else []) ++ nv (vis s) (flat_map (E g) (gpar g n))).
  { rewrite nv_E. unfold b. rewrite andb_comm. reflexivity. }
  eexists. split; [|split].
  - unfold set_vis. f_equal. f_equal. rewrite Hnv. rewrite pairs_app, app_length.
    destruct b; simpl; f_equal; try (f_equal; f_equal; lia); try lia.
  - apply same_trans with s1; [exact Hsame1 | repeat split].
  - cbn [vis]. rewrite E_unfold. apply marks_cons. exact Hm1.
Qed.

(** * Resetting the flags *)
Definition cleared (s s' : st) (l : list nat) : Prop :=
  (forall m, vis s' m = vis s m && negb (memb m l))
  /\ (forall m, cpdf s' m = if memb m l then None else cpdf s m)
  /\ val s' = val s /\ ctr s' = ctr s /\ tr s' = tr s.
Lemma cleared_nil s : cleared s s [].
Proof. repeat split; intros m; simpl; rewrite ?andb_true_r; reflexivity. Qed.
Lemma cleared_trans s1 s2 s3 l1 l2 : cleared s1 s2 l1 -> cleared s2 s3 l2 -> cleared s1 s3 (l1 ++ l2).
Proof.
  intros (A1&B1&C1&D1&E1) (A2&B2&C2&D2&E2). repeat split; try congruence; intros m.
  - rewrite A2, A1, memb_app. destruct (memb m l1), (memb m l2), (vis s1 m); reflexivity.
  - rewrite B2, B1, memb_app. destruct (memb m l1), (memb m l2); reflexivity.
Qed.
Lemma cleared_perm s s' l l' : (forall m, In m l <-> In m l') -> cleared s s' l -> cleared s s' l'.
Proof.
  intros H. assert (Hm : forall m, memb m l' = memb m l).
  { intros m. destruct (memb m l) eqn:Hml.
    - apply memb_In, H, memb_In. exact Hml.
    - apply memb_false. apply memb_false in Hml. intros Hx. apply Hml, H, Hx. }
  intros (A&B&C&D&F). repeat split; try assumption; intros m; rewrite Hm; auto.
Qed.
Lemma reset_loop_spec f :
  (forall n s, n < f -> exists s', reset_node g f n s = (s', Ok tt) /\ cleared s s' (E g n)) ->
  forall ps s, (forall p, In p ps -> p < f) ->
    exists s', forM_ (reset_node g f) ps s = (s', Ok tt) /\ cleared s s' (flat_map (E g) ps).
Proof.
  intros Hnode ps. induction ps as [|p ps IH]; intros s Hlt.
  - exists s. split; [reflexivity | apply cleared_nil].
  - destruct (Hnode p s) as (s1 & Hs1 & Hc1); [apply Hlt; left; reflexivity|].
    destruct (IH s1) as (s2 & Hs2 & Hc2); [intros q Hq; apply Hlt; right; exact Hq|].
    exists s2. split.
    + cbn [forM_]. unfold bind. rewrite Hs1, Hs2. reflexivity.
    + cbn [flat_map]. apply cleared_trans with s1; assumption.
Qed.
Lemma reset_node_spec f :
  forall n s, n < f -> exists s', reset_node g f n s = (s', Ok tt) /\ cleared s s' (E g n).
Proof.
  induction f as [|f IHf]; intros n s Hn; [lia|].
  destruct (reset_loop_spec f IHf (gpar g n) s) as (s1 & Hs1 & Hc1);
    [intros p Hp; apply par_lt in Hp; lia|].
  eexists. split.
  - cbn [reset_node]. unfold bind. rewrite Hs1. reflexivity.
  - apply cleared_perm with (flat_map (E g) (gpar g n) ++ [n]).
    { intros m. rewrite in_app_iff, (E_unfold n). simpl. tauto. }
    apply cleared_trans with s1; [exact Hc1|].
    repeat split; intros m; cbn; unfold upd; destruct (m =? n); cbn;
      rewrite ?andb_false_r, ?andb_true_r; reflexivity.
Qed.
Lemma depth_lt roots r : In r roots -> r < depth roots.
Proof.
  intros H. unfold depth. assert (r <= list_max roots); [|lia].
  pose proof (proj1 (list_max_le roots (list_max roots)) (le_n _)) as HF.
  rewrite Forall_forall in HF. apply HF. exact H.
Qed.
Lemma reset_flags_spec roots s :
  exists s', reset_flags g roots s = (s', Ok tt) /\ cleared s s' (flat_map (E g) roots).
Proof.
  apply reset_loop_spec; [apply reset_node_spec | intros p; apply depth_lt].
Qed.

(** * Roots *)
Definition rootsep (rs : list nat) : Prop :=
  forall r r', In r rs -> In r' rs -> ~ In r (flat_map (E g) (gpar g r')).
Lemma Anc_below n m : Anc g m n <-> In m (flat_map (E g) (gpar g n)).
Proof.
  rewrite in_flat_map. split.
  - intros H. inversion H as [a k Hin|a p k Hin Ha]; subst.
    + exists m. split; [exact Hin | apply E_self].
    + exists p. split; [exact Hin | apply E_Anc; right; exact Ha].
  - intros [p [Hp H]]. apply E_Anc in H. destruct H as [->|H].
    + apply anc_par. exact Hp.
    + apply anc_step with p; assumption.
Qed.
Lemma indep_rootsep roots : indep g roots -> rootsep roots.
Proof. intros H r r' Hr Hr' Hin. apply (H r r' Hr Hr'). apply Anc_below. exact Hin. Qed.
Lemma rootsep_cons r rs : rootsep (r :: rs) ->
  ~ In r (flat_map (E g) (flat_map (gpar g) rs)) /\ rootsep rs.
Proof.
  intros H. split.
  - intros Hin. apply in_flat_map in Hin. destruct Hin as [p [Hp Hin]].
    apply in_flat_map in Hp. destruct Hp as [r' [Hr' Hp]].
    apply (H r r'); [left; reflexivity | right; exact Hr' |].
    apply in_flat_map. exists p. split; assumption.
  - intros a b Ha Hb. apply H; right; assumption.
Qed.
Lemma flat_map_flat_map {A B C} (f : B -> list C) (h : A -> list B) l :
  flat_map f (flat_map h l) = flat_map (fun a => flat_map f (h a)) l.
Proof.
  induction l as [|x l IH]; [reflexivity|]. cbn [flat_map]. rewrite flat_map_app, IH. reflexivity.
Qed.
Lemma nv_roots V V' r rs :
  ~ In r (flat_map (E g) (flat_map (gpar g) rs)) -> marks V V' (E g r) ->
  nv V (flat_map (E g) (gpar g r)) ++ nv V' (flat_map (E g) (flat_map (gpar g) rs))
  = nv V (flat_map (E g) (flat_map (gpar g) (r :: rs))).
Proof.
  intros Hr Hm. cbn [flat_map]. rewrite flat_map_app. symmetry. apply nv_app.
  intros m Hin Hf. rewrite (Hm m (free_not_hyper m Hf)), E_unfold.
  cbn [memb existsb]. destruct (Nat.eqb_spec m r) as [->|]; [contradiction | reflexivity].
Qed.
Lemma nv_clean V l : (forall m, In m l -> V m = false) -> nv V l = filter (is_free g) (first_occ l).
Proof.
  intros H. unfold nv. apply filter_ext_in. intros a Ha. apply (proj1 (first_occ_In a l)) in Ha.
  rewrite (H a Ha). apply andb_true_r.
Qed.
Lemma clean_E roots s m : clean g roots s -> In m (flat_map (E g) roots) -> vis s m = false.
Proof.
  intros H Hm. apply in_flat_map in Hm. destruct Hm as [r [Hr Hm]]. apply (H r m Hr). apply E_Anc. exact Hm.
Qed.
Lemma clean_closed roots s : clean g roots s -> closed (flat_map (E g) roots) (vis s).
Proof. intros H m p Hm HV. rewrite (clean_E roots s m H Hm) in HV. discriminate. Qed.
Lemma incl_roots roots : incl (flat_map (E g) (flat_map (gpar g) roots)) (flat_map (E g) roots).
Proof.
  intros m Hm. rewrite flat_map_flat_map in Hm. apply in_flat_map in Hm. destruct Hm as [r [Hr Hm]].
  apply in_flat_map. exists r. split; [exact Hr | apply incl_EE_par; exact Hm].
Qed.
Lemma nv_order roots s : clean g roots s ->
  nv (vis s) (flat_map (E g) (flat_map (gpar g) roots)) = order roots.
Proof.
  intros H. apply nv_clean. intros m Hm. apply (clean_E roots s m H). apply incl_roots. exact Hm.
Qed.
Lemma closed_tl r rs V : closed (flat_map (E g) (r :: rs)) V -> closed (flat_map (E g) rs) V.
Proof. apply closed_mono. cbn [flat_map]. intros m Hm. apply in_or_app. right. exact Hm. Qed.
Lemma closed_hd r rs V : closed (flat_map (E g) (r :: rs)) V -> closed (E g r) V.
Proof. apply closed_mono. apply incl_EE. left. reflexivity. Qed.
Lemma closed_par n V : closed (E g n) V -> closed (flat_map (E g) (gpar g n)) V.
Proof. apply closed_mono. apply incl_EE_par. Qed.

Lemma mapping_roots_spec f :
  forall rs idx s, (forall r, In r rs -> r < S f) -> rootsep rs -> closed (flat_map (E g) rs) (vis s) ->
    exists s', mapping_roots g f rs idx s
      = (s', Ok (pairs (nv (vis s) (flat_map (E g) (flat_map (gpar g) rs))) idx,
                 idx + length (nv (vis s) (flat_map (E g) (flat_map (gpar g) rs)))))
      /\ same s s'.
Proof.
  induction rs as [|r rs IH]; intros idx s Hlt Hsep Hc.
  - exists s. split; [|repeat split]. cbn. rewrite Nat.add_0_r. reflexivity.
  - destruct (mapping_loop_spec f (mapping_node_spec f) (gpar g r) idx s) as (s1 & Hs1 & Hsame1 & Hm1).
    { intros p Hp. apply par_lt in Hp. specialize (Hlt r (or_introl eq_refl)). lia. }
    { apply closed_par, (closed_hd r rs). exact Hc. }
    set (s2 := fst (set_vis r true s1)).
    assert (Hm2 : marks (vis s) (vis s2) (E g r)) by (rewrite E_unfold; apply marks_cons; exact Hm1).
    destruct (rootsep_cons _ _ Hsep) as [Hr Hsep'].
    destruct (IH (idx + length (nv (vis s) (flat_map (E g) (gpar g r)))) s2) as (s3 & Hs3 & Hsame3).
    { intros q Hq. apply Hlt. right. exact Hq. }
    { exact Hsep'. }
    { apply closed_marks with (vis s) (E g r); [apply down_E | apply (closed_tl r); exact Hc | exact Hm2]. }
    exists s3. split.
    + cbn [mapping_roots]. unfold bind. rewrite Hs1. cbn [fst snd].
      change (set_vis r true s1) with (s2, @Ok unit tt). cbn iota beta. rewrite Hs3. unfold ret. cbn [fst snd].
      rewrite <- (nv_roots (vis s) (vis s2) r rs Hr Hm2), pairs_app, app_length, Nat.add_assoc. reflexivity.
    + apply same_trans with s1; [exact Hsame1|]. apply same_trans with s2; [repeat split | exact Hsame3].
Qed.

(** What an operation on the graph of [roots] leaves behind, apart from stored values. *)
Definition tidy (roots : list nat) (s s' : st) : Prop :=
  clean g roots s' /\ (forall r m, In r roots -> m = r \/ Anc g m r -> cpdf s' m = None)
  /\ ctr s' = ctr s /\ tr s' = tr s.
Lemma cleared_tidy roots s s1 s' :
  ctr s1 = ctr s -> tr s1 = tr s ->
  cleared s1 s' (flat_map (E g) roots) -> tidy roots s s' /\ val s' = val s1.
Proof.
  intros Hc Ht (A&B&C&D&F). split; [|exact C]. repeat split; try congruence.
  - intros r n Hr Hn. apply E_Anc in Hn. rewrite A.
    assert (Hin : memb n (flat_map (E g) roots) = true)
      by (apply memb_In, in_flat_map; exists r; split; assumption).
    rewrite Hin. apply andb_false_r.
  - intros r m Hr Hm. apply E_Anc in Hm. rewrite B.
    assert (Hin : memb m (flat_map (E g) roots) = true)
      by (apply memb_In, in_flat_map; exists r; split; assumption).
    rewrite Hin. reflexivity.
Qed.

Lemma get_mapping_spec roots s : indep g roots -> clean g roots s ->
  exists s', get_mapping g roots s = (s', Ok (pairs (order roots) 0, length (order roots)))
             /\ tidy roots s s' /\ val s' = val s.
Proof.
  intros Hi Hcl.
  destruct (mapping_roots_spec (depth roots) roots 0 s) as (s1 & Hs1 & Hsame).
  { intros r Hr. apply depth_lt in Hr. lia. }
  { apply indep_rootsep. exact Hi. }
  { apply clean_closed. exact Hcl. }
  destruct (reset_flags_spec roots s1) as (s2 & Hs2 & Hcd).
  exists s2. destruct Hsame as (Hv&Hp&Hct&Htr).
  destruct (cleared_tidy roots s s1 s2 Hct Htr Hcd) as [Ht Hval].
  split; [|split; [exact Ht | congruence]].
  unfold get_mapping, bind. rewrite Hs1, Hs2. unfold ret. rewrite nv_order by exact Hcl. reflexivity.
Qed.

(** * get_parameters *)
Lemma closed_ext l V V' : down l -> (forall m, In m l -> V' m = V m) -> closed l V -> closed l V'.
Proof.
  intros Hd He Hc m p Hm HV Hp Hh. rewrite He in HV by exact Hm.
  rewrite He by (apply Hd with m; assumption). apply (Hc m p); assumption.
Qed.
Lemma marks_skip l V p : down l -> closed l V -> In p l -> V p = true -> marks V V (E g p).
Proof.
  intros Hd Hc Hp HV m Hh. destruct (memb m (E g p)) eqn:Hm; [|rewrite orb_false_r; reflexivity].
  apply memb_In in Hm. rewrite (closed_E l V p m Hd Hc Hp HV Hm Hh). reflexivity.
Qed.
Lemma nv_skip l V p : down l -> closed l V -> In p l -> V p = true -> nv V (E g p) = [].
Proof.
  intros Hd Hc Hp HV. apply nv_none. intros m Hm Hf.
  apply (closed_E l V p m Hd Hc Hp HV Hm). apply free_not_hyper. exact Hf.
Qed.
Lemma In_hd p ps : In p (flat_map (E g) (p :: ps)).
Proof. cbn [flat_map]. apply in_or_app. left. apply E_self. Qed.
Lemma marks_ext V W W' l : (forall m, W' m = W m) -> marks V W l -> marks V W' l.
Proof. intros H Hm m Hh. rewrite H. apply Hm. exact Hh. Qed.

Lemma getp_loop_spec f :
  (forall n s, n < f -> vis s n = false -> closed (E g n) (vis s) ->
     exists s', getp_node g f n s = (s', Ok (map (val s) (nv (vis s) (E g n))))
                /\ same s s' /\ marks (vis s) (upd (vis s') n true) (E g n)) ->
  forall ps s, (forall p, In p ps -> p < f) -> closed (flat_map (E g) ps) (vis s) ->
    exists s', getp_loop (getp_node g f) ps s = (s', Ok (map (val s) (nv (vis s) (flat_map (E g) ps))))
               /\ same s s' /\ marks (vis s) (vis s') (flat_map (E g) ps).
Proof.
  intros Hnode ps. induction ps as [|p ps IH]; intros s Hlt Hc.
  - exists s. repeat split. apply marks_refl.
  - assert (Hstep : exists s2, (v <- get_vis p ;;
        (if negb v then x <- getp_node g f p ;; set_vis p true ;;; ret x else ret [])) s
        = (s2, Ok (map (val s) (nv (vis s) (E g p)))) /\ same s s2 /\ marks (vis s) (vis s2) (E g p)).
    { unfold bind, get_vis. destruct (vis s p) eqn:Hv; cbn [negb].
      - exists s. split; [|split; [repeat split|]].
        + rewrite (nv_skip (flat_map (E g) (p :: ps))); [reflexivity | apply down_EE | exact Hc | apply In_hd | exact Hv].
        + apply (marks_skip (flat_map (E g) (p :: ps))); [apply down_EE | exact Hc | apply In_hd | exact Hv].
      - destruct (Hnode p s) as (s1 & Hs1 & Hsame1 & Hm1);
          [apply Hlt; left; reflexivity | exact Hv | apply (closed_hd p ps); exact Hc |].
        rewrite Hs1. unfold set_vis, ret. eexists. split; [reflexivity|].
        split; [|exact Hm1]. apply same_trans with s1; [exact Hsame1 | repeat split]. }
    destruct Hstep as (s2 & Hs2 & Hsame2 & Hm2).
    destruct (IH s2) as (s3 & Hs3 & Hsame3 & Hm3).
    { intros q Hq. apply Hlt. right. exact Hq. }
    { apply closed_marks with (vis s) (E g p); [apply down_E | apply (closed_tl p); exact Hc | exact Hm2]. }
    exists s3. split; [|split].
    + cbn [getp_loop flat_map]. unfold bind in Hs2 |- *. unfold get_vis in *.
      rewrite Hs2, Hs3. unfold ret.
      rewrite (nv_app (vis s) (vis s2) (E g p) (flat_map (E g) ps)); [|apply marks_free; exact Hm2].
      rewrite map_app. destruct Hsame2 as (Hval & _). rewrite Hval. reflexivity.
    + apply same_trans with s2; assumption.
    + cbn [flat_map]. apply marks_trans with (vis s2); assumption.
Qed.

Lemma upd_upd {A} (V : nat -> A) n a b m : upd (upd V n a) n b m = upd V n b m.
Proof. unfold upd. destruct (m =? n); reflexivity. Qed.
Lemma upd_same {A} (V : nat -> A) n m : upd V n (V n) m = V m.
Proof. unfold upd. destruct (Nat.eqb_spec m n) as [->|]; reflexivity. Qed.
(** marking n first, then walking its inputs *)
Lemma marks_pre V V' n : marks (upd V n true) V' (flat_map (E g) (gpar g n)) -> marks V V' (E g n).
Proof.
  intros H m Hh. rewrite (H m Hh), E_unfold. cbn [memb existsb]. unfold upd.
  destruct (Nat.eqb_spec m n) as [->|]; simpl; [rewrite orb_true_r; reflexivity | reflexivity].
Qed.
Lemma closed_pre V n b : closed (E g n) V -> closed (flat_map (E g) (gpar g n)) (upd V n b).
Proof.
  intros Hc. apply closed_ext with V; [apply down_EE | | apply closed_par; exact Hc].
  intros m Hm. unfold upd. destruct (Nat.eqb_spec m n) as [->|]; [|reflexivity].
  exfalso. exact (not_below n Hm).
Qed.
Lemma nv_pre V n b : nv (upd V n b) (flat_map (E g) (gpar g n)) = nv V (flat_map (E g) (gpar g n)).
Proof.
  apply nv_ext. intros m Hm _. unfold upd. destruct (Nat.eqb_spec m n) as [->|]; [|reflexivity].
  exfalso. exact (not_below n Hm).
Qed.

Lemma getp_node_spec f :
  forall n s, n < f -> vis s n = false -> closed (E g n) (vis s) ->
     exists s', getp_node g f n s = (s', Ok (map (val s) (nv (vis s) (E g n))))
                /\ same s s' /\ marks (vis s) (upd (vis s') n true) (E g n).
Proof.
  induction f as [|f IHf]; intros n s Hn Hv Hc; [lia|].
  rewrite nv_E, Hv. cbn [getp_node negb]. rewrite andb_true_r.
  assert (Hlt : forall p, In p (gpar g n) -> p < f) by (intros p Hp; apply par_lt in Hp; lia).
  destruct (is_free g n) eqn:Hf.
  - set (s0 := fst (set_vis n true s)).
    destruct (getp_loop_spec f IHf (gpar g n) s0 Hlt) as (s1 & Hs1 & Hsame1 & Hm1).
    { apply closed_pre. exact Hc. }
    exists s1. split; [|split].
    + unfold bind, get_val. change (set_vis n true s) with (s0, @Ok unit tt). cbn iota beta.
      unfold ret. rewrite Hs1. rewrite map_app. unfold s0. cbn [set_vis fst vis val].
      rewrite nv_pre. reflexivity.
    + apply same_trans with s0; [repeat split | exact Hsame1].
    + assert (H : marks (vis s) (vis s1) (E g n)) by (apply marks_pre; exact Hm1).
      apply marks_upd; [exact H | apply E_self].
  - destruct (getp_loop_spec f IHf (gpar g n) s Hlt) as (s1 & Hs1 & Hsame1 & Hm1);
      [apply closed_par; exact Hc|].
    exists s1. split; [|split; [exact Hsame1|]].
    + unfold bind, ret. rewrite Hs1. reflexivity.
    + rewrite E_unfold. apply marks_cons. exact Hm1.
Qed.

Lemma getp_roots_spec f :
  forall rs s, (forall r, In r rs -> r < S f) -> closed (flat_map (E g) rs) (vis s) ->
    exists s' l, forM (fun r => getp_loop (getp_node g f) (gpar g r)) rs s = (s', Ok l)
      /\ concat l = map (val s) (nv (vis s) (flat_map (E g) (flat_map (gpar g) rs)))
      /\ same s s'.
Proof.
  induction rs as [|r rs IH]; intros s Hlt Hc.
  - exists s, []. repeat split.
  - destruct (getp_loop_spec f (getp_node_spec f) (gpar g r) s) as (s1 & Hs1 & Hsame1 & Hm1).
    { intros p Hp. apply par_lt in Hp. specialize (Hlt r (or_introl eq_refl)). lia. }
    { apply closed_par, (closed_hd r rs). exact Hc. }
    destruct (IH s1) as (s2 & l & Hs2 & Hl & Hsame2).
    { intros q Hq. apply Hlt. right. exact Hq. }
    { apply closed_marks with (vis s) (flat_map (E g) (gpar g r));
        [apply down_EE | apply (closed_tl r); exact Hc | exact Hm1]. }
    exists s2. eexists. split; [|split].
    + cbn [forM]. unfold bind. rewrite Hs1, Hs2. reflexivity.
    + cbn [concat flat_map]. rewrite flat_map_app, Hl.
      rewrite (nv_app (vis s) (vis s1)); [|apply marks_free; exact Hm1].
      rewrite map_app. destruct Hsame1 as (Hv1 & _). rewrite Hv1. reflexivity.
    + apply same_trans with s1; assumption.
Qed.
Lemma get_parameters_spec roots s : clean g roots s ->
  exists s', get_parameters g roots s = (s', Ok (map (val s) (order roots)))
             /\ tidy roots s s' /\ val s' = val s.
Proof.
  intros Hcl.
  destruct (getp_roots_spec (depth roots) roots s) as (s1 & l & Hs1 & Hl & Hsame).
  { intros r Hr. apply depth_lt in Hr. lia. }
  { apply clean_closed. exact Hcl. }
  destruct (reset_flags_spec roots s1) as (s2 & Hs2 & Hcd).
  exists s2. destruct Hsame as (Hv&Hp&Hct&Htr).
  destruct (cleared_tidy roots s s1 s2 Hct Htr Hcd) as [Ht Hval].
  split; [|split; [exact Ht | congruence]].
  unfold get_parameters, bind. rewrite Hs1, Hs2. unfold ret. rewrite Hl, nv_order by exact Hcl. reflexivity.
Qed.

(** * get_correct_ordering *)
Section Ordering.
Context {A : Type}.
Variable pm : list (nat * list A).
Hypothesis Hpm : forall n, is_free g n = false -> lookup_params pm n = [].
Lemma order_loop_spec f :
  (forall n s, n < f -> closed (E g n) (vis s) ->
     exists s', order_node g pm f n s = (s', Ok (flat_map (lookup_params pm) (nv (vis s) (E g n))))
                /\ same s s' /\ marks (vis s) (vis s') (E g n)) ->
  forall ps s, (forall p, In p ps -> p < f) -> closed (flat_map (E g) ps) (vis s) ->
    exists s', order_loop (order_node g pm f) ps s
               = (s', Ok (flat_map (lookup_params pm) (nv (vis s) (flat_map (E g) ps))))
               /\ same s s' /\ marks (vis s) (vis s') (flat_map (E g) ps).
Proof.
  intros Hnode ps. induction ps as [|p ps IH]; intros s Hlt Hc.
  - exists s. repeat split. apply marks_refl.
  - assert (Hstep : exists s2, (v <- get_vis p ;; (if negb v then order_node g pm f p else ret [])) s
        = (s2, Ok (flat_map (lookup_params pm) (nv (vis s) (E g p)))) /\ same s s2 /\ marks (vis s) (vis s2) (E g p)).
    { unfold bind, get_vis. destruct (vis s p) eqn:Hv; cbn [negb].
      - exists s. split; [|split; [repeat split|]].
        + rewrite (nv_skip (flat_map (E g) (p :: ps))); [reflexivity | apply down_EE | exact Hc | apply In_hd | exact Hv].
        + apply (marks_skip (flat_map (E g) (p :: ps))); [apply down_EE | exact Hc | apply In_hd | exact Hv].
      - apply Hnode; [apply Hlt; left; reflexivity | apply (closed_hd p ps); exact Hc]. }
    destruct Hstep as (s2 & Hs2 & Hsame2 & Hm2).
    destruct (IH s2) as (s3 & Hs3 & Hsame3 & Hm3).
    { intros q Hq. apply Hlt. right. exact Hq. }
    { apply closed_marks with (vis s) (E g p); [apply down_E | apply (closed_tl p); exact Hc | exact Hm2]. }
    exists s3. split; [|split].
    + cbn [order_loop flat_map]. unfold bind in Hs2 |- *. unfold get_vis in *.
      rewrite Hs2, Hs3. unfold ret.
      rewrite (nv_app (vis s) (vis s2) (E g p) (flat_map (E g) ps)); [|apply marks_free; exact Hm2].
      rewrite flat_map_app. reflexivity.
    + apply same_trans with s2; assumption.
    + cbn [flat_map]. apply marks_trans with (vis s2); assumption.
Qed.
Lemma order_node_spec f :
  forall n s, n < f -> closed (E g n) (vis s) ->
     exists s', order_node g pm f n s = (s', Ok (flat_map (lookup_params pm) (nv (vis s) (E g n))))
                /\ same s s' /\ marks (vis s) (vis s') (E g n).
Proof.
  induction f as [|f IHf]; intros n s Hn Hc; [lia|].
  cbn [order_node]. unfold bind at 1, get_vis. destruct (vis s n) eqn:Hv; cbn [negb].
  - exists s. split; [|split; [repeat split|]].
    + rewrite (nv_skip (E g n)); [reflexivity | apply down_E | exact Hc | apply E_self | exact Hv].
    + apply (marks_skip (E g n)); [apply down_E | exact Hc | apply E_self | exact Hv].
  - set (s0 := fst (set_vis n true s)).
    destruct (order_loop_spec f IHf (gpar g n) s0) as (s1 & Hs1 & Hsame1 & Hm1).
    { intros p Hp. apply par_lt in Hp. lia. }
    { apply closed_pre. exact Hc. }
    exists s1. split; [|split].
    + unfold bind. change (set_vis n true s) with (s0, @Ok unit tt). cbn iota beta. rewrite Hs1.
      unfold ret. rewrite nv_E, Hv. cbn [negb]. rewrite andb_true_r, flat_map_app.
      unfold s0. cbn [set_vis fst vis]. rewrite nv_pre.
      destruct (is_free g n) eqn:Hf; cbn [flat_map]; [rewrite app_nil_r; reflexivity|].
      rewrite (Hpm n Hf). reflexivity.
    + apply same_trans with s0; [repeat split | exact Hsame1].
    + apply marks_pre. exact Hm1.
Qed.
Lemma order_roots_spec f :
  forall rs s, (forall r, In r rs -> r < f) -> rootsep rs -> (forall r, In r rs -> lookup_params pm r = []) ->
    closed (flat_map (E g) rs) (vis s) ->
    exists s' l, forM (order_node g pm f) rs s = (s', Ok l)
      /\ concat l = flat_map (lookup_params pm) (nv (vis s) (flat_map (E g) (flat_map (gpar g) rs)))
      /\ same s s'.
Proof.
  induction rs as [|r rs IH]; intros s Hlt Hsep Hl0 Hc.
  - exists s, []. repeat split.
  - destruct (order_node_spec f r s) as (s1 & Hs1 & Hsame1 & Hm1).
    { apply Hlt. left. reflexivity. }
    { apply (closed_hd r rs). exact Hc. }
    destruct (rootsep_cons _ _ Hsep) as [Hr Hsep'].
    destruct (IH s1) as (s2 & l & Hs2 & Hl & Hsame2).
    { intros q Hq. apply Hlt. right. exact Hq. }
    { exact Hsep'. }
    { intros q Hq. apply Hl0. right. exact Hq. }
    { apply closed_marks with (vis s) (E g r); [apply down_E | apply (closed_tl r); exact Hc | exact Hm1]. }
    exists s2. eexists. split; [|split].
    + cbn [forM]. unfold bind. rewrite Hs1, Hs2. reflexivity.
    + cbn [concat]. rewrite Hl, <- (nv_roots (vis s) (vis s1) r rs Hr Hm1), flat_map_app. f_equal.
      rewrite nv_E, flat_map_app. destruct (is_free g r && negb (vis s r)); [|reflexivity].
      cbn [flat_map]. rewrite (Hl0 r (or_introl eq_refl)). reflexivity.
    + apply same_trans with s1; assumption.
Qed.
Lemma get_correct_ordering_spec roots s : indep g roots -> clean g roots s ->
  (forall r, In r roots -> lookup_params pm r = []) ->
  exists s', get_correct_ordering g roots pm s = (s', Ok (flat_map (lookup_params pm) (order roots)))
             /\ tidy roots s s' /\ val s' = val s.
Proof.
  intros Hi Hcl Hl0.
  destruct (order_roots_spec (depth roots) roots s) as (s1 & l & Hs1 & Hl & Hsame).
  { intros r Hr. apply depth_lt. exact Hr. }
  { apply indep_rootsep. exact Hi. }
  { exact Hl0. }
  { apply clean_closed. exact Hcl. }
  destruct (reset_flags_spec roots s1) as (s2 & Hs2 & Hcd).
  exists s2. destruct Hsame as (Hv&Hp&Hct&Htr).
  destruct (cleared_tidy roots s s1 s2 Hct Htr Hcd) as [Ht Hval].
  split; [|split; [exact Ht | congruence]].
  unfold get_correct_ordering, bind. rewrite Hs1, Hs2. unfold ret. rewrite Hl, nv_order by exact Hcl. reflexivity.
Qed.
End Ordering.

(** * AcceptedParametersManager.get_mapping *)
(** this walk leaves fixed numbers alone: exact effect on all marks *)
Definition marksx (V V' : nat -> bool) (l : list nat) : Prop :=
  forall m, V' m = V m || (memb m l && negb (is_hyper g m)).
Lemma marksx_marks V V' l : marksx V V' l -> marks V V' l.
Proof. intros H m Hh. rewrite H, Hh, andb_true_r. reflexivity. Qed.
Lemma marksx_trans V1 V2 V3 l1 l2 : marksx V1 V2 l1 -> marksx V2 V3 l2 -> marksx V1 V3 (l1 ++ l2).
Proof.
  intros H1 H2 m. rewrite H2, H1, memb_app.
  destruct (V1 m), (memb m l1), (memb m l2), (is_hyper g m); reflexivity.
Qed.
Lemma marksx_skip l V p : down l -> closed l V -> In p l -> V p = true -> marksx V V (E g p).
Proof.
  intros Hd Hc Hp HV m. destruct (memb m (E g p)) eqn:Hm; [|rewrite orb_false_r; reflexivity].
  destruct (is_hyper g m) eqn:Hh; cbn [negb andb]; [rewrite orb_false_r; reflexivity|].
  apply memb_In in Hm. rewrite (closed_E l V p m Hd Hc Hp HV Hm Hh). reflexivity.
Qed.
Lemma marksx_hyper V n : is_hyper g n = true -> marksx V V (E g n).
Proof.
  intros Hh m. rewrite E_unfold, (hyper_par n Hh). cbn. destruct (Nat.eqb_spec m n) as [->|]; cbn.
  - rewrite Hh. cbn. rewrite orb_false_r. reflexivity.
  - rewrite orb_false_r. reflexivity.
Qed.
Definition apm_out (top : bool) (V : nat -> bool) (n : nat) : list nat :=
  if top then nv V (flat_map (E g) (gpar g n)) else nv V (E g n).
Lemma apm_loop_spec f :
  (forall n idx s, n < f -> closed (E g n) (vis s) ->
     exists s', apm_node g false f n idx s
        = (s', Ok (pairs (nv (vis s) (E g n)) idx, idx + length (nv (vis s) (E g n))))
                /\ same s s' /\ marksx (vis s) (vis s') (E g n)) ->
  forall ps idx s, (forall p, In p ps -> p < f) -> closed (flat_map (E g) ps) (vis s) ->
    exists s', apm_loop (apm_node g false f) ps idx s
               = (s', Ok (pairs (nv (vis s) (flat_map (E g) ps)) idx,
                          idx + length (nv (vis s) (flat_map (E g) ps))))
               /\ same s s' /\ marksx (vis s) (vis s') (flat_map (E g) ps).
Proof.
  intros Hnode ps. induction ps as [|p ps IH]; intros idx s Hlt Hc.
  - exists s. cbn. rewrite Nat.add_0_r. repeat split. intros m. cbn. rewrite orb_false_r. reflexivity.
  - destruct (Hnode p idx s) as (s1 & Hs1 & Hsame1 & Hm1);
      [apply Hlt; left; reflexivity | apply (closed_hd p ps); exact Hc |].
    destruct (IH (idx + length (nv (vis s) (E g p))) s1) as (s2 & Hs2 & Hsame2 & Hm2).
    { intros q Hq. apply Hlt. right. exact Hq. }
    { apply closed_marks with (vis s) (E g p);
        [apply down_E | apply (closed_tl p); exact Hc | apply marksx_marks; exact Hm1]. }
    exists s2. split; [|split].
    + cbn [apm_loop flat_map]. unfold bind. rewrite Hs1. cbn [fst snd]. rewrite Hs2. unfold ret. cbn [fst snd].
      rewrite (nv_app (vis s) (vis s1) (E g p) (flat_map (E g) ps));
        [|apply marks_free; apply marksx_marks; exact Hm1].
      rewrite pairs_app, app_length, Nat.add_assoc. reflexivity.
    + apply same_trans with s1; assumption.
    + cbn [flat_map]. apply marksx_trans with (vis s1); assumption.
Qed.
Lemma apm_body f n idx s add :
  (forall k, n < S f -> closed (E g n) (vis s) -> vis s n = false -> is_hyper g n = false ->
     exists s', apm_loop (apm_node g false f) (gpar g n) k (fst (set_vis n true s))
        = (s', Ok (pairs (nv (vis s) (flat_map (E g) (gpar g n))) k,
                   k + length (nv (vis s) (flat_map (E g) (gpar g n)))))
                /\ same s s' /\ marksx (vis s) (vis s') (E g n)) ->
  n < S f -> closed (E g n) (vis s) -> vis s n = false -> is_hyper g n = false ->
  exists s', (set_vis n true ;;;
     r <- apm_loop (apm_node g false f) (gpar g n) (if add : bool then S idx else idx) ;;
     ret ((if add : bool then [(n, idx)] else []) ++ fst r, snd r)) s
   = (s', Ok (pairs ((if add then [n] else []) ++ nv (vis s) (flat_map (E g) (gpar g n))) idx,
              idx + length ((if add then [n] else []) ++ nv (vis s) (flat_map (E g) (gpar g n)))))
     /\ same s s' /\ marksx (vis s) (vis s') (E g n).
Proof.
  intros H Hn Hc Hv Hh. destruct (H (if add then S idx else idx) Hn Hc Hv Hh) as (s1 & Hs1 & Hsame & Hm).
  exists s1. split; [|split; assumption].
  unfold bind. change (set_vis n true s) with (fst (set_vis n true s), @Ok unit tt). cbn iota beta.
  rewrite Hs1. unfold ret. cbn [fst snd]. rewrite pairs_app, app_length.
  f_equal. f_equal. destruct add.
  - replace (idx + length [n]) with (S idx) by (cbn; lia). cbn. f_equal. lia.
  - replace (idx + length (@nil nat)) with idx by (cbn; lia). reflexivity.
Qed.
Lemma apm_walk f :
  (forall n idx s, n < f -> closed (E g n) (vis s) ->
     exists s', apm_node g false f n idx s
        = (s', Ok (pairs (nv (vis s) (E g n)) idx, idx + length (nv (vis s) (E g n))))
                /\ same s s' /\ marksx (vis s) (vis s') (E g n)) ->
  forall n s k, n < S f -> closed (E g n) (vis s) -> vis s n = false -> is_hyper g n = false ->
     exists s', apm_loop (apm_node g false f) (gpar g n) k (fst (set_vis n true s))
        = (s', Ok (pairs (nv (vis s) (flat_map (E g) (gpar g n))) k,
                   k + length (nv (vis s) (flat_map (E g) (gpar g n)))))
                /\ same s s' /\ marksx (vis s) (vis s') (E g n).
Proof.
  intros IHf n s k Hn Hc Hv Hh.
  destruct (apm_loop_spec f IHf (gpar g n) k (fst (set_vis n true s))) as (s1 & Hs1 & Hsame1 & Hm1).
  { intros p Hp. apply par_lt in Hp. lia. }
  { cbn [set_vis fst vis]. apply closed_pre. exact Hc. }
  cbn [set_vis fst vis] in Hs1. rewrite nv_pre in Hs1.
  exists s1. split; [exact Hs1|]. split.
  - exact Hsame1.
  - intros m. rewrite (Hm1 m). cbn [set_vis fst vis]. unfold upd. rewrite (E_unfold n). cbn [memb existsb].
    destruct (Nat.eqb_spec m n) as [->|]; cbn.
    + rewrite Hh. cbn. rewrite orb_true_r. reflexivity.
    + reflexivity.
Qed.
Lemma apm_node_spec f :
  forall n idx s, n < f -> closed (E g n) (vis s) ->
     exists s', apm_node g false f n idx s
        = (s', Ok (pairs (nv (vis s) (E g n)) idx, idx + length (nv (vis s) (E g n))))
                /\ same s s' /\ marksx (vis s) (vis s') (E g n).
Proof.
  induction f as [|f IHf]; intros n idx s Hn Hc; [lia|].
  cbn [apm_node]. unfold bind at 1, get_vis.
  destruct (vis s n) eqn:Hv.
  - exists s. cbn [negb andb]. split; [|split; [repeat split|]].
    + rewrite (nv_skip (E g n)); [cbn; rewrite Nat.add_0_r; reflexivity | apply down_E | exact Hc | apply E_self | exact Hv].
    + apply (marksx_skip (E g n)); [apply down_E | exact Hc | apply E_self | exact Hv].
  - destruct (is_hyper g n) eqn:Hh.
    + exists s. cbn [negb andb]. split; [|split; [repeat split|]].
      * rewrite nv_E. unfold is_free. rewrite Hh, (hyper_par n Hh). cbn. rewrite Nat.add_0_r. reflexivity.
      * apply marksx_hyper. exact Hh.
    + cbn [negb andb].
      assert (Hadd : (if is_free g n && negb (vis s n) then [n] else [])
                     = if negb (is_oper g n) then [n] else []).
      { unfold is_free. rewrite Hh, Hv. cbn. rewrite andb_true_r. reflexivity. }
      rewrite nv_E, Hadd. apply apm_body; try assumption.
      intros k. apply apm_walk. exact IHf.
Qed.
Lemma apm_top_spec f n idx s : n < S f -> is_hyper g n = false -> closed (E g n) (vis s) ->
  exists s', apm_node g true (S f) n idx s
     = (s', Ok (pairs (nv (vis s) (flat_map (E g) (gpar g n))) idx,
                idx + length (nv (vis s) (flat_map (E g) (gpar g n)))))
       /\ same s s' /\ marksx (vis s) (vis s') (E g n).
Proof.
  intros Hn Hh Hc. cbn [apm_node]. unfold bind at 1, get_vis.
  destruct (vis s n) eqn:Hv.
  - exists s. cbn [negb andb]. split; [|split; [repeat split|]].
    + pose proof (nv_skip (E g n) (vis s) n (down_E n) Hc (E_self n) Hv) as H.
      rewrite nv_E, Hv in H. cbn [negb] in H. rewrite andb_false_r in H. cbn [app] in H. rewrite H.
      cbn. rewrite Nat.add_0_r. reflexivity.
    + apply (marksx_skip (E g n)); [apply down_E | exact Hc | apply E_self | exact Hv].
  - rewrite Hh. cbn [negb andb].
    pose proof (apm_body f n idx s false) as H. cbn [app] in H. apply H; try assumption.
    intros k. apply apm_walk. apply apm_node_spec.
Qed.
Lemma apm_roots_spec f :
  forall rs idx s, (forall r, In r rs -> r < S f) -> (forall r, In r rs -> is_hyper g r = false) ->
    rootsep rs -> closed (flat_map (E g) rs) (vis s) ->
    exists s', apm_loop (apm_node g true (S f)) rs idx s
      = (s', Ok (pairs (nv (vis s) (flat_map (E g) (flat_map (gpar g) rs))) idx,
                 idx + length (nv (vis s) (flat_map (E g) (flat_map (gpar g) rs)))))
      /\ same s s' /\ marksx (vis s) (vis s') (flat_map (E g) rs).
Proof.
  induction rs as [|r rs IH]; intros idx s Hlt Hhy Hsep Hc.
  - exists s. cbn. rewrite Nat.add_0_r. repeat split. intros m. cbn. rewrite orb_false_r. reflexivity.
  - destruct (apm_top_spec f r idx s) as (s1 & Hs1 & Hsame1 & Hm1).
    { apply Hlt. left. reflexivity. }
    { apply Hhy. left. reflexivity. }
    { apply (closed_hd r rs). exact Hc. }
    destruct (rootsep_cons _ _ Hsep) as [Hr Hsep'].
    destruct (IH (idx + length (nv (vis s) (flat_map (E g) (gpar g r)))) s1) as (s2 & Hs2 & Hsame2 & Hm2).
    { intros q Hq. apply Hlt. right. exact Hq. }
    { intros q Hq. apply Hhy. right. exact Hq. }
    { exact Hsep'. }
    { apply closed_marks with (vis s) (E g r);
        [apply down_E | apply (closed_tl r); exact Hc | apply marksx_marks; exact Hm1]. }
    exists s2. split; [|split].
    + cbn [apm_loop]. unfold bind. rewrite Hs1. cbn [fst snd]. rewrite Hs2. unfold ret. cbn [fst snd].
      rewrite <- (nv_roots (vis s) (vis s1) r rs Hr (marksx_marks _ _ _ Hm1)), pairs_app, app_length, Nat.add_assoc.
      reflexivity.
    + apply same_trans with s1; assumption.
    + cbn [flat_map]. apply marksx_trans with (vis s1); assumption.
Qed.

(** the reset that follows marked inputs only: sound when marks are inherited by all inputs of a marked node *)
Definition hinv (l : list nat) (V : nat -> bool) : Prop :=
  forall m a, In m l -> V m = false -> In a (E g m) -> V a = false.
Definition unmarks (s s' : st) (l : list nat) : Prop :=
  (forall m, vis s' m = vis s m && negb (memb m l)) /\ same s s'.
Lemma hinv_unmarks l s s' n : hinv l (vis s) -> unmarks s s' (E g n) -> hinv l (vis s').
Proof.
  intros Hi [Hu _] m a Hm HV Ha. rewrite Hu in HV |- *. apply andb_false_iff in HV. apply andb_false_iff.
  destruct HV as [HV|HV].
  - left. apply (Hi m a); assumption.
  - right. apply negb_false_iff, memb_In in HV. apply negb_false_iff, memb_In.
    apply (down_sub (E g n) m (down_E n) HV). exact Ha.
Qed.
Lemma unmarks_trans s1 s2 s3 l1 l2 : unmarks s1 s2 l1 -> unmarks s2 s3 l2 -> unmarks s1 s3 (l1 ++ l2).
Proof.
  intros [H1 S1] [H2 S2]. split; [|apply same_trans with s2; assumption].
  intros m. rewrite H2, H1, memb_app. destruct (vis s1 m), (memb m l1), (memb m l2); reflexivity.
Qed.
Lemma apm_reset_loop_spec f :
  (forall n s, n < f -> hinv (E g n) (vis s) ->
     exists s', apm_reset_node g f n s = (s', Ok tt) /\ unmarks s s' (E g n)) ->
  forall ps s, (forall p, In p ps -> p < f) -> hinv (flat_map (E g) ps) (vis s) ->
    exists s', forM_ (fun p => v <- get_vis p ;; if v : bool then apm_reset_node g f p else ret tt) ps s = (s', Ok tt)
      /\ unmarks s s' (flat_map (E g) ps).
Proof.
  intros Hnode ps. induction ps as [|p ps IH]; intros s Hlt Hi.
  - exists s. split; [reflexivity|]. split; [|repeat split]. intros m. cbn. rewrite andb_true_r. reflexivity.
  - assert (Hstep : exists s1, (v <- get_vis p ;; if v : bool then apm_reset_node g f p else ret tt) s
                       = (s1, Ok tt) /\ unmarks s s1 (E g p)).
    { unfold bind, get_vis. destruct (vis s p) eqn:Hv.
      - apply Hnode; [apply Hlt; left; reflexivity|].
        intros m a Hm. apply Hi. apply (incl_EE p (p :: ps)); [left; reflexivity | exact Hm].
      - exists s. split; [reflexivity|]. split; [|repeat split]. intros m.
        destruct (memb m (E g p)) eqn:Hm; cbn; [|rewrite andb_true_r; reflexivity].
        apply memb_In in Hm. rewrite (Hi p m (In_hd p ps) Hv Hm). reflexivity. }
    destruct Hstep as (s1 & Hs1 & Hu1).
    destruct (IH s1) as (s2 & Hs2 & Hu2).
    { intros q Hq. apply Hlt. right. exact Hq. }
    { apply (hinv_unmarks _ s s1 p); [|exact Hu1].
      intros m a Hm. apply Hi. cbn [flat_map]. apply in_or_app. right. exact Hm. }
    exists s2. split.
    + cbn [forM_]. unfold bind at 1. rewrite Hs1, Hs2. reflexivity.
    + cbn [flat_map]. apply unmarks_trans with s1; assumption.
Qed.
Lemma apm_reset_node_spec f :
  forall n s, n < f -> hinv (E g n) (vis s) ->
     exists s', apm_reset_node g f n s = (s', Ok tt) /\ unmarks s s' (E g n).
Proof.
  induction f as [|f IHf]; intros n s Hn Hi; [lia|].
  destruct (apm_reset_loop_spec f IHf (gpar g n) s) as (s1 & Hs1 & Hu1 & Hsame1).
  { intros p Hp. apply par_lt in Hp. lia. }
  { intros m a Hm. apply Hi. apply incl_EE_par. exact Hm. }
  eexists. split.
  - cbn [apm_reset_node]. unfold bind at 1. rewrite Hs1. reflexivity.
  - split.
    + intros m. cbn [set_vis fst vis]. unfold upd. rewrite (E_unfold n). cbn [memb existsb].
      destruct (Nat.eqb_spec m n) as [->|]; cbn; [rewrite andb_false_r; reflexivity|]. apply Hu1.
    + apply same_trans with s1; [exact Hsame1 | repeat split].
Qed.
Lemma apm_reset_roots_spec f : forall rs s, (forall r, In r rs -> r < f) -> hinv (flat_map (E g) rs) (vis s) ->
  exists s', forM_ (apm_reset_node g f) rs s = (s', Ok tt) /\ unmarks s s' (flat_map (E g) rs).
Proof.
  induction rs as [|r rs IH]; intros s Hlt Hi.
  - exists s. split; [reflexivity|]. split; [|repeat split]. intros m. cbn. rewrite andb_true_r. reflexivity.
  - destruct (apm_reset_node_spec f r s) as (s1 & Hs1 & Hu1).
    { apply Hlt. left. reflexivity. }
    { intros m a Hm. apply Hi. apply (incl_EE r (r :: rs)); [left; reflexivity | exact Hm]. }
    destruct (IH s1) as (s2 & Hs2 & Hu2).
    { intros q Hq. apply Hlt. right. exact Hq. }
    { apply (hinv_unmarks _ s s1 r); [|exact Hu1].
      intros m a Hm. apply Hi. cbn [flat_map]. apply in_or_app. right. exact Hm. }
    exists s2. split.
    + cbn [forM_]. unfold bind. rewrite Hs1, Hs2. reflexivity.
    + cbn [flat_map]. apply unmarks_trans with s1; assumption.
Qed.
Lemma apm_get_mapping_spec roots s : indep g roots -> (forall r, In r roots -> is_hyper g r = false) ->
  clean g roots s ->
  exists s', apm_get_mapping g roots s = (s', Ok (pairs (order roots) 0, length (order roots)))
             /\ clean g roots s' /\ same s s'.
Proof.
  intros Hi Hhy Hcl.
  assert (Hroots : exists s1, apm_loop (apm_node g true (depth roots)) roots 0 s
      = (s1, Ok (pairs (order roots) 0, length (order roots)))
      /\ same s s1 /\ marksx (vis s) (vis s1) (flat_map (E g) roots)).
  { destruct (apm_roots_spec (list_max roots) roots 0 s) as (s1 & Hs1 & Hsame & Hm).
    { intros r Hr. apply depth_lt. exact Hr. }
    { exact Hhy. }
    { apply indep_rootsep. exact Hi. }
    { apply clean_closed. exact Hcl. }
    exists s1. split; [|split; assumption]. fold (depth roots) in Hs1. rewrite Hs1, nv_order by exact Hcl. reflexivity. }
  destruct Hroots as (s1 & Hs1 & Hsame & Hm).
  destruct (apm_reset_roots_spec (depth roots) roots s1) as (s2 & Hs2 & Hu & Hsame2).
  { intros r Hr. apply depth_lt. exact Hr. }
  { intros m a Hin HV Ha. rewrite Hm in HV. apply orb_false_iff in HV. destruct HV as [_ HV].
    assert (Hh : is_hyper g m = true).
    { apply memb_In in Hin. rewrite Hin in HV. destruct (is_hyper g m); [reflexivity | discriminate]. }
    rewrite E_unfold, (hyper_par m Hh) in Ha. destruct Ha as [<-|[]].
    rewrite Hm, Hh. cbn. rewrite andb_false_r, orb_false_r. apply (clean_E roots s m Hcl Hin). }
  exists s2. split; [|split].
  - unfold apm_get_mapping, bind. rewrite Hs1, Hs2. reflexivity.
  - intros r n Hr Hn. apply E_Anc in Hn. rewrite Hu.
    assert (Hin : memb n (flat_map (E g) roots) = true)
      by (apply memb_In, in_flat_map; exists r; split; assumption).
    rewrite Hin. apply andb_false_r.
  - apply same_trans with s1; assumption.
Qed.

(** * set_parameters *)
(** the writes performed along the order, without marks *)
Fixpoint writes (params : list (list Q)) (L : list nat) (i : nat) : M st (bool * nat) :=
  match L with
  | [] => ret (true, i)
  | n :: L' =>
      match nth_error params i with
      | None => raise IndexError
      | Some v => ok <- set_output_values g n v ;;
                  if ok : bool then writes params L' (S i) else ret (false, i)
      end
  end.
Lemma same_sym s t : same s t -> same t s.
Proof. unfold same. intros (A&B&C&D). repeat split; congruence. Qed.
Lemma input_values_same n s t : val t = val s ->
  fst (input_values g n s) = s /\ fst (input_values g n t) = t
  /\ snd (input_values g n t) = snd (input_values g n s).
Proof.
  intros Hv. unfold input_values. induction (gconn g n) as [|[m j] l IH]; [repeat split|].
  destruct IH as (I1 & I2 & I3). cbn [forM]. unfold input_value at 1 3 5 7, bind, get_val. cbn [fst snd].
  rewrite ?Hv.
  destruct (val s m) as [v|].
  - destruct (nth_error v j); unfold ret, raise; cbn.
    + destruct (forM input_value l s) as [s1 r1], (forM input_value l t) as [t1 r2]. cbn in *. subst.
      destruct r1; repeat split.
    + repeat split.
  - unfold ret. cbn. destruct (forM input_value l s) as [s1 r1], (forM input_value l t) as [t1 r2]. cbn in *. subst.
    destruct r1; repeat split.
Qed.
Lemma sov_same n v s t : same s t ->
  exists s1 t1 r, set_output_values g n v s = (s1, r) /\ set_output_values g n v t = (t1, r)
    /\ same s1 t1 /\ vis s1 = vis s /\ vis t1 = vis t.
Proof.
  intros Hs. unfold set_output_values. destruct (length v =? gdim g n).
  - pose proof Hs as (Hv & _). destruct (input_values_same n s t Hv) as (I1 & I2 & I3). unfold bind.
    destruct (input_values g n s) as [s1 r1], (input_values g n t) as [t1 r2]. cbn in *. subst.
    destruct r1 as [ins|e].
    + destruct (gchk_out g n ins v).
      * unfold set_val, ret. do 3 eexists. split; [reflexivity|]. split; [reflexivity|].
        destruct Hs as (A&B&C&D). repeat split; cbn; congruence.
      * do 3 eexists. repeat split; try reflexivity; apply Hs.
    + do 3 eexists. repeat split; try reflexivity; apply Hs.
  - do 3 eexists. repeat split; try reflexivity; apply Hs.
Qed.
Lemma writes_same params L : forall i s t, same s t ->
  exists s1 t1 r, writes params L i s = (s1, r) /\ writes params L i t = (t1, r)
    /\ same s1 t1 /\ vis s1 = vis s /\ vis t1 = vis t.
Proof.
  induction L as [|n L IH]; intros i s t Hs; cbn [writes].
  - do 3 eexists. repeat split; try reflexivity; apply Hs.
  - destruct (nth_error params i) as [v|].
    + destruct (sov_same n v s t Hs) as (s1 & t1 & r & H1 & H2 & Hs1 & Hv1 & Hv2).
      unfold bind. rewrite H1, H2. destruct r as [[|]|e].
      * destruct (IH (S i) s1 t1 Hs1) as (s2 & t2 & r & H3 & H4 & Hs2 & Hv3 & Hv4).
        exists s2, t2, r. repeat split; try congruence; apply Hs2.
      * do 3 eexists. repeat split; try reflexivity; try congruence; apply Hs1.
      * do 3 eexists. repeat split; try reflexivity; try congruence; apply Hs1.
    + do 3 eexists. repeat split; try reflexivity; apply Hs.
Qed.
Lemma writes_app params L1 L2 i s :
  writes params (L1 ++ L2) i s =
  (r <- writes params L1 i ;; if fst r then writes params L2 (snd r) else ret r) s.
Proof.
  revert i s. induction L1 as [|n L1 IH]; intros i s; [reflexivity|].
  cbn [app writes]. unfold bind. destruct (nth_error params i) as [v|]; [|reflexivity].
  destruct (set_output_values g n v s) as [s1 [[|]|e]]; [rewrite IH; reflexivity | reflexivity | reflexivity].
Qed.

Definition setp_ok (params : list (list Q)) (m : M st (bool * nat)) (l L : list nat) (idx : nat) (s : st) : Prop :=
  exists s' s1 r, m s = (s', r) /\ writes params L idx s = (s1, r) /\ same s1 s' /\
    (forall k, r = Ok (true, k) -> marks (vis s) (vis s') l).

Lemma setp_loop_spec params f :
  (forall n idx s, n < f -> vis s n = false -> is_hyper g n = false -> closed (E g n) (vis s) ->
     setp_ok params (setp_node g params f n idx) (E g n) (nv (vis s) (E g n)) idx s) ->
  forall ps idx s, (forall p, In p ps -> p < f) -> closed (flat_map (E g) ps) (vis s) ->
    setp_ok params (setp_loop g (setp_node g params f) ps idx) (flat_map (E g) ps)
            (nv (vis s) (flat_map (E g) ps)) idx s.
Proof.
  intros Hnode ps. induction ps as [|p ps IH]; intros idx s Hlt Hc.
  - exists s, s, (Ok (true, idx)). repeat split. intros k _. apply marks_refl.
  - cbn [setp_loop flat_map]. unfold setp_ok, bind at 1, get_vis.
    assert (Hlt' : forall q, In q ps -> q < f) by (intros q Hq; apply Hlt; right; exact Hq).
    destruct (vis s p || is_hyper g p) eqn:Hskip.
    + assert (Hnv : nv (vis s) (E g p) = [] /\ marks (vis s) (vis s) (E g p)).
      { destruct (vis s p) eqn:Hv.
        - split.
          + apply (nv_skip (flat_map (E g) (p :: ps))); [apply down_EE | exact Hc | apply In_hd | exact Hv].
          + apply (marks_skip (flat_map (E g) (p :: ps))); [apply down_EE | exact Hc | apply In_hd | exact Hv].
        - cbn in Hskip. split.
          + rewrite nv_E, (hyper_par p Hskip). unfold is_free. rewrite Hskip. reflexivity.
          + rewrite E_unfold, (hyper_par p Hskip). intros m Hh. cbn. destruct (Nat.eqb_spec m p) as [->|]; [congruence|].
            cbn. rewrite orb_false_r. reflexivity. }
      destruct Hnv as [Hnv Hmk].
      destruct (IH idx s Hlt' (closed_tl p ps _ Hc)) as (s' & s1 & r & H1 & H2 & H3 & H4).
      exists s', s1, r. split; [exact H1|]. split; [|split; [exact H3|]].
      * rewrite (nv_app (vis s) (vis s) (E g p) (flat_map (E g) ps)); [|apply marks_free; exact Hmk].
        rewrite Hnv. exact H2.
      * intros k Hk. apply marks_trans with (vis s); [exact Hmk | apply (H4 k Hk)].
    + apply orb_false_iff in Hskip. destruct Hskip as [Hv Hh].
      destruct (Hnode p idx s) as (s' & s1 & r & H1 & H2 & H3 & H4);
        [apply Hlt; left; reflexivity | exact Hv | exact Hh | apply (closed_hd p ps); exact Hc |].
      unfold bind. rewrite H1. destruct r as [[b j]|e].
      * destruct b; cbn [fst snd].
        -- specialize (H4 j eq_refl).
           destruct (IH j s' Hlt') as (s2' & s2 & r & H5 & H6 & H7 & H8).
           { apply closed_marks with (vis s) (E g p); [apply down_E | apply (closed_tl p); exact Hc | exact H4]. }
           destruct (writes_same params (nv (vis s') (flat_map (E g) ps)) j s' s1 (same_sym _ _ H3))
             as (a & b & r' & Ha & Hb & Hab & _ & _).
           assert (Har : a = s2 /\ r' = r) by (rewrite H6 in Ha; inversion Ha; split; reflexivity).
           destruct Har as [-> ->].
           exists s2', b, r. split; [exact H5|]. split; [|split].
           ++ rewrite (nv_app (vis s) (vis s') (E g p) (flat_map (E g) ps)); [|apply marks_free; exact H4].
              rewrite writes_app. unfold bind. rewrite H2. cbn [fst snd]. exact Hb.
           ++ apply same_trans with s2; [apply same_sym; exact Hab | exact H7].
           ++ intros k Hk. apply marks_trans with (vis s'); [exact H4 | apply (H8 k Hk)].
        -- exists s', s1, (Ok (false, j)). split; [reflexivity|]. split; [|split; [exact H3|]].
           ++ rewrite (nv_app (vis s) (fun m => vis s m || memb m (E g p)) (E g p) (flat_map (E g) ps));
                [|reflexivity].
              rewrite writes_app. unfold bind. rewrite H2. reflexivity.
           ++ intros k Hk. inversion Hk.
      * exists s', s1, (Err e). split; [reflexivity|]. split; [|split; [exact H3|]].
        -- rewrite (nv_app (vis s) (fun m => vis s m || memb m (E g p)) (E g p) (flat_map (E g) ps));
             [|reflexivity].
           rewrite writes_app. unfold bind. rewrite H2. reflexivity.
        -- intros k Hk. inversion Hk.
Qed.

Lemma setp_tail params f n idx s s0 :
  (forall n idx s, n < f -> vis s n = false -> is_hyper g n = false -> closed (E g n) (vis s) ->
     setp_ok params (setp_node g params f n idx) (E g n) (nv (vis s) (E g n)) idx s) ->
  n < S f -> closed (E g n) (vis s) -> (vis s0 = vis s \/ vis s0 = upd (vis s) n true) ->
  exists s' s1 r,
    (r <- setp_loop g (setp_node g params f) (gpar g n) idx ;;
     if fst r then set_vis n true ;;; ret (true, snd r) else ret (false, snd r)) s0 = (s', r)
    /\ writes params (nv (vis s) (flat_map (E g) (gpar g n))) idx s0 = (s1, r) /\ same s1 s'
    /\ (forall k, r = Ok (true, k) -> marks (vis s) (vis s') (E g n)).
Proof.
  intros IHf Hn Hc Hv0.
  assert (Hnv : nv (vis s0) (flat_map (E g) (gpar g n)) = nv (vis s) (flat_map (E g) (gpar g n))).
  { destruct Hv0 as [->| ->]; [reflexivity | apply nv_pre]. }
  destruct (setp_loop_spec params f IHf (gpar g n) idx s0) as (s' & s1 & r & H1 & H2 & H3 & H4).
  { intros p Hp. apply par_lt in Hp. lia. }
  { destruct Hv0 as [->| ->]; [apply closed_par; exact Hc | apply closed_pre; exact Hc]. }
  rewrite Hnv in H2. unfold bind. rewrite H1. destruct r as [[b j]|e].
  - destruct b; cbn [fst snd].
    + exists (fst (set_vis n true s')), s1, (Ok (true, j)). split; [reflexivity|]. split; [exact H2|]. split.
      * apply same_trans with s'; [exact H3 | repeat split].
      * intros k _. specialize (H4 j eq_refl). cbn [set_vis fst vis].
        destruct Hv0 as [Hv0|Hv0]; rewrite Hv0 in H4.
        -- rewrite E_unfold. apply marks_cons. exact H4.
        -- apply marks_upd; [apply marks_pre; exact H4 | apply E_self].
    + exists s', s1, (Ok (false, j)). split; [reflexivity|]. split; [exact H2|]. split; [exact H3|].
      intros k Hk. inversion Hk.
  - exists s', s1, (Err e). split; [reflexivity|]. split; [exact H2|]. split; [exact H3|].
    intros k Hk. inversion Hk.
Qed.

Lemma setp_node_spec params f :
  forall n idx s, n < f -> vis s n = false -> is_hyper g n = false -> closed (E g n) (vis s) ->
     setp_ok params (setp_node g params f n idx) (E g n) (nv (vis s) (E g n)) idx s.
Proof.
  induction f as [|f IHf]; intros n idx s Hn Hv Hh Hc; [lia|].
  assert (Hf : is_free g n = negb (is_oper g n)) by (unfold is_free; rewrite Hh; reflexivity).
  unfold setp_ok. rewrite nv_E, Hv, Hf. cbn [negb]. rewrite andb_true_r. cbn [setp_node].
  destruct (is_oper g n) eqn:Ho; cbn [negb].
  - unfold bind at 1, ret at 1. cbn [fst snd app].
    apply (setp_tail params f n idx s s IHf Hn Hc). left. reflexivity.
  - cbn [app writes]. destruct (nth_error params idx) as [v|].
    + destruct (sov_same n v s s (same_refl s)) as (s1 & t1 & r & Hs1 & Ht1 & _ & Hvis1 & _).
      unfold bind. rewrite Hs1. destruct r as [[|]|e].
      * set (s0 := fst (set_vis n true s1)).
        destruct (setp_tail params f n (S idx) s s0 IHf Hn Hc) as (s' & s2 & r & H1 & H2 & H3 & H4).
        { right. unfold s0. cbn. rewrite Hvis1. reflexivity. }
        destruct (writes_same params (nv (vis s) (flat_map (E g) (gpar g n))) (S idx) s0 s1)
          as (a & b & r' & Ha & Hb & Hab & _ & _); [repeat split|].
        assert (Har : a = s2 /\ r' = r) by (rewrite H2 in Ha; inversion Ha; split; reflexivity).
        destruct Har as [-> ->].
        exists s', b, r. split; [|split; [exact Hb|split; [|exact H4]]].
        -- change (set_vis n true s1) with (s0, @Ok unit tt). cbn iota beta. unfold ret at 1.
           cbn [fst snd]. exact H1.
        -- apply same_trans with s2; [apply same_sym; exact Hab | exact H3].
      * unfold ret. cbn [fst snd]. exists s1, s1, (Ok (false, idx)). repeat split. intros k Hk. inversion Hk.
      * exists s1, s1, (Err e). repeat split. intros k Hk. inversion Hk.
    + unfold bind, raise. exists s, s, (Err IndexError). repeat split. intros k Hk. inversion Hk.
Qed.

Lemma setp_roots_spec params f :
  forall rs idx s, (forall r, In r rs -> r < S f) -> rootsep rs -> closed (flat_map (E g) rs) (vis s) ->
    exists s' s1 r, setp_roots g params f rs idx s = (s', r)
      /\ writes params (nv (vis s) (flat_map (E g) (flat_map (gpar g) rs))) idx s = (s1, r) /\ same s1 s'.
Proof.
  induction rs as [|r0 rs IH]; intros idx s Hlt Hsep Hc.
  - exists s, s, (Ok (true, idx)). repeat split.
  - destruct (rootsep_cons _ _ Hsep) as [Hr Hsep'].
    destruct (setp_loop_spec params f (setp_node_spec params f) (gpar g r0) idx s)
      as (s1' & s1 & r & H1 & H2 & H3 & H4).
    { intros p Hp. apply par_lt in Hp. specialize (Hlt r0 (or_introl eq_refl)). lia. }
    { apply closed_par, (closed_hd r0 rs). exact Hc. }
    cbn [setp_roots]. unfold bind. rewrite H1.
    assert (Hgo : forall j, r = Ok (true, j) \/ r <> Ok (true, j)).
    { intros j. destruct r as [[b k]|e]; [|right; discriminate].
      destruct b; [|right; discriminate]. destruct (Nat.eq_dec k j) as [->|]; [left; reflexivity|].
      right. intros H. inversion H. contradiction. }
    destruct r as [[[|] j]|e].
    + cbn [fst snd]. specialize (H4 j eq_refl). set (s2 := fst (set_vis r0 true s1')).
      assert (Hm2 : marks (vis s) (vis s2) (E g r0)) by (rewrite E_unfold; apply marks_cons; exact H4).
      destruct (IH j s2) as (s3' & s3 & r & H5 & H6 & H7).
      { intros q Hq. apply Hlt. right. exact Hq. }
      { exact Hsep'. }
      { apply closed_marks with (vis s) (E g r0); [apply down_E | apply (closed_tl r0); exact Hc | exact Hm2]. }
      destruct (writes_same params (nv (vis s2) (flat_map (E g) (flat_map (gpar g) rs))) j s2 s1)
        as (a & b & r' & Ha & Hb & Hab & _ & _).
      { apply same_trans with s1'; [repeat split | apply same_sym; exact H3]. }
      assert (Har : a = s3 /\ r' = r) by (rewrite H6 in Ha; inversion Ha; split; reflexivity).
      destruct Har as [-> ->].
      exists s3', b, r. split; [exact H5|]. split.
      * rewrite <- (nv_roots (vis s) (vis s2) r0 rs Hr Hm2), writes_app. unfold bind. rewrite H2. exact Hb.
      * apply same_trans with s3; [apply same_sym; exact Hab | exact H7].
    + cbn [fst snd]. exists s1', s1, (Ok (false, j)). split; [reflexivity|]. split; [|exact H3].
      cbn [flat_map]. rewrite flat_map_app.
      rewrite (nv_app (vis s) (fun m => vis s m || memb m (flat_map (E g) (gpar g r0)))); [|reflexivity].
      rewrite writes_app. unfold bind. rewrite H2. reflexivity.
    + exists s1', s1, (Err e). split; [reflexivity|]. split; [|exact H3].
      cbn [flat_map]. rewrite flat_map_app.
      rewrite (nv_app (vis s) (fun m => vis s m || memb m (flat_map (E g) (gpar g r0)))); [|reflexivity].
      rewrite writes_app. unfold bind. rewrite H2. reflexivity.
Qed.
Lemma set_parameters_writes roots params s : indep g roots -> clean g roots s ->
  exists s' s1 r, set_parameters g roots params s = (s', r)
     /\ writes params (order roots) 0 s = (s1, r) /\ val s' = val s1
     /\ ((exists a, r = Ok a) -> tidy roots s1 s').
Proof.
  intros Hi Hcl.
  destruct (setp_roots_spec params (depth roots) roots 0 s) as (s1' & s1 & r & H1 & H2 & H3).
  { intros q Hq. apply depth_lt in Hq. lia. }
  { apply indep_rootsep. exact Hi. }
  { apply clean_closed. exact Hcl. }
  rewrite nv_order in H2 by exact Hcl. unfold set_parameters, bind. rewrite H1. destruct r as [a|e].
  - destruct (reset_flags_spec roots s1') as (s2 & Hs2 & Hcd). rewrite Hs2.
    destruct H3 as (A&B&C&D).
    destruct (cleared_tidy roots s1 s1' s2 C D Hcd) as [Ht Hval].
    exists s2, s1, (Ok a). split; [reflexivity|]. split; [exact H2|]. split; [congruence|]. intros _. exact Ht.
  - exists s1', s1, (Err e). split; [reflexivity|]. split; [exact H2|]. split; [apply H3|].
    intros [a Ha]. discriminate.
Qed.
End WF.
