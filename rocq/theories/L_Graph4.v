(** Statements of the graph properties in terms of S_Graph only; assembled from the walk-by-walk lemmas. *)
From Verif Require Import M_Base M_Graph S_Graph L_Graph L_Graph2 L_Graph3 L_Ops M_GraphEx.

Lemma wf_listb_sound l i : wf_listb i l = true -> forall n, n < length l ->
  (forall m j, In (m, j) (ncn (nth n l dflt)) -> m < n + i /\ j < 1)
  /\ (nk (nth n l dflt) = Hyper -> ncn (nth n l dflt) = []).
Proof.
  revert i. induction l as [|nd l IH]; intros i H n Hn; [cbn in Hn; lia|].
  cbn [wf_listb] in H. apply andb_prop in H. destruct H as [H H2]. apply andb_prop in H. destruct H as [H0 H1].
  destruct n as [|n]; cbn [nth].
  - split.
    + intros m j Hin. rewrite forallb_forall in H0. specialize (H0 _ Hin). cbn [fst snd] in H0.
      apply andb_prop in H0. destruct H0 as [Ha Hb]. apply Nat.ltb_lt in Ha, Hb. lia.
    + intros Hk. rewrite Hk in H1. apply Nat.eqb_eq in H1. destruct (ncn nd); [reflexivity | discriminate].
  - cbn in Hn. destruct (IH (S i) H2 n ltac:(lia)) as [A B]. split; [|exact B].
    intros m j Hin. specialize (A m j Hin). lia.
Qed.
Lemma mkgraph_wf l : wf_listb 0 l = true -> wf (mkgraph l).
Proof.
  intros H.
  assert (Hd : forall n, (forall m j, In (m, j) (ncn (nth n l dflt)) -> m < n /\ j < 1)
                         /\ (nk (nth n l dflt) = Hyper -> ncn (nth n l dflt) = [])).
  { intros n. destruct (Nat.lt_ge_cases n (length l)) as [Hn|Hn].
    - destruct (wf_listb_sound l 0 H n Hn) as [A B]. split; [|exact B]. intros m j Hin. specialize (A m j Hin). lia.
    - rewrite nth_overflow by exact Hn. cbn. split; [intros m j []|reflexivity]. }
  split; [|split].
  - intros n p Hp. unfold gpar in Hp. apply in_map_iff in Hp. destruct Hp as ((m, j) & <- & Hin). cbn in *.
    apply (proj1 (Hd n) m j Hin).
  - intros n Hn. unfold is_hyper in Hn. cbn in *. destruct (nk (nth n l dflt)) eqn:Hk; try discriminate.
    apply (proj2 (Hd n)). exact Hk.
  - intros n m j Hin. cbn in *. apply (proj1 (Hd n) m j Hin).
Qed.

(** Boolean ancestor test on finite graphs, to discharge [indep]. *)
Lemma indep_single g r : wf g -> indep g [r].
Proof.
  intros Hwf a b [<-|[]] [<-|[]] H. apply (Anc_lt g Hwf) in H. lia.
Qed.
Lemma st0_clean g roots vals : clean g roots (st0 vals).
Proof. intros r n _ _. reflexivity. Qed.
Lemma st0_vals_ok l vals : forallb (fun v => match v with Some x => Nat.eqb (length x) 1 | None => true end) vals = true ->
  vals_ok (mkgraph l) (st0 vals).
Proof.
  intros H n v Hv. cbn in Hv |- *. rewrite forallb_forall in H.
  destruct (Nat.lt_ge_cases n (length vals)) as [Hn|Hn].
  - specialize (H (nth n vals None) (nth_In vals None Hn)). rewrite Hv in H. apply Nat.eqb_eq. exact H.
  - rewrite nth_overflow in Hv by exact Hn. discriminate.
Qed.

Lemma NoDup_firstn' {A} (l : list A) j : NoDup l -> NoDup (firstn j l).
Proof.
  intros H. revert j. induction H as [|x l Hx _ IH]; intros [|j]; cbn; try constructor; [|apply IH].
  intros Hin. apply Hx. rewrite <- (firstn_skipn j l). apply in_or_app. left. exact Hin.
Qed.
Lemma nth_error_firstn_lt {A} (l : list A) : forall j i, i < j -> nth_error (firstn j l) i = nth_error l i.
Proof.
  induction l as [|x l IH]; intros [|j] [|i] H; cbn; try lia; try reflexivity. apply IH. lia.
Qed.

Lemma map_combine_val (D : nat -> list Q -> Q) (v : nat -> option (list Q)) o : forall params,
  (forall i n, nth_error o i = Some n -> v n = nth_error params i) -> length o <= length params ->
  map (fun ni => D (fst ni) (snd ni)) (combine o params) = map (fun n => D n match v n with Some x => x | None => [] end) o.
Proof.
  induction o as [|n o IH]; intros [|x params] Hnth Hl; try reflexivity; [cbn in Hl; lia|].
  cbn [combine map fst snd]. f_equal.
  - rewrite (Hnth 0 n eq_refl). reflexivity.
  - apply IH; [|cbn in Hl; lia]. intros i m Hm. apply (Hnth (S i) m). exact Hm.
Qed.

Section WF.
Variable g : graph.
Hypothesis Hwf : wf g.

Lemma expand_paths rs ls : Forall2 (Expand g) rs ls -> concat ls = flat_map (E g) rs.
Proof.
  induction 1 as [|r l rs ls Hr _ IH]; [reflexivity|]. cbn [concat flat_map].
  apply (Expand_E g Hwf) in Hr. rewrite Hr, IH. reflexivity.
Qed.

Lemma lookup_values_of {A} (pm : list (nat * list A)) n : lookup_params pm n = values_of pm n.
Proof. unfold values_of. induction pm as [|[m vs] pm IH]; cbn; [reflexivity|]. destruct (Nat.eqb m n); [reflexivity | exact IH]. Qed.
Lemma order_agreement roots s :
  indep g roots -> (forall r, In r roots -> is_hyper g r = false) -> clean g roots s ->
  exists o, (forall o', ParamOrder g roots o' <-> o' = o) /\ NoDup o
    /\ (forall n, In n o <-> is_free g n = true /\ exists r, In r roots /\ Anc g n r)
    /\ snd (get_parameters g roots s) = Ok (map (val s) o)
    /\ snd (get_mapping g roots s) = Ok (combine o (seq 0 (length o)), length o)
    /\ snd (apm_get_mapping g roots s) = Ok (combine o (seq 0 (length o)), length o)
    /\ (forall A (pm : list (nat * list A)),
          (forall n, is_free g n = false \/ In n roots -> values_of pm n = []) ->
          snd (get_correct_ordering g roots pm s) = Ok (flat_map (values_of pm) o))
    /\ (forall params s' k, set_parameters g roots params s = (s', Ok (true, k)) ->
          k = length o /\ length o <= length params
          /\ forall i n, nth_error o i = Some n -> val s' n = nth_error params i).
Proof.
  intros Hi Hh Hc. exists (order g roots).
  split; [intros o'; apply (ParamOrder_order g Hwf)|].
  split; [apply order_NoDup|]. split; [intros n; apply (order_In g Hwf)|].
  split. { destruct (get_parameters_spec g Hwf roots s Hc) as (s' & -> & _). reflexivity. }
  split. { destruct (get_mapping_spec g Hwf roots s Hi Hc) as (s' & -> & _). reflexivity. }
  split. { destruct (apm_get_mapping_spec g Hwf roots s Hi Hh Hc) as (s' & -> & _). reflexivity. }
  split.
  - intros A pm Hpm0. assert (Hpm : forall n, is_free g n = false \/ In n roots -> lookup_params pm n = []) by (intros n Hn; rewrite lookup_values_of; apply Hpm0; exact Hn).
    rewrite (flat_map_ext (values_of pm) (lookup_params pm)) by (intros n; symmetry; apply lookup_values_of).
    destruct (@get_correct_ordering_spec g Hwf A pm (fun n H => Hpm n (or_introl H)) roots s Hi Hc (fun r H => Hpm r (or_intror H)))
      as (s' & -> & _). reflexivity.
  - intros params s' k Hs. destruct (set_parameters_true g Hwf roots params s s' k Hi Hc Hs) as (-> & Hl & Hv & _).
    split; [reflexivity|]. split; [exact Hl|]. intros i n Hn. rewrite Hv.
    apply assign_nth; [apply order_NoDup | exact Hn|].
    assert (i < length (order g roots)) by (apply nth_error_Some; congruence). lia.
Qed.

Lemma set_get roots params s s' k :
  indep g roots -> clean g roots s ->
  set_parameters g roots params s = (s', Ok (true, k)) ->
  snd (get_parameters g roots s') = Ok (map Some (firstn k params))
  /\ (forall o, ParamOrder g roots o -> k = length o /\ length o <= length params
        /\ forall n, ~ In n o -> val s' n = val s n).
Proof.
  intros Hi Hc Hs. destruct (set_parameters_true g Hwf roots params s s' k Hi Hc Hs) as (-> & Hl & Hv & Hc' & _).
  split.
  - destruct (get_parameters_spec g Hwf roots s' Hc') as (s2 & -> & _). cbn [snd]. f_equal. rewrite Hv.
    apply assign_get; [apply order_NoDup | exact Hl].
  - intros o Ho. apply (ParamOrder_order g Hwf) in Ho. subst o. split; [reflexivity|]. split; [exact Hl|].
    intros n Hn. rewrite Hv. apply assign_notin. exact Hn.
Qed.

(** Reading the parameters and setting them again changes nothing. *)
Lemma get_set_same roots s s1 s2 vs k :
  indep g roots -> clean g roots s ->
  get_parameters g roots s = (s1, Ok (map Some vs)) ->
  set_parameters g roots vs s1 = (s2, Ok (true, k)) ->
  k = length vs /\ forall n, val s2 n = val s n.
Proof.
  intros Hi Hc Hg Hs.
  destruct (get_parameters_spec g Hwf roots s Hc) as (s1' & E1 & (Hc1&_) & Hv1).
  assert (s1' = s1) by congruence. subst s1'.
  assert (Hm : map (val s) (order g roots) = map Some vs) by congruence.
  destruct (set_parameters_true g Hwf roots vs s1 s2 k Hi Hc1 Hs) as (-> & Hl & Hv & _).
  assert (Hlen : length (order g roots) = length vs) by (rewrite <- (map_length (val s)), Hm, map_length; reflexivity).
  split; [exact Hlen|]. intros n. rewrite Hv, Hv1.
  apply assign_self; [lia|]. rewrite Hm. f_equal. rewrite Hlen. symmetry. apply firstn_all.
Qed.

Lemma set_outcome roots params s o :
  indep g roots -> clean g roots s -> vals_ok g s -> ParamOrder g roots o ->
  Forall2 (fun n v => length v = gdim g n) o params ->
  exists b j s', set_parameters g roots params s = (s', Ok (b, j))
    /\ clean g roots s' /\ vals_ok g s' /\ j <= length o
    /\ (forall i n, nth_error o i = Some n -> val s' n = if i <? j then nth_error params i else val s n)
    /\ (forall n, ~ In n o -> val s' n = val s n)
    /\ (if b then j = length o
        else exists n v, nth_error o j = Some n /\ nth_error params j = Some v
                         /\ gchk_out g n (inputs_at g (val s') n) v = false).
Proof.
  intros Hi Hc Hv Ho Hd. apply (ParamOrder_order g Hwf) in Ho. subst o.
  destruct (set_parameters_spec g Hwf roots params s Hi Hc Hv) as (b & j & s2 & H & Hj & Hv2 & Hok & Hc2 & _ & Hb).
  { intros k n Hk. clear - Hd Hk. revert k Hk. induction Hd as [|m v o params Hmv _ IH]; intros k Hk; [destruct k; discriminate|].
    destruct k as [|k]; [inversion Hk; subst; exists v; split; [reflexivity | exact Hmv] | apply IH; exact Hk]. }
  exists b, j, s2. do 4 (split; [assumption|]).
  assert (Hlen : length (order g roots) = length params).
  { clear - Hd. induction Hd; cbn; lia. }
  pose proof (order_NoDup g roots) as Hnd.
  assert (Hnd' : NoDup (firstn j (order g roots))).
  { apply NoDup_firstn'. exact Hnd. }
  split; [|split].
  - intros i n Hn. rewrite Hv2. destruct (Nat.ltb_spec i j) as [Hlt|Hge].
    + apply assign_nth; [exact Hnd'| |].
      * rewrite nth_error_firstn_lt by exact Hlt. exact Hn.
      * assert (i < length (order g roots)) by (apply nth_error_Some; congruence). lia.
    + apply assign_notin. intros Hin. apply In_nth_error in Hin. destruct Hin as [i' Hi'].
      assert (i' < j). { assert (i' < length (firstn j (order g roots))) by (apply nth_error_Some; congruence).
        rewrite firstn_length in H0. lia. }
      rewrite nth_error_firstn_lt in Hi' by assumption.
      assert (i' = i). { eapply NoDup_nth_error; [exact Hnd| apply nth_error_Some; congruence | congruence]. } lia.
  - intros n Hn. rewrite Hv2. apply assign_notin. intros Hin. apply Hn.
    rewrite <- (firstn_skipn j (order g roots)). apply in_or_app. left. exact Hin.
  - exact Hb.
Qed.

Lemma pdf_product roots params s s1 k o ls :
  indep g roots -> clean g roots s -> vals_ok g s ->
  ParamOrder g roots o ->
  Forall2 (Expand g) (flat_map (gpar g) roots) ls ->
  (forall n, gkind g n = Disc -> count_occ Nat.eq_dec (concat ls) n <= 1) ->
  set_parameters g roots params s = (s1, Ok (true, k)) ->
  exists s' q, pdf_of_prior g roots params s = (s', Ok q)
    /\ (q == prodQ (map (fun ni => gdens g (fst ni) (inputs_at g (val s') (fst ni)) (snd ni))
                        (combine o params)))%Q
    /\ (forall i n, nth_error o i = Some n -> val s' n = nth_error params i)
    /\ (forall n, ~ In n o -> val s' n = val s n)
    /\ clean g roots s'.
Proof.
  intros Hi Hc Hv Ho Hls Hd Hs. apply (ParamOrder_order g Hwf) in Ho. subst o.
  rewrite (expand_paths _ _ Hls) in Hd.
  destruct (pdf_of_prior_spec g Hwf roots params s s1 k Hi Hc Hv Hs) as (s' & q & H & Hval & Hc' & Hq).
  destruct (set_parameters_true g Hwf roots params s s1 k Hi Hc Hs) as (-> & Hl & Hv1 & _).
  exists s', q. split; [exact H|].
  assert (Hnth : forall i n, nth_error (order g roots) i = Some n -> val s1 n = nth_error params i).
  { intros i n Hn. rewrite Hv1. apply assign_nth; [apply order_NoDup | exact Hn|].
    assert (i < length (order g roots)) by (apply nth_error_Some; congruence). lia. }
  split; [|split; [intros i n Hn; rewrite Hval; eauto|split; [|exact Hc']]].
  - cbv zeta in Hq. rewrite Hq. rewrite (pdf_once g roots _ Hd).
    match goal with |- (prodQ ?a == prodQ ?b)%Q => replace a with b; [reflexivity|] end.
    rewrite Hval. apply (map_combine_val (fun n x => gdens g n (inputs_at g (val s1) n) x)); assumption.
  - intros n Hn. rewrite Hval, Hv1. apply assign_notin. exact Hn.
Qed.
End WF.
