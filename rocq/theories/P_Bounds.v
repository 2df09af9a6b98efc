(** Property C56. *)
From Coq Require Import Reals.
From Verif Require Import M_Base M_Num M_XReal M_Transform S_Transform P_Transform M_Bounds.
Open Scope nat_scope.

(** what the caller asked for a name: the pair given for it, no bounds if there is none *)
Definition asked (bounds : list (nat * value)) (name : nat) (b : bnd) : Prop :=
  (exists lo hi, In (name, Some [lo; hi]) bounds /\ b = (lo, hi)) \/ (~ In name (map fst bounds) /\ b = (None, None)).
Lemma list_ext' {A} (l : list A) : forall m, (forall i, nth_error l i = nth_error m i) -> l = m.
Proof. induction l as [|x l IH]; intros [|y m] H; [reflexivity | specialize (H 0); discriminate | specialize (H 0); discriminate|]. f_equal; [specialize (H 0); cbn in H; congruence|]. apply IH. intros i. exact (H (S i)). Qed.
Lemma lset_len {A} (l : list A) : forall i x, length (lset l i x) = length l.
Proof. induction l as [|y l IH]; intros [|i] x; cbn; congruence. Qed.
Lemma lset_nth {A} (l : list A) : forall i x k, i < length l -> nth_error (lset l i x) k = if k =? i then Some x else nth_error l k.
Proof. induction l as [|y l IH]; intros [|i] x [|k] H; cbn in *; try lia; try reflexivity. apply IH. lia. Qed.
Lemma check_ok names bounds : bounds_check names bounds = Ok tt <-> Forall (fun kv => In (fst kv) names /\ exists lo hi, snd kv = Some [lo; hi]) bounds.
Proof.
  induction bounds as [|[key v] bounds IH]; cbn; [split; constructor|]. destruct (existsb (Nat.eqb key) names) eqn:E; cbn [negb].
  - apply existsb_exists in E. destruct E as (n & Hn & En). apply Nat.eqb_eq in En. subst n. destruct v as [[|a [|b [|]]]|]; (split; [intros H; try discriminate | intros H; pose proof (Forall_inv H) as (H1 & lo & hi & H2); cbn in H2; try discriminate]).
    + constructor; [cbn; eauto | apply IH, H].
    + apply IH, (Forall_inv_tail H).
  - split; [discriminate|]. intros H. destruct (Forall_inv H) as (H1 & _). cbn in H1. assert (existsb (Nat.eqb key) names = true) by (apply existsb_exists; exists key; split; [exact H1 | apply Nat.eqb_refl]). congruence.
Qed.
Lemma index_in mapping key : In key (map fst mapping) -> exists i, index_of mapping key = Some i /\ In (key, i) mapping.
Proof.
  intros H. unfold index_of. destruct (find _ (rev mapping)) as [[k i]|] eqn:E.
  - apply find_some in E. destruct E as [Hi Hk]. cbn in Hk. apply Nat.eqb_eq in Hk. subst k. exists i. split; [reflexivity|]. apply in_rev in Hi. exact Hi.
  - exfalso. apply in_map_iff in H. destruct H as ([k i] & Ek & Hi). cbn in Ek. subst k. apply in_rev in Hi. apply (find_none _ _ E) in Hi. cbn in Hi. rewrite Nat.eqb_refl in Hi. discriminate.
Qed.
(** C56.  For scalar parameters with different names (the i-th model has index i), the transformer has for each parameter the bounds given
    under its name and no bounds if there are none; anything else - an unknown name, an entry that is not a pair, an upper bound alone -
    is refused. *)
Theorem C56_bounds : forall names bounds bs, NoDup names -> NoDup (map fst bounds) ->
  mcmc_bounds (combine names (seq 0 (length names))) bounds = Ok bs <->
  Forall (fun kv => In (fst kv) names /\ exists lo hi, snd kv = Some [lo; hi] /\ (lo = None -> hi = None)) bounds
  /\ length bs = length names /\ forall i name, nth_error names i = Some name -> exists b, nth_error bs i = Some b /\ asked bounds name b.
Proof.
  intros names bounds bs Hn Hb. unfold mcmc_bounds. set (mapping := combine names (seq 0 (length names))).
  assert (Hlen : length mapping = length names) by (unfold mapping; rewrite combine_length, seq_length; lia).
  assert (Hfst : map fst mapping = names). { unfold mapping. generalize 0. clear. induction names as [|x names IH]; intros k; cbn; [reflexivity | f_equal; apply IH]. }
  assert (Hin : forall key i, In (key, i) mapping <-> nth_error names i = Some key).
  { unfold mapping. assert (G : forall (l : list nat) k key i, In (key, i) (combine l (seq k (length l))) <-> k <= i /\ nth_error l (i - k) = Some key).
    { clear. induction l as [|x l IH]; intros k key i; cbn; [split; [intros [] | intros [_ H]; destruct (i - k); discriminate]|]. rewrite IH. split.
      - intros [E|[H1 H2]]; [injection E as <- <-; rewrite Nat.sub_diag; auto|]. split; [lia|]. replace (i - k) with (S (i - S k)) by lia. exact H2.
      - intros [H1 H2]. destruct (Nat.eq_dec i k) as [->|Hne]; [rewrite Nat.sub_diag in H2; cbn in H2; injection H2 as <-; auto|]. right. split; [lia|]. replace (i - k) with (S (i - S k)) in H2 by lia. exact H2. }
    intros key i. rewrite G, Nat.sub_0_r. split; [intros [_ H]; exact H | intros H; split; [lia | exact H]]. }
  rewrite Hfst, Hlen. destruct (bounds_check names bounds) as [[]|e] eqn:Ec.
  2: { split; [discriminate|]. intros (H & _). assert (bounds_check names bounds = Ok tt); [|congruence]. apply check_ok. eapply Forall_impl; [|exact H]. intros [k v] (H1 & lo & hi & H2 & _). eauto. }
  apply check_ok in Ec.
  assert (Hfill : forall todo done lo hi, Forall (fun kv => In (fst kv) names /\ exists a b, snd kv = Some [a; b]) todo -> NoDup (map fst (done ++ todo)) -> length lo = length names -> length hi = length names ->
    (forall i name, nth_error names i = Some name -> exists a b, nth_error lo i = Some a /\ nth_error hi i = Some b /\ asked done name (a, b)) ->
    exists lo' hi', bounds_fill mapping todo lo hi = Ok (lo', hi') /\ length lo' = length names /\ length hi' = length names
      /\ forall i name, nth_error names i = Some name -> exists a b, nth_error lo' i = Some a /\ nth_error hi' i = Some b /\ asked (done ++ todo) name (a, b)).
  { induction todo as [|[key v] todo IH]; intros done lo hi Ht Hnd Hlo Hhi Hinv; cbn [bounds_fill].
    - exists lo, hi. split; [reflexivity|]. split; [exact Hlo|]. split; [exact Hhi|]. rewrite app_nil_r. exact Hinv.
    - destruct (Forall_inv Ht) as (Hk & a & b & Ev). cbn in Hk, Ev. subst v. destruct (index_in mapping key) as (i & -> & Hi); [rewrite Hfst; exact Hk|]. apply Hin in Hi.
      assert (Hlt : i < length names) by (apply nth_error_Some; congruence). rewrite Hlo. destruct (Nat.ltb_spec i (length names)) as [_|]; [|lia].
      replace (done ++ (key, Some [a; b]) :: todo) with ((done ++ [(key, Some [a; b])]) ++ todo) in * by (rewrite <- app_assoc; reflexivity).
      apply IH; [exact (Forall_inv_tail Ht) | exact Hnd | rewrite lset_len; exact Hlo | rewrite lset_len; exact Hhi|]. intros j name Hj. rewrite !lset_nth by lia. destruct (Nat.eqb_spec j i) as [->|Hne].
      + assert (name = key) by congruence. subst name. exists a, b. split; [reflexivity|]. split; [reflexivity|]. left. exists a, b. split; [apply in_or_app; right; left; reflexivity | reflexivity].
      + destruct (Hinv j name Hj) as (a' & b' & E1 & E2 & Ha). exists a', b'. split; [exact E1|]. split; [exact E2|]. destruct Ha as [(l & h & H1 & H2) | [H1 H2]]; [left; exists l, h; split; [apply in_or_app; left; exact H1 | exact H2]|].
        right. split; [|exact H2]. rewrite map_app, in_app_iff. cbn. intros [H|[H|[]]]; [exact (H1 H)|]. subst name. apply Hne. eapply (proj1 (NoDup_nth_error names) Hn); [apply nth_error_Some; congruence | congruence]. }
  assert (Hrep : forall {A} (x : A) n i, i < n -> nth_error (repeat x n) i = Some x) by (clear; intros A x; induction n as [|n IH]; intros [|i] H; cbn; try lia; [reflexivity | apply IH; lia]).
  destruct (Hfill bounds [] (repeat None (length names)) (repeat None (length names)) Ec Hb) as (lo & hi & -> & Hlo & Hhi & Hall); [apply repeat_length | apply repeat_length | |].
  { intros i name Hi. assert (i < length names) by (apply nth_error_Some; congruence). exists None, None. rewrite !Hrep by assumption. split; [reflexivity|]. split; [reflexivity|]. right. split; [intros [] | reflexivity]. }
  cbn [app] in Hall. destruct (C30_init lo hi) as [Hinit _]. rewrite Hinit.
  assert (Hco : forall i a b, nth_error lo i = Some a -> nth_error hi i = Some b -> nth_error (combine lo hi) i = Some (a, b)).
  { clear. revert hi. induction lo as [|x lo IH]; intros [|y hi] [|i] a b H1 H2; cbn in *; try discriminate; [congruence | apply (IH hi i a b H1 H2)]. }
  assert (Huniq : forall name b b', asked bounds name b -> asked bounds name b' -> b = b').
  { intros name b b' [(l & h & H1 & ->) | [H1 ->]] [(l' & h' & H1' & ->) | [H1' ->]]; try (exfalso; apply H1 || apply H1'; apply in_map_iff; eexists; split; [|eassumption]; reflexivity); [|reflexivity].
    assert (G : forall l0, NoDup (map fst l0) -> forall (k : nat) (v v' : value), In (k, v) l0 -> In (k, v') l0 -> v = v').
    { clear. induction l0 as [|[k0 v0] l0 IH]; intros Hnd k v v' H H'; [destruct H|]. cbn in Hnd. apply NoDup_cons_iff in Hnd. destruct Hnd as [Hni Hnd]. destruct H as [H|H], H' as [H'|H'].
      - congruence.
      - injection H as -> ->. exfalso. apply Hni. apply in_map_iff. exists (k, v'). auto.
      - injection H' as -> ->. exfalso. apply Hni. apply in_map_iff. exists (k, v). auto.
      - eapply IH; eassumption. }
    pose proof (G bounds Hb name _ _ H1 H1') as E. injection E as -> ->. reflexivity. }
  assert (Hcl : length (combine lo hi : list bnd) = length names) by (etransitivity; [apply combine_length | rewrite Hlo, Hhi; apply Nat.min_id]).
  split.
  - intros (_ & -> & Hup). split; [|split].
    + apply Forall_forall. intros [key v] Hkv. rewrite Forall_forall in Ec. destruct (Ec _ Hkv) as (Hk & a & b & Ev). cbn [fst snd] in *. subst v. split; [exact Hk|]. exists a, b. split; [reflexivity|]. intros ->.
      apply In_nth_error in Hk. destruct Hk as (i & Hi). destruct (Hall i key Hi) as (a' & b' & E1 & E2 & Ha). assert (E : (a', b') = (None, b)) by (eapply Huniq; [exact Ha | left; exists None, b; auto]). injection E as -> ->.
      destruct b as [h|]; [exfalso; exact (Hup i h E1 E2) | reflexivity].
    + exact Hcl.
    + intros i name Hi. destruct (Hall i name Hi) as (a & b & E1 & E2 & Ha). exists (a, b). split; [apply Hco; assumption | exact Ha].
  - intros (Hf & Hl & Hnth). split; [congruence|]. split.
    + apply list_ext'. intros i. destruct (nth_error names i) as [name|] eqn:Ei.
      * destruct (Hnth i name Ei) as (b & -> & Hbn). destruct (Hall i name Ei) as (a' & b' & E1 & E2 & Ha). symmetry. etransitivity; [exact (Hco i a' b' E1 E2)|]. f_equal. eapply Huniq; eassumption.
      * apply nth_error_None in Ei. rewrite (proj2 (nth_error_None bs i)) by lia. symmetry. apply nth_error_None. rewrite Hcl. exact Ei.
    + intros i h E1 E2. assert (Hi : i < length names) by (rewrite <- Hlo; apply nth_error_Some; congruence). destruct (nth_error names i) as [name|] eqn:Ei; [|apply nth_error_None in Ei; lia].
      destruct (Hall i name Ei) as (a' & b' & E1' & E2' & Ha). rewrite E1 in E1'. rewrite E2 in E2'. injection E1' as <-. injection E2' as <-. destruct Ha as [(l & hh & H1 & E) | [_ E]]; [|discriminate]. injection E as <- <-.
      rewrite Forall_forall in Hf. destruct (Hf _ H1) as (_ & l' & h' & E' & Hno). injection E' as <- <-. specialize (Hno eq_refl). discriminate.
Qed.
Print Assumptions C56_bounds.
(** C56.  Refuted for parameters that are not scalar: the arrays of bounds have one entry per model, the indices count components
    (inferences.py:4227,4249): a bound on the scalar second parameter after a two-dimensional first one is an IndexError. *)
Theorem C56_multidim_refuted : ~ (forall mapping bounds, NoDup (map fst mapping) -> NoDup (map fst bounds) -> Forall (fun kv => In (fst kv) (map fst mapping) /\ exists lo hi, snd kv = Some [Some lo; Some hi]) bounds -> exists bs, mcmc_bounds mapping bounds = Ok bs).
Proof.
  intros H. destruct (H [(0, 0); (1, 2)] [(1, Some [Some 0%R; Some 1%R])]) as (bs & E); [| | |cbn in E; discriminate].
  - repeat constructor; cbn; intuition lia.
  - repeat constructor; cbn; intuition.
  - constructor; [|constructor]. cbn. split; [auto|]. eauto.
Qed.
Print Assumptions C56_multidim_refuted.
(** two models with the same name: the bounds go to the last one only *)
Example C56_same_name : mcmc_bounds [(7, 0); (7, 1)] [(7, Some [Some 0%R; None])] = Ok [(None, None); (Some 0%R, None)].
Proof. reflexivity. Qed.
Example C56_case : mcmc_bounds [(7, 0); (8, 1); (9, 2)] [(9, Some [Some 0%R; Some 1%R]); (7, Some [Some 2%R; None])] = Ok [(Some 2%R, None); (None, None); (Some 0%R, Some 1%R)].
Proof. reflexivity. Qed.
