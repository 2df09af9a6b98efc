(** Proofs about the journal: histories, effective sample size. *)
From Verif Require Import M_Base M_Journal S_Journal.
From Coq Require Import Permutation Lqa.

(** * Recording and reading *)
Lemma kept_put {A} t (l : list A) x : t = 0 \/ t = 1 -> put t (kept t l) x = kept t (l ++ [x]).
Proof. intros [-> | ->]; unfold put, kept; cbn; [rewrite rev_app_distr|]; reflexivity. Qed.
Lemma kept_nil {A} t : kept t (@nil A) = [].
Proof. unfold kept. destruct (t =? 0); reflexivity. Qed.

Section H.
Variables (Name E S C D : Type) (neqb : Name -> Name -> bool).
Notation journal := (journal Name E S C D).
Lemma history t (j : journal) os : new t = Ok j ->
  let j' := adds neqb j os in
  jtype j' = t /\ j_acc j' = kept t (accs os) /\ j_names j' = kept t (map (dict_of neqb) (users os)) /\ j_sims j' = kept t (sims os)
  /\ j_covs j' = kept t (covs os) /\ j_weights j' = kept t (wts os) /\ j_ess j' = kept t (esss os) /\ j_dists j' = kept t (dsts os).
Proof.
  intros H j'. assert (Ht : t = 0 \/ t = 1).
  { unfold new in H. destruct (Nat.eqb_spec t 0); [auto|]. destruct (Nat.eqb_spec t 1); [auto | discriminate]. }
  assert (Hj : j = mkj t [] [] [] [] [] [] [] [] None false) by (unfold new in H; destruct ((t =? 0) || (t =? 1)); congruence).
  subst j'. induction os as [|o os IH] using rev_ind.
  - subst j. cbn. rewrite !kept_nil. repeat (split; [reflexivity|]). reflexivity.
  - unfold adds in *. rewrite fold_left_app. cbn [fold_left]. destruct IH as (I0 & I1 & I2 & I3 & I4 & I5 & I6 & I7).
    unfold accs, users, sims, covs, wts, esss, dsts in *. rewrite !flat_map_app.
    set (jj := fold_left (fun j o => fst (add neqb j o)) os j) in *.
    destruct o; cbn [flat_map app add fst jtype j_acc j_names j_sims j_covs j_weights j_ess j_dists]; rewrite ?app_nil_r, ?map_app; cbn [map];
      try (rewrite I0, I1, I2, I3, I4, I5, I6, I7, kept_put by exact Ht; repeat (split; [reflexivity|]); reflexivity).
    destruct (ess_of w) as [v|e]; cbn [flat_map app fst jtype j_acc j_names j_sims j_covs j_weights j_ess j_dists]; rewrite ?app_nil_r.
    + rewrite I0, I1, I2, I3, I4, I5, I6, I7, kept_put by exact Ht. repeat (split; [reflexivity|]). reflexivity.
    + repeat (split; [assumption|]). assumption.
Qed.
End H.

Lemma pyget_spec {A} (l : list A) i : pyget l i = or_index (at_pos l i).
Proof.
  unfold pyget, at_pos, or_index. destruct (Z.ltb_spec i 0) as [H|H].
  - destruct (Z.leb_spec 0 i); [lia|]. destruct (Z.ltb_spec (i + Z.of_nat (length l)) 0) as [H1|H1].
    + assert (En : nth_error (rev l) (Z.to_nat (- i - 1)) = None) by (apply nth_error_None; rewrite rev_length; lia). rewrite En. reflexivity.
    + assert (E : nth_error l (Z.to_nat (i + Z.of_nat (length l))) = nth_error (rev l) (Z.to_nat (- i - 1))).
      { assert (Hlt : Z.to_nat (- i - 1) < length l) by lia. destruct l as [|d l']; [cbn in *; lia|].
        rewrite (nth_error_nth' (rev (d :: l')) d) by (rewrite rev_length; exact Hlt). rewrite rev_nth by exact Hlt.
        rewrite (nth_error_nth' (d :: l') d) by lia. f_equal. f_equal. lia. }
      rewrite E. reflexivity.
  - destruct (Z.leb_spec 0 i); [|lia]. destruct (Z.ltb_spec i 0); [lia|]. reflexivity.
Qed.
Lemma at_last {A} (l : list A) : at_pos l (-1) = latest l.
Proof. reflexivity. Qed.
Lemma at_len1 {A} (l : list A) : at_pos l (Z.of_nat (length l) - 1) = latest l.
Proof.
  unfold at_pos, latest. destruct l as [|d l'] using rev_ind; [reflexivity|]. rewrite rev_app_distr. cbn [rev app nth_error].
  destruct (Z.leb_spec 0 (Z.of_nat (length (l' ++ [d])) - 1)) as [H|H]; rewrite app_length in *; cbn [length] in *; [|lia].
  rewrite nth_error_app2 by lia. replace (Z.to_nat (Z.of_nat (length l' + 1) - 1) - length l') with 0 by lia. reflexivity.
Qed.
Lemma latest_kept {A} t (l : list A) : latest (kept t l) = latest l.
Proof. unfold latest, kept. destruct (t =? 0); [|reflexivity]. destruct (rev l) as [|x r]; reflexivity. Qed.

(** * Dictionaries *)
Section Dict.
Variables (K V : Type) (eqb : K -> K -> bool).
Hypothesis eqb_spec : forall a b, reflect (a = b) (eqb a b).
Lemma dget_dset (d : list (K * V)) k v k' : dget eqb (dset eqb d k v) k' = if eqb k' k then Some v else dget eqb d k'.
Proof.
  induction d as [|[k0 v0] d IH]; cbn.
  - destruct (eqb_spec k' k); reflexivity.
  - destruct (eqb_spec k k0) as [->|Hne]; cbn.
    + destruct (eqb_spec k' k0); reflexivity.
    + rewrite IH. destruct (eqb_spec k' k0) as [->|]; [|reflexivity]. destruct (eqb_spec k0 k) as [E|]; [congruence | reflexivity].
Qed.
Lemma dget_dict (l : list (K * V)) k : dget eqb (dict_of eqb l) k = last_value eqb l k.
Proof.
  unfold dict_of, last_value. induction l as [|[k0 v0] l IH] using rev_ind; [reflexivity|].
  rewrite fold_left_app, rev_app_distr. cbn [fold_left rev app find fst snd]. rewrite dget_dset, IH.
  destruct (eqb_spec k k0); reflexivity.
Qed.
Lemma dset_new d k (v : V) : ~ In k (map fst d) -> dset eqb d k v = d ++ [(k, v)].
Proof.
  induction d as [|[k0 v0] d IH]; cbn; intros H; [reflexivity|]. destruct (eqb_spec k k0) as [->|]; [tauto|]. rewrite IH by tauto. reflexivity.
Qed.
Lemma dict_nodup (l : list (K * V)) : NoDup (map fst l) -> dict_of eqb l = l.
Proof.
  unfold dict_of. induction l as [|[k v] l IH] using rev_ind; intros H; [reflexivity|].
  rewrite map_app in H. cbn in H. rewrite fold_left_app. cbn [fold_left fst snd].
  assert (H1 : NoDup (map fst l)). { apply NoDup_remove_1 in H. rewrite app_nil_r in H. exact H. }
  assert (H2 : ~ In k (map fst l)). { apply NoDup_remove_2 in H. rewrite app_nil_r in H. exact H. }
  rewrite (IH H1). apply dset_new. exact H2.
Qed.
End Dict.

(** * Sums of rationals *)
Open Scope Q_scope.
Global Arguments Qplus : simpl never.
Global Arguments Qmult : simpl never.
Global Arguments Qminus : simpl never.
Global Arguments Qopp : simpl never.
Global Arguments Qdiv : simpl never.
Global Arguments Qinv : simpl never.
Global Arguments Qle : simpl never.
Global Arguments Qlt : simpl never.
Global Arguments Qeq : simpl never.
Global Arguments Qeq_bool : simpl never.
Global Arguments inject_Z : simpl never.
Lemma qsum_app l l' : qsum (l ++ l') == qsum l + qsum l'.
Proof. induction l as [|x l IH]; cbn; [ring|]. rewrite IH. ring. Qed.
Lemma qsum_nonneg l : Forall (fun x => 0 <= x) l -> 0 <= qsum l.
Proof. induction 1; cbn; [lra|]. lra. Qed.
Lemma qsum_scale c l : qsum (map (fun x => c * x) l) == c * qsum l.
Proof. induction l as [|x l IH]; cbn; [ring|]. rewrite IH. ring. Qed.
Lemma qsum_perm l l' : Permutation l l' -> qsum l == qsum l'.
Proof. induction 1; cbn; [reflexivity | rewrite IHPermutation; reflexivity | ring | etransitivity; eassumption]. Qed.
Lemma qsum_ext {A} (f g : A -> Q) l : (forall x, In x l -> f x == g x) -> qsum (map f l) == qsum (map g l).
Proof.
  induction l as [|x l IH]; intros H; cbn; [reflexivity|]. rewrite (H x) by (left; reflexivity). rewrite IH; [reflexivity|]. intros y Hy. apply H. right. exact Hy.
Qed.
Definition q2 (l : list Q) : Q := qsum (map qsq l).
Definition qlen (l : list Q) : Q := inject_Z (Z.of_nat (length l)).
Lemma qlen_cons x l : qlen (x :: l) == qlen l + 1.
Proof. unfold qlen. cbn [length]. rewrite Nat2Z.inj_succ, <- Z.add_1_r, inject_Z_plus. reflexivity. Qed.
Lemma qsq_nonneg x : 0 <= qsq x.
Proof. unfold qsq. nra. Qed.
Lemma q2_nonneg l : 0 <= q2 l.
Proof. unfold q2. apply qsum_nonneg. apply Forall_forall. intros x Hx. apply in_map_iff in Hx. destruct Hx as (y & <- & _). apply qsq_nonneg. Qed.
(** sum of (w - x)^2 *)
Lemma dev l x : qsum (map (fun w => qsq (w - x)) l) == q2 l - 2 * x * qsum l + qlen l * qsq x.
Proof.
  induction l as [|w l IH]; [unfold q2, qlen, qsq; cbn; ring|]. cbn [map qsum]. 
  rewrite IH, qlen_cons. unfold q2. cbn [map qsum].  unfold qsq. ring.
Qed.
Lemma dev_nonneg l x : 0 <= qsum (map (fun w => qsq (w - x)) l).
Proof. apply qsum_nonneg. apply Forall_forall. intros y Hy. apply in_map_iff in Hy. destruct Hy as (z & <- & _). apply qsq_nonneg. Qed.
Lemma sum0_all0 l : Forall (fun x => 0 <= x) l -> qsum l == 0 -> Forall (fun x => x == 0) l.
Proof.
  induction 1 as [|x l Hx Hl IH]; cbn; intros H; constructor.
  - pose proof (qsum_nonneg l Hl). lra.
  - apply IH. pose proof (qsum_nonneg l Hl). lra.
Qed.
Lemma cauchy l : qsq (qsum l) <= qlen l * q2 l.
Proof.
  induction l as [|x l IH]; [unfold qsq, qlen, q2; cbn; lra|]. rewrite qlen_cons. unfold q2. cbn [map qsum].
   fold (q2 l). pose proof (dev_nonneg l x) as H. rewrite dev in H. unfold qsq in *. nra.
Qed.
Lemma cauchy_eq l : qsq (qsum l) == qlen l * q2 l -> forall x y, In x l -> In y l -> x == y.
Proof.
  induction l as [|x l IH]; [intros _ ? ? []|]. intros H.
  pose proof (dev_nonneg l x) as H1. pose proof (cauchy l) as H2.
  rewrite qlen_cons in H. unfold q2 in H. cbn [map qsum] in H. fold (q2 l) in H.
  assert (Hdev : qsum (map (fun w => qsq (w - x)) l) == 0). { rewrite dev in *. unfold qsq in *. nra. }
  assert (Hx : forall y, In y l -> y == x).
  { apply sum0_all0 in Hdev; [|apply Forall_forall; intros z Hz; apply in_map_iff in Hz; destruct Hz as (w & <- & _); apply qsq_nonneg].
    rewrite Forall_forall in Hdev. intros y Hy. specialize (Hdev (qsq (y - x)) (in_map _ _ _ Hy)). unfold qsq in Hdev. nra. }
  intros a b [<-|Ha] [<-|Hb]; try reflexivity; [symmetry; auto | auto |]. rewrite (Hx a Ha), (Hx b Hb). reflexivity.
Qed.
Lemma all_eq_cauchy l x : (forall y, In y l -> y == x) -> qsq (qsum l) == qlen l * q2 l.
Proof.
  intros H. assert (E1 : qsum l == qlen l * x /\ q2 l == qlen l * qsq x).
  { induction l as [|y l IH]; [split; unfold q2, qlen; cbn; ring|]. destruct IH as [I1 I2]; [intros z Hz; apply H; right; exact Hz|].
    assert (Hy : y == x) by (apply H; left; reflexivity).
    split.
    - cbn. rewrite I1, qlen_cons, Hy. ring.
    - unfold q2. cbn [map qsum].  fold (q2 l). rewrite I2, qlen_cons. unfold qsq. rewrite Hy. ring. }
  destruct E1 as [E1 E2]. rewrite E2. unfold qsq. rewrite E1. ring.
Qed.
Lemma sq_ge l : Forall (fun x => 0 <= x) l -> q2 l <= qsq (qsum l).
Proof.
  induction 1 as [|x l Hx Hl IH]; [unfold q2, qsq; cbn; lra|]. unfold q2. cbn [map qsum].  fold (q2 l).
  pose proof (qsum_nonneg l Hl). unfold qsq in *. nra.
Qed.
Fixpoint count_pos (l : list Q) : nat := match l with [] => 0%nat | x :: l' => if Qeq_bool x 0 then count_pos l' else S (count_pos l') end.
Lemma count0 l : count_pos l = 0%nat -> qsum l == 0 /\ q2 l == 0.
Proof.
  induction l as [|x l IH]; [intros _; split; reflexivity|]. cbn [count_pos]. destruct (Qeq_bool x 0) eqn:E; [|discriminate]. intros H.
  apply Qeq_bool_iff in E. destruct (IH H) as [A B]. split; [cbn; rewrite E, A; ring|].
  unfold q2. cbn [map qsum].  fold (q2 l). rewrite B. unfold qsq. rewrite E. ring.
Qed.
Lemma sum0_count l : Forall (fun x => 0 <= x) l -> qsum l == 0 -> count_pos l = 0%nat.
Proof.
  intros Hn H. pose proof (sum0_all0 l Hn H) as Hz. induction Hz as [|x l Hx _ IH]; [reflexivity|]. cbn. apply Qeq_bool_iff in Hx. rewrite Hx.
  inversion Hn; subst. apply IH; [assumption|]. apply Qeq_bool_iff in Hx. cbn in H. lra.
Qed.
Lemma sq_eq_iff l : Forall (fun x => 0 <= x) l -> (q2 l == qsq (qsum l) <-> (count_pos l <= 1)%nat).
Proof.
  induction 1 as [|x l Hx Hl IH]; [split; [cbn; lia | reflexivity]|]. unfold q2. cbn [map qsum count_pos].  fold (q2 l).
  pose proof (qsum_nonneg l Hl) as Hs. pose proof (sq_ge l Hl) as Hg. destruct (Qeq_bool x 0) eqn:E.
  - apply Qeq_bool_iff in E. rewrite <- IH. unfold qsq in *. split; intros H; [nra|]. rewrite E. rewrite H. ring.
  - apply Qeq_bool_neq in E. assert (0 < x) by (destruct (Qlt_le_dec 0 x); [assumption | exfalso; apply E; lra]). split; intros H0.
    + assert (Hz : qsum l == 0). { unfold qsq in *. destruct (Qlt_le_dec 0 (qsum l)) as [Hp|Hp]; [exfalso; nra | lra]. }
      rewrite (sum0_count l Hl Hz). lia.
    + assert (Hc : count_pos l = 0%nat) by lia. destruct (count0 l Hc) as [A B]. unfold qsq. rewrite A, B. ring.
Qed.

(** * Effective sample size *)
Lemma ess_formula l v : ess_of (Col l) = Ok (Some v) -> v == qsq (qsum l) / q2 l /\ ~ qsum l == 0 /\ 0 < q2 l.
Proof.
  cbn. destruct (Qeq_bool (qsum l) 0) eqn:E; [discriminate|]. intros H. inversion H; subst v. apply Qeq_bool_neq in E.
  assert (Hq2 : 0 < q2 l).
  { pose proof (q2_nonneg l). pose proof (cauchy l). destruct (Qlt_le_dec 0 (q2 l)) as [|Hle]; [assumption|]. exfalso. apply E.
    assert (q2 l == 0) by lra. rewrite H2 in H1. unfold qsq in H1. nra. }
  split; [|auto].
  assert (Hs : qsum (map (fun x => qsq (x / qsum l)) l) == q2 l / qsq (qsum l)).
  { unfold q2. rewrite <- (Qmult_1_l (qsum (map qsq l) / qsq (qsum l))). unfold Qdiv. rewrite Qmult_1_l, Qmult_comm, <- qsum_scale, map_map. apply qsum_ext. intros x _. unfold qsq, Qdiv. field. exact E. }
  rewrite Hs. unfold qsq in *. field. split; [lra | exact E].
Qed.
Lemma ess_defined l : Forall (fun x => 0 <= x) l -> (exists x, In x l /\ 0 < x) -> exists v, ess_of (Col l) = Ok (Some v).
Proof.
  intros Hn (x & Hx & Hp). cbn. destruct (Qeq_bool (qsum l) 0) eqn:E; [|eauto]. exfalso. apply Qeq_bool_iff in E.
  pose proof (sum0_all0 l Hn E) as Hz. rewrite Forall_forall in Hz. specialize (Hz x Hx). lra.
Qed.
Lemma ess_range l v : Forall (fun x => 0 <= x) l -> ess_of (Col l) = Ok (Some v) ->
  1 <= v <= inject_Z (Z.of_nat (length l)).
Proof.
  intros Hn H. destruct (ess_formula l v H) as (E & Hs & Hq). rewrite E. fold (qlen l). split.
  - apply Qle_shift_div_l; [exact Hq|]. rewrite Qmult_1_l. apply sq_ge. exact Hn.
  - apply Qle_shift_div_r; [exact Hq|]. apply cauchy.
Qed.
Lemma div_eq_iff a b c : 0 < b -> (a / b == c <-> a == c * b).
Proof. intros H. split; intros E; [rewrite <- E; field; lra | rewrite E; field; lra]. Qed.
Lemma ess_max l v : ess_of (Col l) = Ok (Some v) ->
  (v == inject_Z (Z.of_nat (length l)) <-> forall x y, In x l -> In y l -> x == y).
Proof.
  intros H. destruct (ess_formula l v H) as (E & Hs & Hq). rewrite E. rewrite div_eq_iff by exact Hq. split.
  - apply cauchy_eq.
  - intros Hall. destruct l as [|x l]; [exfalso; apply Hs; reflexivity|]. apply (all_eq_cauchy (x :: l) x). intros y Hy. apply Hall; [exact Hy | left; reflexivity].
Qed.
Lemma ess_min l v : Forall (fun x => 0 <= x) l -> ess_of (Col l) = Ok (Some v) ->
  (v == 1 <-> count_pos l = 1%nat).
Proof.
  intros Hn H. destruct (ess_formula l v H) as (E & Hs & Hq). rewrite E. rewrite div_eq_iff by exact Hq. rewrite Qmult_1_l.
  assert (Hc : count_pos l <> 0%nat). { intros H0. destruct (count0 l H0) as [A _]. contradiction. }
  split; intros H1; [symmetry in H1; apply sq_eq_iff in H1; [lia | exact Hn] | symmetry; apply sq_eq_iff; [exact Hn | lia]].
Qed.
Lemma ess_rescale c l v v' : ~ c == 0 -> ess_of (Col l) = Ok (Some v) -> ess_of (Col (map (fun x => c * x) l)) = Ok (Some v') -> v' == v.
Proof.
  intros Hc H H'. destruct (ess_formula _ _ H) as (E & Hs & Hq). destruct (ess_formula _ _ H') as (E' & Hs' & Hq'). 
  assert (E2 : q2 (map (fun x => c * x) l) == c * c * q2 l).
  { unfold q2. rewrite map_map, <- qsum_scale, map_map. apply qsum_ext. intros x _. unfold qsq. ring. }
  rewrite E, E', E2. unfold qsq. rewrite qsum_scale. field. split; [lra | exact Hc].
Qed.
Lemma ess_rescale_defined c l v : ~ c == 0 -> ess_of (Col l) = Ok (Some v) -> exists v', ess_of (Col (map (fun x => c * x) l)) = Ok (Some v').
Proof.
  intros Hc H. destruct (ess_formula _ _ H) as (E & Hs & Hq). cbn. destruct (Qeq_bool (qsum (map (fun x => c * x) l)) 0) eqn:Eb; [|eauto].
  exfalso. apply Qeq_bool_iff in Eb. rewrite qsum_scale in Eb. apply Qmult_integral in Eb. tauto.
Qed.
