(** Lemmas for C72: a leader and workers whose collective calls agree. *)
From Coq Require Import Lia.
From Verif Require Import M_Base M_Nested S_Nested.

Section Team.
Variables Fn Args Kw Val Pk Item : Type.
Variable exec : nat -> Fn -> Args -> Kw -> option Val.
Notation act := (act Fn Args Kw Pk Item).
Notation entry := (entry Fn Args Kw Pk Item).
Notation event := (event Fn Args Kw).
Notation config := (config Fn Args Kw Pk Item).
Notation wst := (wst Fn Args Kw Pk).

Definition coll (a : act) : list entry := match a with Send m => [EVal m] | Bar => [EBar] | _ => [] end.
Definition colls (l : list act) : list entry := flat_map coll l.
Definition isbar (e : entry) : bool := match e with EBar => true | EVal _ => false end.
Definition evt (a : act) : list event := match a with Run f x k => [ERun f x k] | World id => [EWorld id] | _ => [] end.
Definition evts (l : list act) : list event := flat_map evt l.

Lemma firstn_next {A} (l : list A) p x : nth_error l p = Some x -> firstn (S p) l = firstn p l ++ [x] /\ skipn p l = x :: skipn (S p) l.
Proof.
  revert p. induction l as [|y l IH]; intros [|p] H; try discriminate; [injection H as ->; split; reflexivity|]. destruct (IH p H) as [E1 E2]. split; [cbn [firstn app]; f_equal; exact E1|exact E2].
Qed.
Lemma skipn_cons {A} (l : list A) p x r : skipn p l = x :: r -> nth_error l p = Some x /\ r = skipn (S p) l.
Proof. revert p. induction l as [|y l IH]; intros [|p] H; try discriminate; [injection H as -> ->; split; reflexivity|]. cbn [skipn] in H. exact (IH p H). Qed.
Lemma colls_app a b : colls (a ++ b) = colls a ++ colls b.
Proof. apply flat_map_app. Qed.
Lemma evts_app a b : evts (a ++ b) = evts a ++ evts b.
Proof. apply flat_map_app. Qed.
Lemma colls_one a : colls [a] = coll a.
Proof. unfold colls. cbn [flat_map]. apply app_nil_r. Qed.
Lemma evts_one a : evts [a] = evt a.
Proof. unfold evts. cbn [flat_map]. apply app_nil_r. Qed.
Lemma split_lens l : length (colls l) + length (evts l) = length l.
Proof. induction l as [|a l IH]; [reflexivity|]. unfold colls, evts in *. cbn [flat_map]. rewrite !app_length. destruct a; cbn [coll evt length]; lia. Qed.

Section Acts.
Variable acts : list act.
Definition cl (p : nat) : nat := length (colls (firstn p acts)).
Lemma cl_mono p q : p <= q -> cl p <= cl q.
Proof.
  intros H. unfold cl. replace q with (p + (q - p)) by lia. generalize (q - p). intros n. clear. revert p. induction n as [|n IH]; intros p; [rewrite Nat.add_0_r; lia|].
  replace (p + S n) with (S (p + n)) by lia. etransitivity; [apply IH|]. destruct (nth_error acts (p + n)) as [x|] eqn:E; [rewrite (proj1 (firstn_next _ _ _ E)), colls_app, app_length; lia|].
  apply nth_error_None in E. rewrite !firstn_all2 by lia. lia.
Qed.
(** the entry made by the act at position b *)
Lemma entry_at b q a e : nth_error acts b = Some a -> coll a = [e] -> b < q -> nth_error (colls (firstn q acts)) (cl b) = Some e.
Proof.
  intros Ha He Hq. replace q with (S b + (q - S b)) by lia. generalize (q - S b). intros n. induction n as [|n IH].
  - rewrite Nat.add_0_r, (proj1 (firstn_next _ _ _ Ha)), colls_app. rewrite nth_error_app2 by (unfold cl; lia). unfold cl. rewrite Nat.sub_diag. unfold colls. cbn [flat_map]. rewrite He. reflexivity.
  - replace (S b + S n) with (S (S b + n)) by lia. destruct (nth_error acts (S b + n)) as [x|] eqn:E.
    + rewrite (proj1 (firstn_next _ _ _ E)), colls_app. rewrite nth_error_app1; [exact IH|]. apply nth_error_Some. congruence.
    + apply nth_error_None in E. rewrite firstn_all2 in IH |- * by lia. exact IH.
Qed.
Lemma entry_reached b q e a : nth_error acts b = Some a -> coll a <> [] -> nth_error (colls (firstn q acts)) (cl b) = Some e -> b < q /\ coll a = [e].
Proof.
  intros Ha Hn He. assert (Hq : b < q). { destruct (Nat.lt_ge_cases b q) as [L|G]; [exact L|]. exfalso. assert (X : cl b < length (colls (firstn q acts))) by (apply nth_error_Some; congruence). pose proof (cl_mono q b G). unfold cl in *. lia. }
  split; [exact Hq|]. destruct (coll a) as [|e' r] eqn:C; [congruence|]. assert (r = []) as -> by (destruct a; cbn in C; congruence). rewrite (entry_at b q a e' Ha C Hq) in He. congruence.
Qed.
Lemma cl_next b a : nth_error acts b = Some a -> cl (S b) = cl b + length (coll a).
Proof. intros H. unfold cl. rewrite (proj1 (firstn_next _ _ _ H)), colls_app, app_length. unfold colls at 2. cbn [flat_map]. rewrite app_nil_r. reflexivity. Qed.

(** a worker of rank r in state s follows the acts and ends in state e *)
Fixpoint follows (r : nat) (s : wst) (l : list act) (e : wst) : Prop :=
  match l with
  | [] => s = e
  | Send m :: l' => needs s = Receives /\ follows r (receive s m) l' e
  | Bar :: l' => needs s = Waits /\ follows r (after_barrier s) l' e
  | Run f a k :: l' => needs s = Calls f a k /\ follows r (after_local exec r s) l' e
  | World id :: l' => needs s = Gets id /\ follows r (after_local exec r s) l' e
  end.
Variable N : nat.
(** position and barrier flag of a rank *)
Definition inside (c : config) (r : nat) : bool := match r with O => lin (fst c) | _ => win (snd c r) end.
Definition leader_inv (l : leader Fn Args Kw Pk Item) (p : nat) : Prop :=
  p <= length acts /\ la l = skipn p acts /\ lh l = colls (firstn p acts) /\ lev l = evts (firstn p acts) /\ (lin l = true -> exists b, p = S b /\ nth_error acts b = Some Bar).
(** the worker follows the first [lim] acts and arrives in state [e] *)
Definition worker_inv (lim : nat) (e : wst) (r : nat) (w : worker Fn Args Kw Pk) (q : nat) : Prop :=
  q <= lim /\ lim <= length acts /\ wh w = map isbar (colls (firstn q acts)) /\ wev w = evts (firstn q acts) /\
  if win w then (exists b, q = S b /\ nth_error acts b = Some Bar) /\ needs (ws w) = Waits /\ follows r (after_barrier (ws w)) (firstn (lim - q) (skipn q acts)) e
  else follows r (ws w) (firstn (lim - q) (skipn q acts)) e.
(** ... or it has then entered a barrier where the leader broadcasts *)
Definition lost (lim : nat) (w : worker Fn Args Kw Pk) (q : nat) : Prop :=
  q = lim /\ win w = true /\ needs (ws w) = Waits /\ length (wh w) = S (cl lim) /\ (forall j, j < cl lim -> nth_error (wh w) j = nth_error (map isbar (colls (firstn q acts))) j) /\ exists m, nth_error acts lim = Some (Send m).
Definition worker_ok (lim : nat) (e : wst) (r : nat) (w : worker Fn Args Kw Pk) (q : nat) : Prop := worker_inv lim e r w q \/ lost lim w q.
Definition left_barrier (pos : nat -> nat) (c : config) (b r : nat) : Prop := b < pos r /\ ~ (S b = pos r /\ inside c r = true).
Definition law (pos : nat -> nat) (c : config) : Prop :=
  forall b r r', nth_error acts b = Some Bar -> r <= N -> r' <= N -> left_barrier pos c b r -> b < pos r'.

Lemma wh_len (w : worker Fn Args Kw Pk) q : wh w = map isbar (colls (firstn q acts)) -> length (wh w) = cl q.
Proof. intros ->. rewrite map_length. reflexivity. Qed.
Lemma next_act lim q x r : q <= lim -> lim <= length acts -> firstn (lim - q) (skipn q acts) = x :: r -> q < lim /\ nth_error acts q = Some x /\ r = firstn (lim - S q) (skipn (S q) acts).
Proof.
  intros H1 H2 E. destruct (lim - q) as [|n] eqn:D; [discriminate|]. destruct (skipn q acts) as [|y l] eqn:S1; [discriminate|]. cbn [firstn] in E. injection E as -> E. apply skipn_cons in S1. destruct S1 as [S1 ->].
  split; [lia|]. split; [exact S1|]. replace (lim - S q) with n by lia. symmetry. exact E.
Qed.

(** one step of a worker that still follows the acts *)
Definition upd (pos : nat -> nat) (r q : nat) : nat -> nat := fun x => if x =? r then q else pos x.
Lemma law_move pos c c' r0 : law pos c -> inside c r0 = false -> (nth_error acts (pos r0) = Some Bar -> inside c' r0 = true) ->
  (forall r, r <> r0 -> inside c' r = inside c r) -> law (upd pos r0 (S (pos r0))) c'.
Proof.
  intros HL H0 HB HO b r r' Hb Hr Hr' [L1 L2]. assert (G : forall x, pos x <= upd pos r0 (S (pos r0)) x) by (intros x; unfold upd; destruct (Nat.eqb_spec x r0); subst; lia).
  apply Nat.lt_le_trans with (pos r'); [|apply G]. unfold upd in L1, L2. destruct (Nat.eqb_spec r r0) as [->|N0].
  - destruct (Nat.eq_dec b (pos r0)) as [->|Nb]; [exfalso; apply L2; split; [reflexivity|apply HB; exact Hb]|]. apply (HL b r0 r' Hb Hr Hr'). split; [lia|]. intros [_ X]. congruence.
  - apply (HL b r r' Hb Hr Hr'). split; [exact L1|]. intros [X Y]. apply L2. split; [exact X|]. rewrite HO by exact N0. exact Y.
Qed.
Lemma law_leave pos c c' r0 : law pos c -> (forall r, r <> r0 -> inside c' r = inside c r) -> (forall b r', nth_error acts b = Some Bar -> S b = pos r0 -> r' <= N -> b < pos r') -> law pos c'.
Proof.
  intros HL HO HB b r r' Hb Hr Hr' [L1 L2]. destruct (Nat.eq_dec r r0) as [->|N0].
  - destruct (Nat.eq_dec (S b) (pos r0)) as [E|Ne]; [exact (HB b r' Hb E Hr')|]. apply (HL b r0 r' Hb Hr Hr'). split; [exact L1|]. intros [X _]. contradiction.
  - apply (HL b r r' Hb Hr Hr'). split; [exact L1|]. intros [X Y]. apply L2. split; [exact X|]. rewrite HO by exact N0. exact Y.
Qed.
Lemma inside_set l W i w r : 1 <= i -> inside (l, set W i w) r = if r =? i then win w else inside (l, W) r.
Proof. intros Hi. unfold inside. cbn [fst snd]. destruct r as [|r]; [destruct i; [lia|reflexivity]|]. unfold set. destruct (S r =? i); reflexivity. Qed.
Lemma same_law pos pos' c : (forall r, pos r = pos' r) -> law pos c -> law pos' c.
Proof. intros E H b r r' Hb Hr Hr' [L1 L2]. rewrite <- E. apply (H b r r' Hb Hr Hr'). split; rewrite E; assumption. Qed.

Definition inv (lim : nat -> nat) (e : nat -> wst) (c : config) : Prop :=
  exists pos, leader_inv (fst c) (pos 0) /\ (forall i, 1 <= i <= N -> worker_ok (lim i) (e i) i (snd c i) (pos i)) /\ law pos c.

Lemma upd_same pos r q : upd pos r q r = q.
Proof. unfold upd. rewrite Nat.eqb_refl. reflexivity. Qed.
Lemma upd_other pos r q x : x <> r -> upd pos r q x = pos x.
Proof. intros H. unfold upd. destruct (Nat.eqb_spec x r); congruence. Qed.

(** the leader moves by one act *)
Lemma leader_moves lim e l W pos a h ev b : leader_inv l (pos 0) -> (forall i, 1 <= i <= N -> worker_ok (lim i) (e i) i (W i) (pos i)) -> law pos (l, W) ->
  lin l = false -> la l = a :: h -> (b = true <-> a = Bar) -> ev = lev l ++ evt a -> inv lim e (mkl h (lh l ++ coll a) b ev, W).
Proof.
  intros (L1 & L2 & L3 & L4 & L5) HW HL H0 HA Hb ->. rewrite L2 in HA. apply skipn_cons in HA. destruct HA as [HA ->]. destruct (firstn_next _ _ _ HA) as [F1 _].
  assert (P : pos 0 < length acts) by (apply nth_error_Some; congruence).
  exists (upd pos 0 (S (pos 0))). split; [|split].
  - rewrite upd_same. cbn [fst]. split; [lia|]. split; [reflexivity|]. cbn [la lh lin lev]. rewrite F1, colls_app, evts_app, L3, L4. rewrite colls_one, evts_one. split; [reflexivity|]. split; [reflexivity|].
    intros B. exists (pos 0). split; [reflexivity|]. apply Hb in B. subst. exact HA.
  - intros i Hi. rewrite upd_other by lia. cbn [snd]. apply HW. exact Hi.
  - apply (law_move pos (l, W)); [exact HL|exact H0| |].
    + intros B. rewrite HA in B. injection B as ->. cbn. apply Hb. reflexivity.
    + intros [|r] Hr; [congruence|reflexivity].
Qed.
(** a worker moves by one act *)
Lemma worker_moves lim e l W pos i a s b ev h : leader_inv l (pos 0) -> (forall i, 1 <= i <= N -> worker_ok (lim i) (e i) i (W i) (pos i)) -> law pos (l, W) ->
  1 <= i <= N -> win (W i) = false -> pos i < lim i -> nth_error acts (pos i) = Some a -> (b = true <-> a = Bar) ->
  (if b then needs s = Waits /\ follows i (after_barrier s) (firstn (lim i - S (pos i)) (skipn (S (pos i)) acts)) (e i) else follows i s (firstn (lim i - S (pos i)) (skipn (S (pos i)) acts)) (e i)) ->
  ev = wev (W i) ++ evt a -> h = wh (W i) ++ map isbar (coll a) -> inv lim e (l, set W i (mkw s h b ev)).
Proof.
  intros HLd HW HL Hi H0 HQ HA Hb HF -> ->. destruct (HW i Hi) as [(Q1 & Q2 & Q3 & Q4 & _)|(_ & X & _)]; [|congruence]. destruct (firstn_next _ _ _ HA) as [F1 _].
  exists (upd pos i (S (pos i))). split; [|split].
  - rewrite upd_other by lia. exact HLd.
  - intros j Hj. cbn [snd]. unfold set. destruct (Nat.eqb_spec j i) as [->|Nj]; [|rewrite upd_other by exact Nj; apply HW; exact Hj].
    rewrite upd_same. left. split; [lia|]. split; [exact Q2|]. cbn [wh wev ws win]. rewrite Q3, Q4, F1, colls_app, evts_app, map_app. rewrite colls_one, evts_one. split; [reflexivity|]. split; [reflexivity|].
    destruct b; [|exact HF]. split; [|exact HF]. exists (pos i). split; [reflexivity|]. assert (a = Bar) as -> by (apply Hb; reflexivity). exact HA.
  - apply (law_move pos (l, W)); [exact HL| | |].
    + unfold inside. destruct i; [lia|exact H0].
    + intros B. rewrite HA in B. injection B as ->. rewrite inside_set by lia. rewrite Nat.eqb_refl. cbn [win]. apply Hb. reflexivity.
    + intros r Hr. rewrite inside_set by lia. destruct (Nat.eqb_spec r i); [contradiction|reflexivity].
Qed.
(** a barrier that others have entered *)
Lemma entered_worker lim e i w q b : worker_ok lim e i w q -> nth_error acts b = Some Bar -> nth_error (wh w) (cl b) = Some true -> b < q.
Proof.
  intros [(_ & _ & Q3 & _)|(-> & _ & _ & Q4 & Q5 & m & Q6)] Hb H.
  2:{ destruct (Nat.lt_trichotomy b lim) as [L|[->|G]]; [exact L|congruence|]. exfalso. assert (X : cl b < length (wh w)) by (apply nth_error_Some; congruence). pose proof (cl_mono (S lim) b G) as Y. rewrite (cl_next lim _ Q6) in Y. cbn in Y. lia. } rewrite Q3 in H. destruct (nth_error (colls (firstn q acts)) (cl b)) as [x|] eqn:E.
  - apply (entry_reached b q x Bar Hb); [discriminate|exact E].
  - rewrite nth_error_map, E in H. discriminate.
Qed.
Lemma enters_worker lim e i w q b : worker_inv lim e i w q -> nth_error acts b = Some Bar -> b < q -> nth_error (wh w) (cl b) = Some true.
Proof. intros (_ & _ & Q3 & _) Hb H. rewrite Q3, nth_error_map, (entry_at b q Bar EBar Hb eq_refl H). reflexivity. Qed.

(** The state of a worker while it follows: which act it needs. *)
Lemma follows_end r s l e : follows r s l e -> needs e = Halted -> needs s = Halted -> l = [].
Proof. destruct l as [|[m| |f a k|id] l]; cbn; intros H HE HS; [reflexivity| | | |]; destruct H as [H _]; congruence. Qed.

(** Every step keeps the invariant, as long as a worker at the end of its acts can do nothing. *)
Definition ends_ok (lim : nat -> nat) (e : nat -> wst) : Prop :=
  forall i, 1 <= i <= N -> needs (e i) = Halted \/ (needs (e i) = Receives /\ nth_error acts (lim i) = Some Bar) \/ (needs (e i) = Waits /\ exists m, nth_error acts (lim i) = Some (Send m)).
Lemma step_inv lim e c c' : ends_ok lim e -> inv lim e c -> step exec N c c' -> inv lim e c'.
Proof.
  intros HE (pos & HLd & HW & HL) HS. destruct HS as [l W m r HA H0|l W r HA H0|l W H0 HB|l W f a k r HA H0|l W id r HA H0|l W i m Hi H0 HN HM|l W i Hi H0 HN|l W i Hi H0 HM HB|l W i f a k Hi H0 HN|l W i id Hi H0 HN]; cbn [fst snd] in HLd, HW.
  - apply (leader_moves lim e l W pos (Send m) r _ false HLd HW HL H0 HA); [split; discriminate|cbn; rewrite app_nil_r; reflexivity].
  - apply (leader_moves lim e l W pos Bar r _ true HLd HW HL H0 HA); [split; reflexivity|cbn; rewrite app_nil_r; reflexivity].
  - exists pos. cbn [fst snd]. destruct HLd as (L1 & L2 & L3 & L4 & L5). split; [|split; [exact HW|]].
    + split; [exact L1|]. split; [exact L2|]. split; [exact L3|]. split; [exact L4|]. cbn. discriminate.
    + destruct (L5 H0) as (b & Pb & Ab). apply (law_leave pos (l, W) _ 0 HL); [intros [|r] Hr; [congruence|reflexivity]|].
      intros b' r' Hb' Eb Hr'. assert (b' = b) as -> by lia. destruct r' as [|r']; [lia|]. apply (entered_worker (lim (S r')) (e (S r')) (S r') (W (S r')) _ b); [apply HW; lia|exact Ab|].
      replace (cl b) with (length (lh l) - 1); [apply HB; lia|]. rewrite L3. change (length (colls (firstn (pos 0) acts))) with (cl (pos 0)). rewrite Pb, (cl_next b Bar Ab). cbn. lia.
  - replace (lh l) with (lh l ++ coll (@Run Fn Args Kw Pk Item f a k)) by (cbn; apply app_nil_r). apply (leader_moves lim e l W pos (Run f a k) r _ false HLd HW HL H0 HA); [split; discriminate|reflexivity].
  - replace (lh l) with (lh l ++ coll (@World Fn Args Kw Pk Item id)) by (cbn; apply app_nil_r). apply (leader_moves lim e l W pos (World id) r _ false HLd HW HL H0 HA); [split; discriminate|reflexivity].
  - destruct (HW i Hi) as [(Q1 & Q2 & Q3 & Q4 & Q5)|(_ & X & _)]; [|congruence]. rewrite H0 in Q5. rewrite (wh_len _ _ Q3) in HM. destruct HLd as (L1 & L2 & L3 & L4 & L5). rewrite L3 in HM.
    destruct (firstn (lim i - pos i) (skipn (pos i) acts)) as [|x rr] eqn:EF.
    + exfalso. cbn in Q5. destruct (HE i Hi) as [X|[[_ X]|[X _]]]; [rewrite Q5 in HN; congruence| |rewrite Q5 in HN; congruence]. assert (pos i = lim i) as EP. { apply (f_equal (@length act)) in EF. rewrite firstn_length, skipn_length in EF. cbn in EF. lia. } rewrite <- EP in X.
      destruct (entry_reached (pos i) (pos 0) (EVal m) Bar X) as [_ Y]; [discriminate|exact HM|]. discriminate.
    + destruct (next_act (lim i) (pos i) x rr Q1 Q2 EF) as (A1 & A2 & ->). destruct x as [m'| |f a k|id]; cbn in Q5; destruct Q5 as [Q5 Q6]; try congruence.
      destruct (entry_reached (pos i) (pos 0) (EVal m) (Send m') A2) as [_ Y]; [discriminate|exact HM|]. cbn in Y. injection Y as ->.
      apply (worker_moves lim e l W pos i (Send m)); try assumption; [repeat (split; [assumption|]); assumption|split; discriminate|cbn; rewrite app_nil_r; reflexivity|reflexivity].
  - destruct (HW i Hi) as [(Q1 & Q2 & Q3 & Q4 & Q5)|(_ & X & _)]; [|congruence]. rewrite H0 in Q5. destruct (firstn (lim i - pos i) (skipn (pos i) acts)) as [|x rr] eqn:EF.
    { cbn in Q5. rewrite Q5 in HN. destruct (HE i Hi) as [X|[[X _]|[_ X]]]; [congruence|congruence|]. assert (pos i = lim i) as EP. { apply (f_equal (@length act)) in EF. rewrite firstn_length, skipn_length in EF. cbn in EF. lia. }
      exists pos. cbn [fst snd]. split; [exact HLd|]. split.
      - intros j Hj. unfold set. destruct (Nat.eqb_spec j i) as [->|Nj]; [|apply HW; exact Hj]. right. split; [exact EP|]. cbn [win ws wh]. split; [reflexivity|]. split; [rewrite Q5; exact HN|].
        split; [rewrite app_length, (wh_len _ _ Q3), EP; cbn; lia|]. split; [|exact X]. intros t Ht. rewrite nth_error_app1 by (rewrite (wh_len _ _ Q3), EP; exact Ht). rewrite Q3. reflexivity.
      - intros b r r' Hb Hr Hr' [L1 L2]. apply (HL b r r' Hb Hr Hr'). split; [exact L1|]. intros [Y1 Y2]. apply L2. split; [exact Y1|]. rewrite inside_set by lia. destruct (Nat.eqb_spec r i) as [->|Nr]; [reflexivity|exact Y2]. }
    destruct (next_act (lim i) (pos i) x rr Q1 Q2 EF) as (A1 & A2 & ->). destruct x as [m'| |f a k|id]; cbn in Q5; destruct Q5 as [Q5 Q6]; try congruence.
    apply (worker_moves lim e l W pos i Bar); try assumption; [split; reflexivity|split; assumption|cbn; rewrite app_nil_r; reflexivity|reflexivity].
  - destruct (HW i Hi) as [(Q1 & Q2 & Q3 & Q4 & Q5)|(_ & _ & _ & X1 & _ & m & X2)].
    2:{ exfalso. rewrite X1 in HM. cbn [Nat.sub] in HM. rewrite Nat.sub_0_r in HM. destruct HLd as (_ & _ & L3 & _). rewrite L3 in HM. destruct (entry_reached (lim i) (pos 0) EBar (Send m) X2) as [_ Y]; [discriminate|exact HM|discriminate]. }
    rewrite H0 in Q5. destruct Q5 as ((b & Pb & Ab) & Q5 & Q6). pose proof HLd as (L1 & L2 & L3 & L4 & L5).
    assert (IX : length (wh (W i)) - 1 = cl b) by (rewrite (wh_len _ _ Q3), Pb, (cl_next b Bar Ab); cbn; lia). rewrite IX in HM, HB.
    exists pos. cbn [fst snd]. split; [exact HLd|]. split.
    + intros j Hj. unfold set. destruct (Nat.eqb_spec j i) as [->|Nj]; [|apply HW; exact Hj]. left. split; [exact Q1|]. split; [exact Q2|]. cbn. split; [exact Q3|]. split; [exact Q4|]. exact Q6.
    + apply (law_leave pos (l, W) _ i HL); [intros r Hr; rewrite inside_set by lia; destruct (Nat.eqb_spec r i); [contradiction|reflexivity]|].
      intros b' r' Hb' Eb Hr'. assert (b' = b) as -> by lia. destruct r' as [|r'].
      * rewrite L3 in HM. apply (entry_reached b (pos 0) EBar Bar Ab); [discriminate|exact HM].
      * apply (entered_worker (lim (S r')) (e (S r')) (S r') (W (S r')) _ b); [apply HW; lia|exact Ab|]. apply HB. lia.
  - destruct (HW i Hi) as [(Q1 & Q2 & Q3 & Q4 & Q5)|(_ & X & _)]; [|congruence]. rewrite H0 in Q5. destruct (firstn (lim i - pos i) (skipn (pos i) acts)) as [|x rr] eqn:EF; [exfalso; cbn in Q5; rewrite Q5 in HN; destruct (HE i Hi) as [X|[[X _]|[X _]]]; congruence|].
    destruct (next_act (lim i) (pos i) x rr Q1 Q2 EF) as (A1 & A2 & ->). destruct x as [m'| |f' a' k'|id]; cbn in Q5; destruct Q5 as [Q5 Q6]; try congruence. assert (Calls f' a' k' = Calls f a k) as X by congruence. injection X as -> -> ->.
    apply (worker_moves lim e l W pos i (Run f a k)); try assumption; [split; discriminate|reflexivity|cbn; rewrite app_nil_r; reflexivity].
  - destruct (HW i Hi) as [(Q1 & Q2 & Q3 & Q4 & Q5)|(_ & X & _)]; [|congruence]. rewrite H0 in Q5. destruct (firstn (lim i - pos i) (skipn (pos i) acts)) as [|x rr] eqn:EF; [exfalso; cbn in Q5; rewrite Q5 in HN; destruct (HE i Hi) as [X|[[X _]|[X _]]]; congruence|].
    destruct (next_act (lim i) (pos i) x rr Q1 Q2 EF) as (A1 & A2 & ->). destruct x as [m'| |f' a' k'|id']; cbn in Q5; destruct Q5 as [Q5 Q6]; try congruence. assert (@Gets Fn Args Kw id' = Gets id) as X by congruence. injection X as ->.
    apply (worker_moves lim e l W pos i (World id)); try assumption; [split; discriminate|reflexivity|cbn; rewrite app_nil_r; reflexivity].
Qed.
Lemma reach_inv lim e c0 c : ends_ok lim e -> inv lim e c0 -> reach exec N c0 c -> inv lim e c.
Proof. intros HE H0 HR. induction HR as [|c c' HR IH HS]; [exact H0|]. apply (step_inv lim e c c' HE IH HS). Qed.

(** A worker whose acts are all those of the leader. *)
Definition whole (e : nat -> wst) : Prop := forall i, 1 <= i <= N -> e i = WQuit.
Lemma whole_ok e : whole e -> ends_ok (fun _ => length acts) e.
Proof. intros H i Hi. left. rewrite (H i Hi). reflexivity. Qed.
Lemma whole_inv e i w q : whole e -> 1 <= i <= N -> worker_ok (length acts) (e i) i w q -> worker_inv (length acts) WQuit i w q.
Proof.
  intros H Hi [X|(_ & _ & _ & _ & _ & m & X)]; [rewrite (H i Hi) in X; exact X|]. assert (length acts < length acts) by (apply nth_error_Some; congruence). lia.
Qed.
Lemma firstn_rest q : firstn (length acts - q) (skipn q acts) = skipn q acts.
Proof. apply firstn_all2. rewrite skipn_length. lia. Qed.

Lemma min_rank (pos : nat -> nat) n : exists r, r <= n /\ forall r', r' <= n -> pos r <= pos r'.
Proof.
  induction n as [|n (r & Hr & IH)]; [exists 0; split; [lia|]; intros r' H; replace r' with 0 by lia; lia|].
  destruct (Nat.le_gt_cases (pos r) (pos (S n))) as [L|G].
  - exists r. split; [lia|]. intros r' H. destruct (Nat.eq_dec r' (S n)) as [->|Ne]; [exact L|apply IH; lia].
  - exists (S n). split; [lia|]. intros r' H. destruct (Nat.eq_dec r' (S n)) as [->|Ne]; [lia|]. specialize (IH r' ltac:(lia)). lia.
Qed.
Lemma some_inside c n : (exists r, r <= n /\ inside c r = true) \/ forall r, r <= n -> inside c r = false.
Proof.
  induction n as [|n [(r & Hr & H)|H]].
  - destruct (inside c 0) eqn:E; [left; exists 0; split; [lia|exact E]|right; intros r Hr; replace r with 0 by lia; exact E].
  - left. exists r. split; [lia|exact H].
  - destruct (inside c (S n)) eqn:E; [left; exists (S n); split; [lia|exact E]|]. right. intros r Hr. destruct (Nat.eq_dec r (S n)) as [->|Ne]; [exact E|apply H; lia].
Qed.

(** a rank inside the barrier of lowest position can leave it *)
Lemma can_leave e c pos r : whole e -> leader_inv (fst c) (pos 0) -> (forall i, 1 <= i <= N -> worker_ok (length acts) (e i) i (snd c i) (pos i)) ->
  r <= N -> inside c r = true -> (forall r', r' <= N -> pos r <= pos r') -> exists c', step exec N c c'.
Proof.
  intros HE HLd HW Hr Hin Hmin. destruct c as [l W]. cbn [fst snd] in *. pose proof HLd as (L1 & L2 & L3 & L4 & L5). destruct r as [|r].
  - cbn in Hin. destruct (L5 Hin) as (b & Pb & Ab). eexists. apply (leader_leaves _ _ _ _ _ _ _ _ l W Hin). intros i Hi.
    replace (length (lh l) - 1) with (cl b).
    + apply (enters_worker (length acts) WQuit i (W i) (pos i) b); [apply (whole_inv e); auto|exact Ab|]. specialize (Hmin i ltac:(lia)). lia.
    + rewrite L3. change (length (colls (firstn (pos 0) acts))) with (cl (pos 0)). rewrite Pb, (cl_next b Bar Ab). cbn. lia.
  - cbn in Hin. assert (Hi : 1 <= S r <= N) by lia. pose proof (whole_inv e _ _ _ HE Hi (HW _ Hi)) as (Q1 & Q2 & Q3 & Q4 & Q5). rewrite Hin in Q5. destruct Q5 as ((b & Pb & Ab) & _ & _).
    assert (IX : length (wh (W (S r))) - 1 = cl b) by (rewrite (wh_len _ _ Q3), Pb, (cl_next b Bar Ab); cbn; lia).
    eexists. apply (worker_leaves _ _ _ _ _ _ _ _ l W (S r) Hi Hin); rewrite IX.
    + rewrite L3. apply (entry_at b (pos 0) Bar EBar Ab eq_refl). specialize (Hmin 0 ltac:(lia)). lia.
    + intros i Hi'. apply (enters_worker (length acts) WQuit i (W i) (pos i) b); [apply (whole_inv e); auto|exact Ab|]. specialize (Hmin i ltac:(lia)). lia.
Qed.
Lemma leader_can l W p : leader_inv l p -> p < length acts -> lin l = false -> exists c', step exec N (l, W) c'.
Proof.
  intros (L1 & L2 & _) Hp H0. destruct (nth_error acts p) as [a|] eqn:E; [|apply nth_error_None in E; lia]. destruct (firstn_next _ _ _ E) as [_ F]. rewrite F in L2.
  destruct a as [m| |f a k|id]; eexists; [eapply leader_sends|eapply leader_enters|eapply leader_runs|eapply leader_gets]; eassumption.
Qed.
Lemma whole_progress e c : whole e -> inv (fun _ => length acts) e c -> Final N c \/ exists c', step exec N c c'.
Proof.
  intros HE (pos & HLd & HW & HL). destruct (min_rank pos N) as (r & Hr & Hmin).
  destruct (inside c r) eqn:Hin; [right; exact (can_leave e c pos r HE HLd HW Hr Hin Hmin)|].
  assert (HP : forall x, x <= N -> pos x <= length acts). { intros [|x] Hx; [apply HLd|]. apply (whole_inv e _ _ _ HE (conj (le_n_S _ _ (Nat.le_0_l x)) Hx) (HW (S x) ltac:(lia))). }
  destruct (Nat.eq_dec (pos r) (length acts)) as [E|Ne].
  - destruct (some_inside c N) as [(x & Hx & X)|X].
    + right. apply (can_leave e c pos x HE HLd HW Hx X). intros r' Hr'. specialize (Hmin r' Hr'). specialize (HP x Hx). lia.
    + left. destruct c as [l W]. cbn [fst snd] in *. destruct HLd as (L1 & L2 & _). pose proof (Hmin 0 ltac:(lia)). split; [cbn [fst]; rewrite L2; apply skipn_all2; lia|]. split; [exact (X 0 ltac:(lia))|].
      intros i Hi. cbn [snd]. pose proof (X i ltac:(lia)) as Xi. unfold inside in Xi. cbn [fst snd] in Xi. destruct i as [|i]; [lia|]. split; [|exact Xi]. pose proof (whole_inv e _ _ _ HE Hi (HW _ Hi)) as (_ & _ & _ & _ & Q). rewrite Xi in Q. pose proof (Hmin (S i) ltac:(lia)).
      replace (length acts - pos (S i)) with 0 in Q by lia. cbn in Q. exact Q.
  - right. assert (Hlt : pos r < length acts) by (specialize (HP r Hr); lia). destruct c as [l W]. cbn [fst snd] in *. destruct r as [|r]; [exact (leader_can l W (pos 0) HLd Hlt Hin)|].
    destruct (Nat.eq_dec (pos 0) (pos (S r))) as [E0|N0].
    + destruct (lin l) eqn:Hl; [|apply (leader_can l W (pos 0) HLd); [lia|exact Hl]].
      apply (can_leave e (l, W) pos 0 HE HLd HW); [lia|exact Hl|]. intros r' Hr'. rewrite E0. apply Hmin. exact Hr'.
    + assert (Hi : 1 <= S r <= N) by lia. pose proof (Hmin 0 ltac:(lia)) as H0. cbn in Hin. pose proof (whole_inv e _ _ _ HE Hi (HW _ Hi)) as (Q1 & Q2 & Q3 & Q4 & Q5). rewrite Hin in Q5.
      destruct (nth_error acts (pos (S r))) as [a|] eqn:EA; [|apply nth_error_None in EA; lia]. rewrite firstn_rest, (proj2 (firstn_next _ _ _ EA)) in Q5. destruct HLd as (L1 & L2 & L3 & _).
      destruct a as [m| |f a k|id]; cbn in Q5; destruct Q5 as [Q5 Q6]; eexists.
      * apply (worker_receives _ _ _ _ _ _ _ _ l W (S r) m Hi Hin Q5). rewrite L3, (wh_len _ _ Q3). apply (entry_at _ _ _ _ EA eq_refl). lia.
      * apply (worker_enters _ _ _ _ _ _ _ _ l W (S r) Hi Hin Q5).
      * apply (worker_runs _ _ _ _ _ _ _ _ l W (S r) f a k Hi Hin Q5).
      * apply (worker_gets _ _ _ _ _ _ _ _ l W (S r) id Hi Hin Q5).
Qed.

(** Number of steps. *)
Definition wcost (w : worker Fn Args Kw Pk) : nat := 2 * (length acts - (length (wh w) + length (wev w))) + (if win w then 1 else 0).
Fixpoint wcosts (W : nat -> worker Fn Args Kw Pk) (n : nat) : nat := match n with O => 0 | S n' => wcosts W n' + wcost (W (S n')) end.
Definition cost (c : config) : nat := 2 * length (la (fst c)) + (if lin (fst c) then 1 else 0) + wcosts (snd c) N.
Lemma wcosts_set W i w n : 1 <= i -> wcosts (set W i w) n + (if i <=? n then wcost (W i) else 0) = wcosts W n + (if i <=? n then wcost w else 0).
Proof.
  intros Hi. induction n as [|n IH]; cbn [wcosts]; [destruct (Nat.leb_spec i 0); [lia|reflexivity]|]. unfold set at 2. destruct (Nat.eqb_spec (S n) i) as [E|Ne].
  - subst i. destruct (Nat.leb_spec (S n) n); [lia|]. destruct (Nat.leb_spec (S n) (S n)); lia.
  - destruct (Nat.leb_spec i n); destruct (Nat.leb_spec i (S n)); try lia.
Qed.
Lemma wcosts_less W i w : 1 <= i <= N -> wcost w < wcost (W i) -> wcosts (set W i w) N < wcosts W N.
Proof. intros Hi H. pose proof (wcosts_set W i w N (proj1 Hi)) as E. destruct (Nat.leb_spec i N); lia. Qed.
Lemma worker_pos lim e i w q : worker_inv lim e i w q -> length (wh w) + length (wev w) = q /\ q <= length acts.
Proof. intros (Q1 & Q2 & Q3 & Q4 & _). rewrite Q3, Q4, map_length, split_lens, firstn_length. lia. Qed.
Lemma step_cost e c c' : whole e -> inv (fun _ => length acts) e c -> step exec N c c' -> cost c' < cost c.
Proof.
  intros HE HI HS. pose proof (step_inv _ _ _ _ (whole_ok e HE) HI HS) as HI'. destruct HI as (pos & HLd & HW & HL). destruct HI' as (pos' & HLd' & HW' & HL').
  assert (X : forall i, 1 <= i <= N -> length (wh (snd c i)) + length (wev (snd c i)) <= length acts) by (intros i Hi; destruct (worker_pos _ _ _ _ _ (whole_inv e _ _ _ HE Hi (HW i Hi))); lia).
  assert (X' : forall i, 1 <= i <= N -> length (wh (snd c' i)) + length (wev (snd c' i)) <= length acts) by (intros i Hi; destruct (worker_pos _ _ _ _ _ (whole_inv e _ _ _ HE Hi (HW' i Hi))); lia).
  clear HW HW' HL HL' HLd HLd'.
  destruct HS as [l W m r HA H0|l W r HA H0|l W H0 HB|l W f a k r HA H0|l W id r HA H0|l W i m Hi H0 HN HM|l W i Hi H0 HN|l W i Hi H0 HM HB|l W i f a k Hi H0 HN|l W i id Hi H0 HN]; unfold cost; cbn [fst snd la lin] in *;
    try (first [rewrite HA, H0|rewrite H0]; cbn [length]; lia).
  all: apply Nat.add_lt_mono_l, wcosts_less; [exact Hi|]; specialize (X i Hi); specialize (X' i Hi); unfold set in X'; rewrite Nat.eqb_refl in X'; unfold wcost; cbn [wh wev win] in *; rewrite ?H0; rewrite ?app_length in X' |- *; cbn [length] in X' |- *; lia.
Qed.
Lemma steps_cost e c0 n c : whole e -> inv (fun _ => length acts) e c0 -> steps exec N c0 n c -> inv (fun _ => length acts) e c /\ n + cost c <= cost c0.
Proof.
  intros HE H0 HS. induction HS as [|n c c' HS [IH1 IH2] HT]; [split; [exact H0|lia]|]. pose proof (step_cost e c c' HE IH1 HT). split; [exact (step_inv _ _ _ _ (whole_ok e HE) IH1 HT)|lia].
Qed.
End Acts.
End Team.
