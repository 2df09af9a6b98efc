(** C72: teams of MPI processes with nested execution. *)
From Coq Require Import Lia.
From Verif Require Import M_Base M_Nested S_Nested L_Nested.

Section Calm.
Variables Fn Args Kw Val Pk Item : Type.
Variable exec : nat -> Fn -> Args -> Kw -> option Val.
Variable dumps : Fn -> Args -> Kw -> bool.
Variable func : Pk -> Item -> tree Fn Args Kw Val.
Notation act := (act Fn Args Kw Pk Item).
Notation config := (config Fn Args Kw Pk Item).
Notation follows := (follows Fn Args Kw Val Pk Item exec).
Notation evts := (evts Fn Args Kw Pk Item).
Notation inv := (inv Fn Args Kw Val Pk Item exec).

Lemma follows_app r s l1 s1 l2 s2 : follows r s l1 s1 -> follows r s1 l2 s2 -> follows r s (l1 ++ l2) s2.
Proof.
  revert s. induction l1 as [|x l1 IH]; intros s H1 H2; [cbn in H1; subst; exact H2|]. destruct x as [m| |f a k|id]; cbn [app L_Nested.follows] in *; destruct H1 as [H0 H1]; (split; [exact H0|]); apply IH; assumption.
Qed.
Lemma calm_tree N t i : Calm exec dumps N t -> 1 <= i <= N -> follows i WTop (leader_tree exec dumps t) WOp.
Proof.
  intros H Hi. induction H as [|f a k cont HD HE HC IH]; [cbn; auto|]. cbn [leader_tree app]. rewrite HD. cbn [app L_Nested.follows needs after_barrier receive after_local].
  split; [reflexivity|]. split; [reflexivity|]. split; [reflexivity|]. split; [reflexivity|]. split; [reflexivity|]. split; [reflexivity|]. split; [reflexivity|].
  destruct (exec i f a k) as [w|] eqn:E; [|exfalso; apply (HE i); [lia|exact E]]. destruct (exec 0 f a k) as [v|] eqn:E0; [|exfalso; apply (HE 0); [lia|exact E0]].
  cbn. split; [reflexivity|]. apply IH. reflexivity.
Qed.
Definition open_command (c : command Pk Item) : Prop := c <> Finish.
Lemma run_app N cs cs' : Forall open_command cs -> leader_run exec dumps func N (cs ++ cs') = leader_run exec dumps func N cs ++ leader_run exec dumps func N cs'.
Proof.
  intros H. induction H as [|c cs Hc HF IH]; [reflexivity|]. cbn [app]. destruct c as [p d|id|id|]; cbn [leader_run]; [rewrite IH, <- !app_assoc; reflexivity|rewrite IH; reflexivity|exact IH|contradiction].
Qed.
Lemma calm_open N cs : Forall (calm exec dumps func N) cs -> Forall open_command cs.
Proof. intros H. induction H as [|c cs Hc HF IH]; constructor; [|exact IH]. destruct c; cbn in Hc; [discriminate|discriminate|discriminate|contradiction]. Qed.
Lemma calm_run N cs i : Forall (calm exec dumps func N) cs -> 1 <= i <= N -> follows i WOp (leader_run exec dumps func N cs) WOp.
Proof.
  intros H Hi. induction H as [|c cs Hc HF IH]; [reflexivity|]. destruct c as [p d|id|id|]; cbn [leader_run calm] in *; [|cbn; auto|exact IH|contradiction].
  apply (follows_app i WOp _ WTop); [cbn; auto|]. apply (follows_app i WTop _ WOp); [|exact IH]. unfold leader_item. destruct N; [lia|]. exact (calm_tree _ _ i Hc Hi).
Qed.
Lemma calm_script N cs i : Forall (calm exec dumps func N) cs -> 1 <= i <= N -> follows i WOp (leader_run exec dumps func N (cs ++ [Finish])) WQuit.
Proof. intros H Hi. rewrite run_app by exact (calm_open N cs H). apply (follows_app i WOp _ WOp); [exact (calm_run N cs i H Hi)|]. cbn. auto. Qed.
Lemma evts_tree t N : Calm exec dumps N t -> evts (leader_tree exec dumps t) = tree_calls exec t.
Proof.
  intros H. induction H as [|f a k cont HD HE HC IH]; [reflexivity|]. cbn [leader_tree tree_calls]. rewrite HD. destruct (exec 0 f a k) as [v|] eqn:E; [|exfalso; apply (HE 0); [lia|exact E]].
  cbn. f_equal. apply IH. reflexivity.
Qed.
Lemma evts_run N cs : 1 <= N -> Forall (calm exec dumps func N) cs -> evts (leader_run exec dumps func N cs) = flat_map (command_events exec func) cs.
Proof.
  intros HN H. induction H as [|c cs Hc HF IH]; [reflexivity|]. destruct c as [p d|id|id|]; cbn [leader_run flat_map command_events calm] in *; [|rewrite evts_app, IH; reflexivity|exact IH|contradiction].
  rewrite !evts_app, IH. unfold leader_item. destruct N; [lia|]. rewrite (evts_tree _ _ Hc). reflexivity.
Qed.
Lemma evts_script N cs : 1 <= N -> Forall (calm exec dumps func N) cs -> evts (leader_run exec dumps func N (cs ++ [Finish])) = flat_map (command_events exec func) cs.
Proof. intros HN H. rewrite run_app by exact (calm_open N cs H). rewrite evts_app, (evts_run N cs HN H). cbn. apply app_nil_r. Qed.

Lemma start_inv N cs lim e : (forall i, 1 <= i <= N -> lim i <= length (leader_run exec dumps func N cs) /\ follows i WOp (firstn (lim i) (leader_run exec dumps func N cs)) (e i)) ->
  inv (leader_run exec dumps func N cs) N lim e (start exec dumps func N cs).
Proof.
  intros H. exists (fun _ => 0). split; [|split].
  - split; [lia|]. split; [reflexivity|]. split; [reflexivity|]. split; [reflexivity|]. discriminate.
  - intros i Hi. destruct (H i Hi) as [H1 H2]. left. split; [lia|]. split; [exact H1|]. split; [reflexivity|]. split; [reflexivity|]. cbn [snd start win ws]. rewrite Nat.sub_0_r. exact H2.
  - intros b r r' Hb Hr Hr' [L _]. lia.
Qed.
Lemma script_inv N cs : Forall (calm exec dumps func N) cs -> inv (leader_run exec dumps func N (cs ++ [Finish])) N (fun _ => length (leader_run exec dumps func N (cs ++ [Finish]))) (fun _ => WQuit) (start exec dumps func N (cs ++ [Finish])).
Proof. intros H. apply start_inv. intros i Hi. split; [lia|]. rewrite firstn_all. exact (calm_script N cs i H Hi). Qed.
Lemma quits N : whole Fn Args Kw Pk N (fun _ => WQuit).
Proof. intros i Hi. reflexivity. Qed.
Lemma script_reach N cs c : Forall (calm exec dumps func N) cs -> reach exec N (start exec dumps func N (cs ++ [Finish])) c ->
  inv (leader_run exec dumps func N (cs ++ [Finish])) N (fun _ => length (leader_run exec dumps func N (cs ++ [Finish]))) (fun _ => WQuit) c.
Proof. intros H HR. apply (reach_inv _ _ _ _ _ _ exec _ N _ _ (start exec dumps func N (cs ++ [Finish]))); [apply whole_ok, quits|exact (script_inv N cs H)|exact HR]. Qed.

(** C72 (no deadlock): as long as nested calls succeed, some process can go on until all have ended. *)
Theorem C72_progress N cs c : Forall (calm exec dumps func N) cs -> reach exec N (start exec dumps func N (cs ++ [Finish])) c -> Final N c \/ exists c', step exec N c c'.
Proof. intros H HR. exact (whole_progress _ _ _ _ _ _ exec _ N (fun _ => WQuit) c (quits N) (script_reach N cs c H HR)). Qed.
(** C72 (termination): no execution has more steps than twice the acts of all processes; each can be continued to the end. *)
Lemma wcosts_start acts N : wcosts Fn Args Kw Pk Item acts (fun _ => mkw WOp [] false []) N = N * (2 * length acts).
Proof. induction N as [|N IH]; [reflexivity|]. cbn [wcosts]. rewrite IH. unfold wcost. cbn [wh wev win length]. lia. Qed.
Theorem C72_bounded N cs n c : Forall (calm exec dumps func N) cs -> steps exec N (start exec dumps func N (cs ++ [Finish])) n c ->
  n <= 2 * (N + 1) * length (leader_run exec dumps func N (cs ++ [Finish])).
Proof.
  intros H HS. destruct (steps_cost _ _ _ _ _ _ exec _ N (fun _ => WQuit) _ n c (quits N) (script_inv N cs H) HS) as [_ X]. unfold cost, start in X. cbn [fst snd la lin] in X. rewrite wcosts_start in X. lia.
Qed.
Theorem C72_completes N cs c : Forall (calm exec dumps func N) cs -> reach exec N (start exec dumps func N (cs ++ [Finish])) c ->
  exists c', reach exec N c c' /\ Final N c'.
Proof.
  intros H HR. set (acts := leader_run exec dumps func N (cs ++ [Finish])). remember (cost Fn Args Kw Pk Item acts N c) as n eqn:E. revert c HR E.
  induction n as [n IH] using lt_wf_ind. intros c HR E. destruct (C72_progress N cs c H HR) as [F|[c1 HS]]; [exists c; split; [constructor|exact F]|].
  pose proof (step_cost _ _ _ _ _ _ exec acts N (fun _ => WQuit) c c1 (quits N) (script_reach N cs c H HR) HS) as L.
  destruct (IH _ (eq_ind_r (fun x => _ < x) L E) c1 (next _ _ _ _ _ _ _ _ _ _ _ HR HS) eq_refl) as (c' & R' & F'). exists c'. split; [|exact F'].
  clear - HS R'. induction R' as [|c' c'' R' IH HS']; [exact (next _ _ _ _ _ _ _ _ _ _ _ (here _ _ _ _ _ _ _ _ _) HS)|exact (next _ _ _ _ _ _ _ _ _ _ _ IH HS')].
Qed.

(** C72 (same calls): every process makes the calls of the commands, in order; at the end all of them. *)
Lemma evts_prefix (l : list act) q : prefix (evts (firstn q l)) (evts l).
Proof. exists (evts (skipn q l)). rewrite <- evts_app, firstn_skipn. reflexivity. Qed.
Lemma events_at N cs c : Forall (calm exec dumps func N) cs -> reach exec N (start exec dumps func N (cs ++ [Finish])) c ->
  exists pos, (forall r, r <= N -> pos r <= length (leader_run exec dumps func N (cs ++ [Finish])) /\ events c r = evts (firstn (pos r) (leader_run exec dumps func N (cs ++ [Finish])))) /\
    law Fn Args Kw Pk Item (leader_run exec dumps func N (cs ++ [Finish])) N pos c /\
    (forall r, r <= N -> inside _ _ _ _ _ c r = true -> exists b, pos r = S b /\ nth_error (leader_run exec dumps func N (cs ++ [Finish])) b = Some Bar) /\
    (Final N c -> forall r, r <= N -> pos r = length (leader_run exec dumps func N (cs ++ [Finish]))).
Proof.
  intros H HR. pose proof (script_reach N cs c H HR) as (pos & HL & HW & HB). exists pos. destruct HL as (L1 & L2 & L3 & L4 & L5).
  assert (X : forall r, 1 <= r <= N -> worker_inv Fn Args Kw Val Pk Item exec (leader_run exec dumps func N (cs ++ [Finish])) (length (leader_run exec dumps func N (cs ++ [Finish]))) WQuit r (snd c r) (pos r)).
  { intros r Hr. apply (whole_inv _ _ _ _ _ _ exec _ N (fun _ => WQuit) r _ _ (quits N) Hr (HW r Hr)). }
  split; [|split; [exact HB|split]].
  - intros [|r] Hr; [split; assumption|]. destruct (X (S r) ltac:(lia)) as (Q1 & _ & _ & Q4 & _). split; assumption.
  - intros [|r] Hr Hin; [exact (L5 Hin)|]. destruct (X (S r) ltac:(lia)) as (_ & _ & _ & _ & Q5). cbn in Hin. rewrite Hin in Q5. apply Q5.
  - intros (F1 & F2 & F3) [|r] Hr.
    + rewrite L2 in F1. apply (f_equal (@length _)) in F1. rewrite skipn_length in F1. cbn in F1. lia.
    + destruct (X (S r) ltac:(lia)) as (Q1 & _ & _ & _ & Q5). destruct (F3 (S r) ltac:(lia)) as [W1 W2]. rewrite W1, W2 in Q5.
      apply follows_end in Q5; [|reflexivity|reflexivity]. apply (f_equal (@length _)) in Q5. rewrite firstn_length, skipn_length in Q5. cbn in Q5. lia.
Qed.
Theorem C72_same_calls N cs c r : 1 <= N -> Forall (calm exec dumps func N) cs -> reach exec N (start exec dumps func N (cs ++ [Finish])) c -> r <= N ->
  prefix (events c r) (flat_map (command_events exec func) cs) /\ (Final N c -> events c r = flat_map (command_events exec func) cs).
Proof.
  intros HN H HR Hr. destruct (events_at N cs c H HR) as (pos & P1 & _ & _ & P4). destruct (P1 r Hr) as [_ E]. rewrite <- (evts_script N cs HN H), E. split; [apply evts_prefix|].
  intros F. rewrite (P4 F r Hr), firstn_all. reflexivity.
Qed.

(** C72 (lockstep): a process begins a nested call only when all have finished the one before. *)
Fixpoint seg (k : nat) (l : list act) : Prop :=
  match l with
  | [] => True
  | Bar :: l' => seg 0 l'
  | Run _ _ _ :: l' => k = 0 /\ seg 1 l'
  | _ :: l' => seg k l'
  end.
Lemma seg_app k l1 l2 : k <= 1 -> seg k l1 -> (forall k', k' <= 1 -> seg k' l2) -> seg k (l1 ++ l2).
Proof. revert k. induction l1 as [|x l1 IH]; intros k Hk H1 H2; [apply H2; exact Hk|]. destruct x; cbn [app seg] in *; [apply IH; auto|apply IH; auto|destruct H1 as [-> H1]; split; [reflexivity|apply IH; auto]|apply IH; auto]. Qed.
Lemma seg_tree t k : k <= 1 -> seg k (leader_tree exec dumps t).
Proof.
  revert k. induction t as [|f a x cont IH]; intros k Hk; [exact I|]. cbn [leader_tree app seg]. destruct (dumps f a x); [|exact I]. cbn [app seg]. split; [reflexivity|]. destruct (exec 0 f a x) as [v|]; [|exact I]. cbn [seg]. apply IH. lia.
Qed.
Lemma seg_run N cs k : k <= 1 -> seg k (leader_run exec dumps func N cs).
Proof.
  revert k. induction cs as [|c cs IH]; intros k Hk; [exact I|]. destruct c as [p d|id|id|]; cbn [leader_run app seg]; [|apply IH; exact Hk|apply IH; exact Hk|exact I].
  apply seg_app; [exact Hk| |exact IH]. unfold leader_item. destruct N; [exact I|apply seg_tree; exact Hk].
Qed.
Lemma calls_app (a b : list (event Fn Args Kw)) : calls_done (a ++ b) = calls_done a + calls_done b.
Proof. unfold calls_done. rewrite filter_app, app_length. reflexivity. Qed.
Lemma seg_count l k n : seg k l -> k <= 1 -> (forall b, b < n -> nth_error l b <> Some Bar) -> calls_done (evts (firstn n l)) + k <= 1.
Proof.
  revert k n. induction l as [|x l IH]; intros k [|n] H Hk Hb; try (cbn; lia).
  assert (Hb' : forall b, b < n -> nth_error l b <> Some Bar) by (intros b Hlt; apply (Hb (S b)); lia).
  cbn [firstn]. unfold L_Nested.evts. cbn [flat_map]. fold (L_Nested.evts Fn Args Kw Pk Item (firstn n l)). rewrite calls_app. destruct x as [m| |f a kw|id]; cbn [seg] in H.
  - specialize (IH k n H Hk Hb'). cbn. exact IH.
  - exfalso. apply (Hb 0); [lia|reflexivity].
  - destruct H as [-> H]. specialize (IH 1 n H ltac:(lia) Hb'). cbn. lia.
  - specialize (IH k n H Hk Hb'). cbn. exact IH.
Qed.
Lemma seg_skip l k p : seg k l -> k <= 1 -> exists k', k' <= 1 /\ seg k' (skipn p l).
Proof.
  revert k p. induction l as [|x l IH]; intros k [|p] H Hk; [exists k; auto|exists k; auto|exists k; auto|]. cbn [skipn]. destruct x; cbn [seg] in H; [apply (IH k)|apply (IH 0); [exact H|lia]|destruct H as [_ H]; apply (IH 1); [exact H|lia]|apply (IH k)]; auto.
Qed.
Lemma firstn_plus {A} (l : list A) p n : firstn (p + n) l = firstn p l ++ firstn n (skipn p l).
Proof. revert p. induction l as [|x l IH]; intros [|p]; cbn; try (rewrite firstn_nil); try reflexivity. f_equal. apply IH. Qed.
Lemma nth_skip {A} (l : list A) p b : nth_error (skipn p l) b = nth_error l (p + b).
Proof. revert p. induction l as [|x l IH]; intros [|p]; cbn; try reflexivity; [destruct b; reflexivity|apply IH]. Qed.
Lemma seg_between l p q : seg 0 l -> p <= q -> (forall b, p <= b < q -> nth_error l b <> Some Bar) -> calls_done (evts (firstn q l)) <= calls_done (evts (firstn p l)) + 1.
Proof.
  intros H Hpq Hb. replace q with (p + (q - p)) by lia. rewrite firstn_plus, evts_app, calls_app. destruct (seg_skip l 0 p H ltac:(lia)) as (k & Hk & Hs).
  pose proof (seg_count (skipn p l) k (q - p) Hs Hk) as X. rewrite <- Nat.add_le_mono_l. enough (calls_done (evts (firstn (q - p) (skipn p l))) + k <= 1) by lia. apply X. intros b Hlt. rewrite nth_skip. apply Hb. lia.
Qed.
Lemma calls_le l p q : p <= q -> calls_done (evts (firstn p l)) <= calls_done (evts (firstn q l)).
Proof. intros H. replace q with (p + (q - p)) by lia. rewrite firstn_plus, evts_app, calls_app. lia. Qed.
Theorem C72_lockstep N cs c r r' : Forall (calm exec dumps func N) cs -> reach exec N (start exec dumps func N (cs ++ [Finish])) c -> r <= N -> r' <= N ->
  calls_done (events c r) <= calls_done (events c r') + 1.
Proof.
  intros H HR Hr Hr'. destruct (events_at N cs c H HR) as (pos & P1 & P2 & P3 & _). destruct (P1 r Hr) as [_ ->]. destruct (P1 r' Hr') as [_ ->]. set (acts := leader_run exec dumps func N (cs ++ [Finish])) in *.
  pose proof (seg_run N (cs ++ [Finish]) 0 ltac:(lia)) as HS. fold acts in HS.
  destruct (Nat.le_gt_cases (pos r) (pos r')) as [L|G]; [pose proof (calls_le acts _ _ L); lia|].
  destruct (inside Fn Args Kw Pk Item c r) eqn:Hin.
  - destruct (P3 r Hr Hin) as (b & Eb & Ab). rewrite Eb. rewrite (proj1 (firstn_next _ _ _ Ab)), evts_app, calls_app. cbn. rewrite Nat.add_0_r. apply seg_between; [exact HS|lia|].
    intros b' Hb' X. assert (b' < pos r'); [|lia]. apply (P2 b' r r' X Hr Hr'). split; [lia|]. intros [Y _]. lia.
  - apply seg_between; [exact HS|lia|]. intros b' Hb' X. assert (b' < pos r'); [|lia]. apply (P2 b' r r' X Hr Hr'). split; [lia|]. intros [_ Y]. congruence.
Qed.

(** C72 (deleted values): workers keep every broadcast value; the leader does not. *)
Lemma store_keeps (evs : list (event Fn Args Kw)) store id : In id store \/ In (EWorld id) evs -> In id (worker_store evs store).
Proof.
  revert store. induction evs as [|x evs IH]; intros store H; [destruct H as [H|[]]; exact H|]. destruct x as [f a k|j]; cbn [worker_store].
  - apply IH. destruct H as [H|[H|H]]; [left; exact H|discriminate|right; exact H].
  - apply IH. destruct H as [H|[H|H]].
    + left. destruct (existsb (Nat.eqb j) store); [exact H|apply in_or_app; left; exact H].
    + injection H as ->. left. destruct (existsb (Nat.eqb id) store) eqn:E; [|apply in_or_app; right; left; reflexivity]. apply existsb_exists in E. destruct E as (y & Hy & E). apply Nat.eqb_eq in E. subst. exact Hy.
    + right. exact H.
Qed.
Theorem C72_delete_refuted N cs id c i : 1 <= i <= N -> Forall (calm exec dumps func N) cs -> In (Broadcast id) cs ->
  reach exec N (start exec dumps func N (cs ++ [Delete id; Finish])) c -> Final N c ->
  ~ In id (leader_store (cs ++ [Delete id; Finish]) []) /\ In id (worker_store (wev (snd c i)) []).
Proof.
  intros Hi H HI HR HF. split.
  - assert (X : forall store, ~ In id (leader_store (cs ++ [Delete id; Finish]) store)); [|apply X]. clear - H. induction H as [|x cs Hx HF IH]; intros store.
    + cbn. rewrite filter_In. intros [_ E]. rewrite Nat.eqb_refl in E. discriminate.
    + destruct x as [p d|j|j|]; cbn [app leader_store]; [apply IH|apply IH|apply IH|destruct Hx].
  - apply store_keeps. right. replace (cs ++ [Delete id; Finish]) with ((cs ++ [Delete id]) ++ [Finish]) in HR by (rewrite <- app_assoc; reflexivity).
    assert (H' : Forall (calm exec dumps func N) (cs ++ [Delete id])) by (apply Forall_app; split; [exact H|constructor; [exact I|constructor]]).
    destruct (C72_same_calls N (cs ++ [Delete id]) c i ltac:(lia) H' HR ltac:(lia)) as [_ E]. specialize (E HF). destruct i as [|i]; [lia|]. cbn [events] in E. rewrite E.
    apply in_flat_map. exists (Broadcast id). split; [apply in_or_app; left; exact HI|left; reflexivity].
Qed.
End Calm.
Print Assumptions C72_progress.
Print Assumptions C72_bounded.
Print Assumptions C72_completes.
Print Assumptions C72_same_calls.
Print Assumptions C72_lockstep.
Print Assumptions C72_delete_refuted.

(** * A nested call that fails *)
Section Broken.
Variables Fn Args Kw Val Pk Item : Type.
Variable exec : nat -> Fn -> Args -> Kw -> option Val.
Variable dumps : Fn -> Args -> Kw -> bool.
Variable func : Pk -> Item -> tree Fn Args Kw Val.
Notation act := (act Fn Args Kw Pk Item).
Notation config := (config Fn Args Kw Pk Item).
(** the team as one worker sees it *)
Definition lone (i : nat) : nat -> Fn -> Args -> Kw -> option Val := fun r => exec (if r =? 0 then 0 else i).
Definition alone (i : nat) (c : config) : config := (fst c, fun _ => snd c i).
Lemma inv_same acts lim e (c c' : config) ex : fst c = fst c' -> snd c 1 = snd c' 1 -> inv Fn Args Kw Val Pk Item ex acts 1 lim e c -> inv Fn Args Kw Val Pk Item ex acts 1 lim e c'.
Proof.
  intros E1 E2 (pos & H1 & H2 & H3). exists pos. split; [rewrite <- E1; exact H1|]. split.
  - intros i Hi. replace i with 1 in * by lia. rewrite <- E2. apply H2. lia.
  - intros b r r' Hb Hr Hr' [L1 L2]. apply (H3 b r r' Hb Hr Hr'). split; [exact L1|]. intros [X Y]. apply L2. split; [exact X|]. destruct r as [|[|r]]; [cbn in *; congruence|cbn in *; congruence|lia].
Qed.
Lemma alone_step acts lim e i N c c' : ends_ok Fn Args Kw Pk Item acts 1 lim e -> 1 <= i <= N -> inv Fn Args Kw Val Pk Item (lone i) acts 1 lim e (alone i c) -> step exec N c c' ->
  inv Fn Args Kw Val Pk Item (lone i) acts 1 lim e (alone i c').
Proof.
  intros HE Hi HI HS. set (V := fun _ : nat => snd c i).
  assert (M : forall d, step (lone i) 1 (alone i c) d -> fst d = fst c' -> snd d 1 = snd c' i -> inv Fn Args Kw Val Pk Item (lone i) acts 1 lim e (alone i c')).
  { intros d Hd E1 E2. apply (inv_same acts lim e d); [exact E1|exact E2|]. exact (step_inv _ _ _ _ _ _ (lone i) acts 1 lim e _ d HE HI Hd). }
  assert (S1 : forall (w : worker Fn Args Kw Pk), set V 1 w 1 = w) by (intros w; reflexivity).
  destruct HS as [l W m r HA H0|l W r HA H0|l W H0 HB|l W f a k r HA H0|l W id r HA H0|l W j m Hj H0 HN HM|l W j Hj H0 HN|l W j Hj H0 HM HB|l W j f a k Hj H0 HN|l W j id Hj H0 HN].
  - eapply M; [apply leader_sends; eassumption|reflexivity|reflexivity].
  - eapply M; [apply leader_enters; eassumption|reflexivity|reflexivity].
  - eapply M; [apply leader_leaves; [exact H0|]|reflexivity|reflexivity]. intros x Hx. cbn [snd alone]. apply HB. exact Hi.
  - eapply M; [eapply leader_runs; eassumption|reflexivity|reflexivity].
  - eapply M; [eapply leader_gets; eassumption|reflexivity|reflexivity].
  - destruct (Nat.eq_dec j i) as [->|Ne]; [|apply (inv_same acts lim e (alone i (l, W))); [reflexivity|cbn [snd alone]; unfold set; destruct (Nat.eqb_spec i j); [congruence|reflexivity]|exact HI]].
    eapply M; [apply (worker_receives _ _ _ _ _ _ _ _ l V 1 m); [lia|exact H0|exact HN|exact HM]|reflexivity|cbn [snd]; unfold set; rewrite !Nat.eqb_refl; reflexivity].
  - destruct (Nat.eq_dec j i) as [->|Ne]; [|apply (inv_same acts lim e (alone i (l, W))); [reflexivity|cbn [snd alone]; unfold set; destruct (Nat.eqb_spec i j); [congruence|reflexivity]|exact HI]].
    eapply M; [apply (worker_enters _ _ _ _ _ _ _ _ l V 1); [lia|exact H0|exact HN]|reflexivity|cbn [snd]; unfold set; rewrite !Nat.eqb_refl; reflexivity].
  - destruct (Nat.eq_dec j i) as [->|Ne]; [|apply (inv_same acts lim e (alone i (l, W))); [reflexivity|cbn [snd alone]; unfold set; destruct (Nat.eqb_spec i j); [congruence|reflexivity]|exact HI]].
    eapply M; [apply (worker_leaves _ _ _ _ _ _ _ _ l V 1); [lia|exact H0|exact HM|]|reflexivity|cbn [snd]; unfold set; rewrite !Nat.eqb_refl; reflexivity]. intros x Hx. unfold V. apply HB. exact Hi.
  - destruct (Nat.eq_dec j i) as [->|Ne]; [|apply (inv_same acts lim e (alone i (l, W))); [reflexivity|cbn [snd alone]; unfold set; destruct (Nat.eqb_spec i j); [congruence|reflexivity]|exact HI]].
    eapply M; [apply (worker_runs _ _ _ _ _ _ _ _ l V 1 f a k); [lia|exact H0|exact HN]|reflexivity|cbn [snd]; unfold set; rewrite !Nat.eqb_refl; reflexivity].
  - destruct (Nat.eq_dec j i) as [->|Ne]; [|apply (inv_same acts lim e (alone i (l, W))); [reflexivity|cbn [snd alone]; unfold set; destruct (Nat.eqb_spec i j); [congruence|reflexivity]|exact HI]].
    eapply M; [apply (worker_gets _ _ _ _ _ _ _ _ l V 1 id); [lia|exact H0|exact HN]|reflexivity|cbn [snd]; unfold set; rewrite !Nat.eqb_refl; reflexivity].
Qed.
Lemma follows_lone i s l e : 1 <= i -> follows Fn Args Kw Val Pk Item exec i s l e -> follows Fn Args Kw Val Pk Item (lone i) 1 s l e.
Proof.
  intros Hi. assert (X : forall x, after_local (lone i) 1 x = @after_local Fn Args Kw Val Pk exec i x) by reflexivity.
  revert s. induction l as [|y l IH]; intros s H; [exact H|]. destruct y; cbn [follows] in *; destruct H as [H0 H]; (split; [exact H0|]); rewrite ?X; apply IH; exact H.
Qed.
Definition stuck_at (s : wst Fn Args Kw Pk) (x : act) : Prop := (needs s = Receives /\ x = Bar) \/ (needs s = Waits /\ exists m, x = Send m).
Lemma breaks_tree N t : 1 <= N -> Breaks exec dumps N t -> exists i pre x rest s, 1 <= i <= N /\ leader_tree exec dumps t = pre ++ x :: rest /\ follows Fn Args Kw Val Pk Item exec i WTop pre s /\ stuck_at s x.
Proof.
  intros HN H. induction H as [f a k cont Hf|f a k cont v HD HE H0 HB IH].
  - cbn [leader_tree]. destruct (dumps f a k) eqn:HD.
    + destruct Hf as [Hf|(r & Hr & Hf)]; [discriminate|].
      assert (X : (exists i, 1 <= i <= N /\ exec i f a k = None) \/ (exec 0 f a k = None /\ exec 1 f a k <> None)).
      { destruct r as [|r]; [|left; exists (S r); split; [lia|exact Hf]]. destruct (exec 1 f a k) eqn:E1; [right; split; [exact Hf|discriminate]|left; exists 1; split; [lia|exact E1]]. }
      destruct X as [(i & Hi & Ei)|[E0 E1]].
      * exists i, [Bar; Send (MLoop true); Send (MFn f); Send (MArgs a); Send (MKw k); Bar; Run f a k], Bar, (match exec 0 f a k with Some v => leader_tree exec dumps (cont v) | None => [Send (MLoop false)] end), WOp.
        split; [exact Hi|]. split; [destruct (exec 0 f a k); reflexivity|]. split; [cbn; rewrite Ei; auto 10|]. left. auto.
      * exists 1, [Bar; Send (MLoop true); Send (MFn f); Send (MArgs a); Send (MKw k); Bar; Run f a k; Bar], (Send (MLoop false)), [], WTop.
        split; [lia|]. rewrite E0. split; [reflexivity|]. split; [cbn; destruct (exec 1 f a k); [auto 12|congruence]|]. right. split; [reflexivity|]. eauto.
    + exists 1, [Bar; Send (MLoop true)], Bar, [Send (MLoop false)], WFn. split; [lia|]. split; [reflexivity|]. split; [cbn; auto|]. left. auto.
  - destruct IH as (i & pre & x & rest & s & Hi & E & HF & HS). exists i, ([Bar; Send (MLoop true); Send (MFn f); Send (MArgs a); Send (MKw k); Bar; Run f a k; Bar] ++ pre), x, rest, s.
    split; [exact Hi|]. split; [cbn [leader_tree]; rewrite HD, H0, E; reflexivity|]. split; [|exact HS].
    apply (follows_app _ _ _ _ _ _ exec i WTop _ WTop); [|exact HF]. cbn. destruct (exec i f a k) eqn:Ei; [auto 12|exfalso; apply (HE i); [lia|exact Ei]].
Qed.
(** C72 (failing nested call): when a nested call cannot be pickled or raises on some rank, the team never finishes. *)
Theorem C72_exception_refuted N cs p d cs' c : 1 <= N -> Forall (calm exec dumps func N) cs -> Breaks exec dumps N (func p d) ->
  reach exec N (start exec dumps func N (cs ++ Map p d :: cs')) c -> ~ Final N c.
Proof.
  intros HN HC HB HR HF. destruct (breaks_tree N _ HN HB) as (i & pre & x & rest & s & Hi & ET & HFo & HS).
  set (P := leader_run exec dumps func N cs ++ [Send (MOp OpMap); Send (MPk p); Send (MItem d)] ++ pre).
  assert (EA : leader_run exec dumps func N (cs ++ Map p d :: cs') = P ++ x :: rest ++ leader_run exec dumps func N cs').
  { rewrite run_app by exact (calm_open _ _ _ _ _ _ exec dumps func N cs HC). cbn [leader_run]. unfold leader_item. destruct N; [lia|]. rewrite ET. unfold P. rewrite <- !app_assoc. reflexivity. }
  assert (FP : follows Fn Args Kw Val Pk Item exec i WOp P s).
  { apply (follows_app _ _ _ _ _ _ exec i WOp _ WOp); [exact (calm_run _ _ _ _ _ _ exec dumps func N cs i HC Hi)|]. apply (follows_app _ _ _ _ _ _ exec i WOp _ WTop); [cbn; auto|exact HFo]. }
  set (acts := leader_run exec dumps func N (cs ++ Map p d :: cs')) in *.
  assert (HX : nth_error acts (length P) = Some x) by (rewrite EA, nth_error_app2, Nat.sub_diag by lia; reflexivity).
  assert (HE : ends_ok Fn Args Kw Pk Item acts 1 (fun _ => length P) (fun _ => s)).
  { intros j Hj. right. rewrite HX. destruct HS as [[S1 ->]|[S1 [m ->]]]; [left|right]; (split; [exact S1|]); eauto. }
  assert (HI : inv Fn Args Kw Val Pk Item (lone i) acts 1 (fun _ => length P) (fun _ => s) (alone i c)).
  { clear HF. induction HR as [|c c' HR IH HT]; [|exact (alone_step acts _ _ i N c c' HE Hi IH HT)].
    exists (fun _ => 0). split; [|split].
    - split; [lia|]. split; [reflexivity|]. split; [reflexivity|]. split; [reflexivity|]. discriminate.
    - intros j Hj. replace j with 1 by lia. left. split; [lia|]. split; [rewrite EA, app_length; lia|]. split; [reflexivity|]. split; [reflexivity|]. cbn [snd alone start win ws]. rewrite Nat.sub_0_r.
      cbn [skipn]. rewrite EA, firstn_app, Nat.sub_diag, firstn_all. cbn [firstn]. rewrite app_nil_r. apply follows_lone; [lia|exact FP].
    - intros b r r' Hb Hr Hr' [L _]. lia. }
  destruct HI as (pos & _ & HW & _). destruct HF as (_ & _ & HF). destruct (HF i Hi) as [F1 F2]. destruct (HW 1 ltac:(lia)) as [(Q1 & Q2 & _ & _ & Q5)|(_ & Q & _)].
  - cbn [snd alone] in Q5. rewrite F1, F2 in Q5. destruct (firstn (length P - pos 1) (skipn (pos 1) acts)) as [|y l]; [|destruct y; cbn in Q5; destruct Q5 as [Q5 _]; discriminate]. cbn in Q5. subst s. destruct HS as [[S1 _]|[S1 _]]; discriminate.
  - cbn [snd alone] in Q. congruence.
Qed.
End Broken.
Print Assumptions C72_exception_refuted.

(** * Cases: two workers, a function that is called with its item and then with the result *)
Module Toy.
Definition exec (r : nat) (f a k : nat) : option nat := if f =? 9 then (if r =? k then None else Some a) else Some (f + a + r).
Definition dumps (f a k : nat) : bool := negb (f =? 8).
Definition func (p d : nat) : tree nat nat nat nat := Nested p d 0 (fun v => if p =? 7 then Nested 9 v 2 (fun _ => Ends) else Nested p v 1 (fun _ => Ends)).
Definition script : list (command nat nat) := [Broadcast 4; Map 1 5; Delete 4; Map 2 3].
Example calm_script : Forall (calm exec dumps func 2) script.
Proof.
  unfold script. constructor; [exact I|]. constructor; [|constructor; [exact I|constructor; [|constructor]]].
  all: cbn; constructor; [reflexivity|intros r Hr; discriminate|]; intros v E; injection E as <-; cbn; constructor; [reflexivity|intros r Hr; discriminate|]; intros v E; constructor.
Qed.
(** the calls every process makes *)
Example script_calls : flat_map (command_events exec func) script = [EWorld 4; ERun 1 5 0; ERun 1 6 1; ERun 2 3 0; ERun 2 5 1].
Proof. reflexivity. Qed.
(** the leader's bound on steps *)
Example script_length : length (leader_run exec dumps func 2 (script ++ [Finish])) = 45.
Proof. reflexivity. Qed.
(** the second call raises on worker 2 only; a call that cannot be pickled; the leader alone raises *)
Example breaks_worker : Breaks exec dumps 2 (func 7 1).
Proof. unfold func. apply (breaks_later _ _ _ _ _ _ 2 7 1 0 _ 8); [reflexivity|intros r Hr; discriminate|reflexivity|]. cbn. apply breaks_here. right. exists 2. split; [lia|reflexivity]. Qed.
Example breaks_pickle : Breaks exec dumps 2 (func 8 1).
Proof. apply breaks_here. left. reflexivity. Qed.
Example breaks_leader : Breaks exec dumps 2 (func 9 1).
Proof. apply breaks_here. right. exists 0. split; [lia|reflexivity]. Qed.
End Toy.
