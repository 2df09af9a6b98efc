(** Proofs about RSMCABC. *)
From Verif Require Import M_Base M_Num L_Num M_Infer S_Infer L_Infer M_PMCABC S_PMCABC L_PMCABC M_RSMCABC S_RSMCABC.
From Coq Require Import Lqa Permutation Qround Sorting.Sorted.
Open Scope nat_scope.

(** * The stable sort *)
Lemma kinsert_perm {A} (x : num * A) l : Permutation (kinsert x l) (x :: l).
Proof. induction l as [|y l IH]; cbn; [reflexivity|]. destruct (nlt (fst y) (fst x)); [rewrite IH; apply perm_swap | reflexivity]. Qed.
Lemma ksort_perm {A} (l : list (num * A)) : Permutation (ksort l) l.
Proof. induction l as [|x l IH]; cbn; [reflexivity|]. rewrite kinsert_perm. constructor. exact IH. Qed.
Lemma nlt_false_nle a b : is_nan a = false -> is_nan b = false -> nlt b a = false -> nle a b = true.
Proof. intros Ha Hb H. apply nlt_false in H. destruct H as [H|[H|H]]; congruence. Qed.
Definition kle {A} (a b : num * A) : Prop := nle (fst a) (fst b) = true.
Lemma kinsert_sorted {A} (x : num * A) l : Forall (fun y => is_nan (fst y) = false) (x :: l) -> StronglySorted kle l -> StronglySorted kle (kinsert x l).
Proof.
  intros Hn Hs. induction Hs as [|y l Hs IH Hy]; cbn; [repeat constructor|].
  inversion Hn as [|? ? Hx Hn']; subst. inversion Hn' as [|? ? Hny Hnl]; subst.
  destruct (nlt (fst y) (fst x)) eqn:E.
  - constructor; [apply IH; constructor; assumption|].
    rewrite Forall_forall in *. intros z Hz. apply (Permutation_in _ (kinsert_perm x l)) in Hz. destruct Hz as [<-|Hz]; [apply nlt_nle; exact E | apply Hy; exact Hz].
  - assert (Hxy : kle x y) by (apply nlt_false_nle; assumption).
    constructor; [constructor; assumption|]. constructor; [exact Hxy|]. rewrite Forall_forall in *. intros z Hz. eapply nle_trans; [exact Hxy | apply Hy; exact Hz].
Qed.
Lemma ksort_sorted {A} (l : list (num * A)) : Forall (fun y => is_nan (fst y) = false) l -> StronglySorted kle (ksort l).
Proof.
  induction l as [|x l IH]; intros H; cbn; [constructor|]. inversion H as [|? ? Hx Hl]; subst. apply kinsert_sorted; [|apply IH; exact Hl].
  constructor; [exact Hx|]. rewrite Forall_forall in *. intros z Hz. apply Hl. eapply Permutation_in; [apply ksort_perm | exact Hz].
Qed.
Lemma sorted_app {A} (P : A -> A -> Prop) l1 l2 : StronglySorted P (l1 ++ l2) -> StronglySorted P l1 /\ forall x y, In x l1 -> In y l2 -> P x y.
Proof.
  induction l1 as [|a l1 IH]; cbn; intros H; [split; [constructor | intros x y []]|]. inversion H as [|? ? Hs Ha]; subst. destruct (IH Hs) as [I1 I2].
  rewrite Forall_app in Ha. destruct Ha as [Ha1 Ha2]. split; [constructor; assumption|]. intros x y [<-|Hx] Hy; [rewrite Forall_forall in Ha2; auto | auto].
Qed.
Lemma sorted_map {A B} (f : A -> B) (P : B -> B -> Prop) l : StronglySorted (fun a b => P (f a) (f b)) l -> StronglySorted P (map f l).
Proof. induction 1 as [|a l Hs IH Ha]; cbn; constructor; [exact IH|]. apply Forall_map. exact Ha. Qed.
Lemma combine_split_map {A B} (l : list (A * B)) : combine (map fst l) (map snd l) = l.
Proof. induction l as [|[a b] l IH]; cbn; congruence. Qed.
Lemma ksort_closest {Theta} m (rows : list Theta) ds : length rows = length ds -> m <= length ds ->
  Closest m rows ds (map snd (firstn m (ksort (combine ds rows)))) (map fst (firstn m (ksort (combine ds rows)))).
Proof.
  intros Hl Hm. set (s := ksort (combine ds rows)). assert (Hls : length s = length ds).
  { unfold s. rewrite (Permutation_length (ksort_perm _)), combine_length. lia. }
  split; [rewrite map_length, firstn_length; lia|]. split; [rewrite map_length, firstn_length; lia|].
  exists (map snd (skipn m s)), (map fst (skipn m s)). split; [rewrite !map_length; reflexivity|]. split.
  - rewrite !combine_split_map, firstn_skipn. symmetry. apply ksort_perm.
  - intros Hn. assert (Hs : StronglySorted kle s).
    { apply ksort_sorted. rewrite Forall_forall in *. intros [d th] Hin. apply Hn. eapply in_combine_l; exact Hin. }
    rewrite <- (firstn_skipn m s) in Hs. apply sorted_app in Hs. destruct Hs as [H1 H2]. split; [apply sorted_map; exact H1|].
    intros x y Hx Hy. apply in_map_iff in Hx, Hy. destruct Hx as (a & <- & Ha), Hy as (b & <- & Hb). exact (H2 a b Ha Hb).
Qed.
Lemma sorted_last {A} (P : A -> A -> Prop) l d : (forall x, In x l -> P x x) -> StronglySorted P l -> forall x, In x l -> P x (last l d).
Proof.
  intros Hr Hs. induction Hs as [|a l Hs IH Ha]; intros x Hx; [destruct Hx|]. destruct l as [|b l].
  - destruct Hx as [<-|[]]. apply Hr. left. reflexivity.
  - change (last (a :: b :: l) d) with (last (b :: l) d). destruct Hx as [<-|Hx]; [|apply IH; [intros; apply Hr; right; assumption | exact Hx]].
    rewrite Forall_forall in Ha. apply Ha. clear. revert b. induction l as [|c l IH]; intros b; [left; reflexivity|]. right. apply IH.
Qed.
Lemma last_in {A} (l : list A) d : l <> [] -> In (last l d) l.
Proof. induction l as [|b l IH]; [congruence|]. intros _. destruct l as [|c l]; [left; reflexivity|]. right. apply IH. discriminate. Qed.
Lemma last_rev {A} (l : list A) x l' d : rev l = x :: l' -> last l d = x /\ l <> [].
Proof.
  intros H. assert (E : l = rev l' ++ [x]) by (rewrite <- (rev_involutive l), H; reflexivity). subst l. split; [apply last_last | destruct (rev l'); discriminate].
Qed.
Lemma nle_refl a : is_nan a = false -> nle a a = true.
Proof. destruct a; cbn; try discriminate; auto. intros _. apply Qle_bool_iff. apply Qle_refl. Qed.

Section P.
Variables Theta Rng Y : Type.
Variable setp : Theta -> Theta -> bool * Theta.
Variable pdfv : Theta -> Theta -> num.
Variable kupd : pop Theta -> nat -> Rng -> Rng * Theta.
Variable kpdf : pop Theta -> Theta -> Theta -> num.
Variable prior : Rng -> Rng * Theta.
Variable simc : Theta -> Rng -> Rng * option Y.
Variable dist : Y -> num.
Variable dist_max : num.
Variable mkrng : Z -> Rng.
Variable reseed : Rng -> Rng.
Variable choiceU : nat -> Rng -> res (Rng * nat).
Variable bern : num -> Rng -> res (Rng * bool).
Variable newR : Q -> res Z.
Hypothesis Hset : set_ok setp.
Hypothesis HR : forall p z, (0 < p)%Q -> (p < 1)%Q -> newR p = Ok z -> (0 <= z)%Z.
Notation rs_prior := (rs_prior Theta Rng Y prior simc dist).
Notation rs_moves := (rs_moves Theta Rng Y setp pdfv kupd kpdf simc dist bern).
Notation rs_accept := (rs_accept Theta Rng Y setp pdfv kupd kpdf prior simc dist dist_max mkrng reseed choiceU bern).
Notation rs_step := (rs_step Theta Rng Y setp pdfv kupd kpdf prior simc dist dist_max mkrng reseed choiceU bern newR).
Notation rs_iterate := (rs_iterate Theta Rng Y setp pdfv kupd kpdf prior simc dist dist_max mkrng reseed choiceU bern newR).
Notation Simulated := (Simulated setp simc dist).
Notation Particle := (Particle setp pdfv kupd prior simc dist dist_max (fun n _ r => choiceU n r)).
Notation Replenished := (Replenished setp pdfv kupd kpdf simc dist bern).
Notation Better := (Better setp pdfv kupd kpdf simc dist bern).
Notation RRun := (RRun setp pdfv kupd kpdf simc dist bern).
Notation rstate := (rstate Theta).

Lemma rs_prior_spec n eps fuel : forall cur r d cnt th d' ix cnt' c, (d = dist_max \/ ((exists r r', prior r = (r', cur)) /\ Simulated cur d)) ->
  rs_prior eps fuel cur r d cnt = Ok (th, d', ix, cnt', c) -> Particle n None eps th d' /\ ix = 1 /\ cnt <= cnt' /\ (nlt eps d = true -> cnt < cnt').
Proof.
  induction fuel as [|f IH]; intros cur r d cnt th d' ix cnt' c Hg; cbn [M_RSMCABC.rs_prior];
    (destruct (nlt eps d) eqn:En; [|intros H; inversion H; subst; split; [split; assumption|]; split; [reflexivity|]; split; [lia | congruence]]); [discriminate|].
  destruct (prior r) as [r1 th1] eqn:Epr. destruct (simc th1 r1) as [r2 [y|]] eqn:Es; [|discriminate]. intros H. apply IH in H; [|right; split; [eauto|]; exists th1, r1, r2, y; auto]. destruct H as (A & B & C & _). split; [exact A|]. split; [exact B|]. split; [lia|]. intros _. lia.
Qed.
Lemma rs_moves_spec eps p ds i theta fuel k : forall cur r d acc cnt th d' ix cnt' c,
  rs_moves eps p (Some ds) i theta fuel k cur r d acc cnt = Ok (th, d', ix, cnt', c) ->
  cnt' = cnt + k /\ ix <= acc + k /\ ((k = 0 /\ th = cur /\ d' = d) \/
    (0 < k /\ (exists c, th = snd (setp theta c)) /\ (nth_error ds i = Some d' \/ Better eps (p_rows p) i theta d'))).
Proof.
  induction k as [|k IH]; intros cur r d acc cnt th d' ix cnt' c; cbn [M_RSMCABC.rs_moves]; [intros H; inversion H; subst; split; [lia|]; split; [lia | left; auto]|].
  destruct (propose Theta Rng (pop Theta) setp kupd pdfv fuel p i cur r) as [[[c1 r1] th1]|] eqn:Ep; [|discriminate].
  destruct (simc c1 r1) as [r2 [y|]] eqn:Es; [|discriminate]. unfold pdf_of_prior. cbv zeta.
  set (c3 := snd (setp theta (snd (setp th1 c1)))).
  assert (Hgo : forall cx rx dx ax, (exists c0, cx = snd (setp theta c0)) -> (nth_error ds i = Some dx \/ Better eps (p_rows p) i theta dx) -> ax <= S acc ->
            rs_moves eps p (Some ds) i theta fuel k cx rx dx ax (S cnt) = Ok (th, d', ix, cnt', c) ->
            cnt' = cnt + S k /\ ix <= acc + S k /\ ((S k = 0 /\ th = cur /\ d' = d) \/ (0 < S k /\ (exists c, th = snd (setp theta c)) /\ (nth_error ds i = Some d' \/ Better eps (p_rows p) i theta d')))).
  { intros cx rx dx ax Hcx Hdx Hax H. apply IH in H. destruct H as (H0 & H1 & H2). split; [lia|]. split; [lia|]. right. split; [lia|]. destruct H2 as [(-> & -> & ->) | (_ & A & B)]; auto. }
  assert (Hrej : forall rx, match nth_error ds i with None => Err IndexError | Some dx => rs_moves eps p (Some ds) i theta fuel k (snd (setp theta c3)) rx dx acc (S cnt) end = Ok (th, d', ix, cnt', c) ->
            cnt' = cnt + S k /\ ix <= acc + S k /\ ((S k = 0 /\ th = cur /\ d' = d) \/ (0 < S k /\ (exists c, th = snd (setp theta c)) /\ (nth_error ds i = Some d' \/ Better eps (p_rows p) i theta d')))).
  { intros rx. destruct (nth_error ds i) as [dx|]; [|discriminate]. apply Hgo; [eauto | left; reflexivity | lia]. }
  destruct (nlt (dist y) eps) eqn:El; [|apply Hrej]. match goal with |- context [bern ?q r2] => destruct (bern q r2) as [[r3 [|]]|] eqn:Eb end; [| apply Hrej | discriminate].
  apply Hgo; [exists (snd (setp th1 c1)); reflexivity | right | lia]. split; [exact El|].
  destruct (propose_spec _ _ _ _ _ _ _ Hset _ _ _ _ _ _ _ Ep) as (_ & Hc & r4 & r5 & Hk). exists th1, (p_w p), r4, r5, c1, (snd (setp th1 c1)), r2, r3.
  destruct p as [prows pw]. split; [exact Hk|]. split; [exists c1, r1, r2, y; auto | exact Eb].
Qed.
Lemma rs_accept_some eps R p ds fuel sd cur th d ix cnt c : (0 < R)%Z -> rs_accept eps R (Some p) (Some ds) fuel sd cur = Ok (th, d, ix, cnt, c) ->
  Replenished eps (p_rows p) ds th d /\ (Z.of_nat ix <= R)%Z /\ cnt = Z.to_nat R.
Proof.
  intros H0. unfold M_RSMCABC.rs_accept. destruct (choiceU (length (p_rows p)) (reseed (mkrng sd))) as [[r1 i]|]; [|discriminate].
  destruct (nth_error (p_rows p) i) as [theta|] eqn:Ei; [|discriminate]. intros H. apply rs_moves_spec in H. destruct H as (Hc & H1 & [(H2 & _)|(_ & A & B)]); [lia|].
  split; [exists i, theta; auto | lia].
Qed.
Lemma fold_plus {A} (f : A -> nat) l : forall a, fold_left (fun a x => a + f x) l a = a + fold_left (fun a x => a + f x) l 0.
Proof. induction l as [|x l IH]; intros a; cbn [fold_left]; [lia|]. rewrite (IH (a + f x)), (IH (0 + f x)). lia. Qed.
Lemma fold_bound {A} (f : A -> nat) l b : Forall (fun x => f x <= b) l -> fold_left (fun a x => a + f x) l 0 <= b * length l.
Proof. induction 1 as [|x l Hx Hl IH]; cbn [fold_left length]; [lia|]. rewrite fold_plus. cbn. nia. Qed.
Lemma newR_ok R rep total R' : (0 <= R)%Z -> 0 < rep -> (Z.of_nat total <= R * Z.of_nat rep)%Z ->
  (if (R =? 0)%Z then Err ValueError
   else let pacc := (inject_Z (Z.of_nat total) / inject_Z (R * Z.of_nat rep))%Q in if Qeq_bool pacc 1 || Qeq_bool pacc 0 then Ok 1%Z else newR pacc) = Ok R' ->
  (0 < R)%Z /\ (0 <= R')%Z.
Proof.
  intros H0 Hrep Hb. destruct (Z.eqb_spec R 0) as [|Hne]; [discriminate|]. cbv zeta. set (pacc := (inject_Z (Z.of_nat total) / inject_Z (R * Z.of_nat rep))%Q).
  assert (Hd : (0 < inject_Z (R * Z.of_nat rep))%Q) by (change 0%Q with (inject_Z 0); rewrite <- Zlt_Qlt; nia).
  assert (Hp0 : (0 <= pacc)%Q) by (unfold pacc; apply Qle_shift_div_l; [exact Hd|]; rewrite Qmult_0_l; change 0%Q with (inject_Z 0); rewrite <- Zle_Qle; lia).
  assert (Hp1 : (pacc <= 1)%Q) by (unfold pacc; apply Qle_shift_div_r; [exact Hd|]; rewrite Qmult_1_l, <- Zle_Qle; exact Hb).
  destruct (Qeq_bool pacc 1) eqn:E1; cbn [orb]; [intros H; inversion H; split; lia|].
  destruct (Qeq_bool pacc 0) eqn:E0; [intros H; inversion H; split; lia|]. intros H. split; [lia|].
  apply Qeq_bool_neq in E1, E0. apply (HR pacc); [lra | lra | exact H].
Qed.
Lemma ones_eq n : ones n = repeat (ndiv (Fin 1) (Fin (inject_Z (Z.of_nat n)))) n.
Proof. reflexivity. Qed.

(** state between iterations *)
Definition Inv (n k : nat) (s : rstate) krows kds : Prop :=
  k < n /\ length krows = n - k /\ length kds = n - k /\ q_acc Theta s = Some (krows, kds) /\ (exists w, q_mgr Theta s = Some (mkpop krows w)) /\ (0 <= q_R Theta s)%Z /\ q_rep Theta s = k.
Definition recorded (full steps t : nat) := ((full =? 1) && (t <=? steps - 1)) || ((full =? 0) && (t =? steps - 1)).

Lemma rs_step0 n k steps e0 ef full fuel seed (s s' : rstate) : q_mgr Theta s = None -> q_eps Theta s = [] ->
  rs_step n k steps e0 ef full fuel 0 seed s = Ok s' ->
  exists r krows kds, length (r_rows r) = n /\ Forall2 (Particle n None e0) (r_rows r) (r_ds r) /\ r_w r = repeat (ndiv (Fin 1) (Fin (inject_Z (Z.of_nat n)))) n
  /\ Closest (n - k) (r_rows r) (r_ds r) krows kds /\ Inv n k s' krows kds
  /\ q_count Theta s' = r_nsim r /\ (nlt e0 dist_max = true -> q_count Theta s + n <= r_nsim r)
  /\ q_eps Theta s' = [e0] /\ q_hist Theta s' = q_hist Theta s ++ [r] /\ q_recs Theta s' = (if recorded full steps 0 then q_recs Theta s ++ [r] else q_recs Theta s).
Proof.
  intros Hm He. unfold M_RSMCABC.rs_step. destruct (nlt e0 ef); [discriminate|]. rewrite Hm.
  match goal with |- context [mapT ?f ?l ?c] => destruct (mapT f l c) as [[results cur1]|] eqn:Em; [|discriminate] end.
  apply mapT_ok in Em. destruct results as [|x0 res0] eqn:Eres; [discriminate|]. rewrite <- Eres in *. clear x0 res0 Eres.
  assert (Hlen : length results = n).
  { transitivity (length (seeds_of seed n)); [clear - Em; induction Em; cbn; congruence | unfold seeds_of; rewrite map_length, seq_length; reflexivity]. }
  assert (HF : Forall2 (Particle n None e0) (map (fun x => fst (fst (fst x))) results) (map (fun x => snd (fst (fst x))) results) /\ Forall (fun x => snd (fst x) <= 1) results /\ (nlt e0 dist_max = true -> Forall (fun x => 1 <= snd x) results)).
  { clear - Em. induction Em as [|sd x l results (c1 & c2 & Hx) Em (IH1 & IH2 & IH3)]; cbn; [split; [constructor|]; split; [constructor | intros; constructor]|].
    destruct (rs_accept e0 1 None (q_dists Theta s) fuel sd c1) as [[[[[th d] ix] cnt] c']|] eqn:Ea; [|discriminate]. inversion Hx; subst. cbn.
    unfold M_RSMCABC.rs_accept in Ea. apply (rs_prior_spec n) in Ea; [|left; reflexivity]. destruct Ea as (A & -> & _ & B). split; [constructor; auto|]. split; [constructor; auto|]. intros Hlt. constructor; [exact (B Hlt) | auto]. }
  destruct HF as (HF & Hix & Hcnt). rewrite map_length, Hlen, Nat.eqb_refl.
  set (rows := map (fun x => fst (fst (fst x))) results) in *. set (ds := map (fun x => snd (fst (fst x))) results) in *.
  assert (Hr : length rows = n) by (unfold rows; rewrite map_length; exact Hlen). assert (Hd : length ds = n) by (unfold ds; rewrite map_length; exact Hlen).
  match goal with |- match ?X with _ => _ end = _ -> _ => destruct X as [R'|] eqn:ER; [|discriminate] end.
  destruct (firstn (n - k) (ksort (combine ds rows))) as [|x0 l0] eqn:Es; [discriminate|]. rewrite <- Es. intros H. injection H as <-.
  assert (Hkn : k < n). { destruct (Nat.lt_ge_cases k n) as [|Hge]; [assumption|]. replace (n - k) with 0 in Es by lia. discriminate. }
  pose proof (ksort_closest (n - k) rows ds ltac:(lia) ltac:(lia)) as Hc.
  exists (mkrec rows ds (ones (length rows)) (fold_left (fun a x => a + snd x) results (q_count Theta s))).
  exists (map snd (firstn (n - k) (ksort (combine ds rows)))), (map fst (firstn (n - k) (ksort (combine ds rows)))).
  cbn [r_rows r_ds r_w q_eps q_hist q_recs]. split; [exact Hr|]. split; [exact HF|]. split; [rewrite Hr; reflexivity|]. split; [exact Hc|].
  split; [|split; [reflexivity|]; split; [|split; [reflexivity|]; split; reflexivity]].
  2:{ intros Hx. cbn [r_nsim]. specialize (Hcnt Hx). clear - Hcnt Hlen. revert Hlen. generalize n (q_count Theta s). induction Hcnt as [|x l Hx Hl IH]; intros m c L; cbn [fold_left length] in *; [lia|].
      destruct m as [|m]; [lia|]. specialize (IH m (c + snd x) ltac:(lia)). lia. }
  destruct Hc as [L1 [L2 _]]. split; [exact Hkn|]. split; [exact L1|]. split; [exact L2|]. cbn [q_acc q_mgr q_R q_rep]. split; [reflexivity|]. split; [eauto|]. split; [|reflexivity].
  apply newR_ok in ER; [tauto | lia | lia|]. pose proof (fold_bound (fun x => snd (fst x)) results 1 Hix). lia.
Qed.
Lemma rs_stepS n k steps e0 ef full fuel t seed (s s' : rstate) krows kds : Inv n k s krows kds -> 
  rs_step n k steps e0 ef full fuel (S t) seed s = Ok s' ->
  exists R eps nrows nds r krows' kds', 0 < R /\ r_nsim r = q_count Theta s + k * R /\ q_count Theta s' = r_nsim r /\ kds <> [] /\ eps = last kds NaN /\ length nrows = k /\ Forall2 (Replenished eps krows kds) nrows nds
  /\ r_rows r = krows ++ nrows /\ r_ds r = kds ++ nds /\ r_w r = repeat (ndiv (Fin 1) (Fin (inject_Z (Z.of_nat n)))) n
  /\ Closest (n - k) (r_rows r) (r_ds r) krows' kds' /\ Inv n k s' krows' kds'
  /\ q_eps Theta s' = q_eps Theta s ++ [eps] /\ q_hist Theta s' = q_hist Theta s ++ [r]
  /\ q_recs Theta s' = (if recorded full steps (S t) then q_recs Theta s ++ [r] else q_recs Theta s).
Proof.
  intros (Hkn & L1 & L2 & Ha & (w & Hm) & H0 & Hrep). unfold M_RSMCABC.rs_step. rewrite Ha, Hm, Hrep.
  destruct (rev kds) as [|eps kds0] eqn:Erev; [discriminate|]. destruct (last_rev _ _ _ NaN Erev) as [Hlast Hne].
  destruct (nlt eps ef); [discriminate|].
  match goal with |- context [mapT ?f ?l ?c] => destruct (mapT f l c) as [[results cur1]|] eqn:Em; [|discriminate] end.
  apply mapT_ok in Em. destruct results as [|x0 res0] eqn:Eres; [discriminate|]. rewrite <- Eres in *.
  assert (Hlen : length results = k).
  { transitivity (length (seeds_of seed k)); [clear - Em; induction Em; cbn; congruence | unfold seeds_of; rewrite map_length, seq_length; reflexivity]. }
  assert (Hk0 : 0 < k) by (rewrite <- Hlen, Eres; cbn; lia). clear x0 res0 Eres.
  rewrite map_length, Hlen. destruct (Nat.eqb_spec k n) as [|_]; [lia|].
  set (nrows := map (fun x => fst (fst (fst x))) results) in *. set (nds := map (fun x => snd (fst (fst x))) results) in *.
  match goal with |- match ?X with _ => _ end = _ -> _ => destruct X as [R'|] eqn:ER; [|discriminate] end.
  destruct (firstn (n - k) (ksort (combine (kds ++ nds) (krows ++ nrows)))) as [|x0 l0] eqn:Es; [discriminate|]. rewrite <- Es. intros H. injection H as <-.
  assert (HRpos : (0 < q_R Theta s)%Z). { destruct (Z.eqb_spec (q_R Theta s) 0); [discriminate | lia]. }
  assert (HF : Forall2 (Replenished eps krows kds) nrows nds /\ Forall (fun x => snd (fst x) <= Z.to_nat (q_R Theta s)) results /\ Forall (fun x => snd x = Z.to_nat (q_R Theta s)) results).
  { clear - Em HRpos Hset. unfold nrows, nds. induction Em as [|sd x l results (c1 & c2 & Hx) Em (IH1 & IH2 & IH3)]; cbn; [split; [constructor|]; split; constructor|].
    destruct (rs_accept eps (q_R Theta s) (Some (mkpop krows w)) (Some kds) fuel sd c1) as [[[[[th d] ix] cnt] c']|] eqn:Eac; [|discriminate]. inversion Hx; subst. cbn.
    apply rs_accept_some in Eac; [|exact HRpos]. destruct Eac as (A & B & C). split; [constructor; auto|]. split; [constructor; [cbn; lia | auto] | constructor; [exact C | auto]]. }
  destruct HF as (HF & Hix & Hcnt). assert (Hnr : length nrows = k) by (unfold nrows; rewrite map_length; exact Hlen). assert (Hnd : length nds = k) by (unfold nds; rewrite map_length; exact Hlen).
  assert (Hlr : length (krows ++ nrows) = n) by (rewrite app_length; lia). assert (Hld : length (kds ++ nds) = n) by (rewrite app_length; lia).
  pose proof (ksort_closest (n - k) (krows ++ nrows) (kds ++ nds) ltac:(lia) ltac:(lia)) as Hc.
  exists (Z.to_nat (q_R Theta s)), eps, nrows, nds, (mkrec (krows ++ nrows) (kds ++ nds) (ones (length (krows ++ nrows))) (fold_left (fun a x => a + snd x) results (q_count Theta s))).
  exists (map snd (firstn (n - k) (ksort (combine (kds ++ nds) (krows ++ nrows))))), (map fst (firstn (n - k) (ksort (combine (kds ++ nds) (krows ++ nrows))))).
  cbn [r_rows r_ds r_w r_nsim q_count q_eps q_hist q_recs]. split; [lia|].
  split. { clear - Hcnt Hlen. revert Hlen. generalize k (q_count Theta s). induction Hcnt as [|x l Hx Hl IH]; intros m c L; cbn [fold_left length] in *; [subst m; lia|]. destruct m as [|m]; [lia|]. rewrite (IH m (c + snd x) ltac:(lia)). nia. }
  split; [reflexivity|]. split; [exact Hne|]. split; [symmetry; exact Hlast|]. split; [exact Hnr|]. split; [exact HF|]. split; [reflexivity|]. split; [reflexivity|].
  split; [rewrite Hlr; reflexivity|]. split; [exact Hc|]. split; [|split; [reflexivity|]; split; reflexivity].
  destruct Hc as [L1' [L2' _]]. split; [exact Hkn|]. split; [exact L1'|]. split; [exact L2'|]. cbn [q_acc q_mgr q_R q_rep]. split; [reflexivity|]. split; [eauto|]. split; [|reflexivity].
  apply newR_ok in ER; [tauto | lia | lia|]. pose proof (fold_bound (fun x => snd (fst x)) results _ Hix). rewrite Hlen in *. nia.
Qed.
Lemma rs_iterate_run n k steps e0 ef full fuel seed : forall todo t (s s' : rstate) krows kds, Inv n k s krows kds -> S t + todo = steps ->
  rs_iterate n k steps e0 ef full fuel (S t) todo seed s = Ok s' ->
  exists es rs, RRun n k krows kds (q_count Theta s) es rs /\ length es = todo /\ length rs = todo
  /\ q_eps Theta s' = q_eps Theta s ++ es /\ q_hist Theta s' = q_hist Theta s ++ rs
  /\ q_recs Theta s' = q_recs Theta s ++ (if full =? 1 then rs else if full =? 0 then match rs with [] => [] | _ => [last rs (mkrec [] [] [] 0)] end else []).
Proof.
  induction todo as [|todo IH]; intros t s s' krows kds HI Ht H; cbn [M_RSMCABC.rs_iterate] in H.
  - injection H as <-. exists [], []. split; [constructor|]. split; [reflexivity|]. split; [reflexivity|]. rewrite !app_nil_r. split; [reflexivity|]. split; [reflexivity|].
    destruct (full =? 1); [|destruct (full =? 0)]; rewrite app_nil_r; reflexivity.
  - destruct (rs_step n k steps e0 ef full fuel (S t) (seed (S t)) s) as [s1|] eqn:Es; [|discriminate].
    destruct (rs_stepS _ _ _ _ _ _ _ _ _ _ _ _ _ HI Es) as (R & eps & nrows & nds & r & krows' & kds' & Z1 & Z2 & Z3 & A1 & A2 & A3 & A4 & A5 & A6 & A7 & A8 & A9 & A10 & A11 & A12).
    destruct (IH (S t) s1 s' krows' kds' A9 ltac:(lia) H) as (es & rs & B1 & B2 & B3 & B4 & B5 & B6).
    exists (eps :: es), (r :: rs). split; [rewrite Z3 in B1; econstructor; eassumption|]. cbn [length]. split; [lia|]. split; [lia|].
    split; [rewrite B4, A10, <- app_assoc; reflexivity|]. split; [rewrite B5, A11, <- app_assoc; reflexivity|].
    rewrite B6, A12. unfold recorded. replace (S t <=? steps - 1) with true by (symmetry; apply Nat.leb_le; lia).
    destruct (full =? 1) eqn:E1; cbn [andb orb]; [rewrite <- app_assoc; reflexivity|]. destruct (full =? 0) eqn:E0; cbn [andb]; [|rewrite app_nil_r; reflexivity].
    destruct rs as [|r1 rs]; cbn [length] in B3.
    + replace (S t =? steps - 1) with true by (symmetry; apply Nat.eqb_eq; lia). rewrite app_nil_r. reflexivity.
    + replace (S t =? steps - 1) with false by (symmetry; apply Nat.eqb_neq; lia). reflexivity.
Qed.
Notation rs_sample := (rs_sample Theta Rng Y setp pdfv kupd kpdf prior simc dist dist_max mkrng reseed choiceU bern newR).
Lemma rs_sample_run steps n alpha e0 ef full fuel seed dists0 cur0 count0 s : 0 < steps ->
  rs_sample steps n alpha e0 ef full None fuel seed None dists0 cur0 count0 = Ok s ->
  let k := Z.to_nat (pyround (inject_Z (Z.of_nat n) * alpha)) in
  k < n /\ exists r krows kds es rs, length (r_rows r) = n /\ Forall2 (Particle n None e0) (r_rows r) (r_ds r) /\ r_w r = repeat (ndiv (Fin 1) (Fin (inject_Z (Z.of_nat n)))) n
  /\ Closest (n - k) (r_rows r) (r_ds r) krows kds /\ RRun n k krows kds (r_nsim r) es rs /\ (nlt e0 dist_max = true -> count0 + n <= r_nsim r)
  /\ q_eps Theta s = e0 :: es /\ q_hist Theta s = r :: rs /\ length es = steps - 1 /\ length rs = steps - 1
  /\ q_recs Theta s = (if full =? 1 then q_hist Theta s else if full =? 0 then [last (q_hist Theta s) (mkrec [] [] [] 0)] else []).
Proof.
  intros Hs H. unfold M_RSMCABC.rs_sample in H. set (k := Z.to_nat (pyround (inject_Z (Z.of_nat n) * alpha))) in *. cbv zeta in H |- *. clearbody k.
  destruct steps as [|steps0]; [lia|]. set (steps := S steps0) in *.
  change (match rs_step n k steps e0 ef full fuel 0 (seed 0) (mkrst Theta [] 1 n None None dists0 count0 cur0 [] []) with Err e => Err e | Ok s' => rs_iterate n k steps e0 ef full fuel 1 steps0 seed s' end = Ok s) in H.
  destruct (rs_step n k steps e0 ef full fuel 0 (seed 0) (mkrst Theta [] 1 n None None dists0 count0 cur0 [] [])) as [s1|] eqn:E0; [|discriminate].
  apply rs_step0 in E0; [|reflexivity | reflexivity]. destruct E0 as (r & krows & kds & A1 & A2 & A3 & A4 & A5 & Z1 & Z2 & A6 & A7 & A8).
  apply rs_iterate_run with (krows := krows) (kds := kds) in H; [|exact A5 | unfold steps; lia]. destruct H as (es & rs & B1 & B2 & B3 & B4 & B5 & B6).
  split; [apply A5|]. exists r, krows, kds, es, rs. split; [exact A1|]. split; [exact A2|]. split; [exact A3|]. split; [exact A4|]. split; [rewrite <- Z1; exact B1|]. split; [exact Z2|].
  rewrite A6 in B4. rewrite A7 in B5. cbn [q_hist q_recs app] in *. split; [exact B4|]. split; [exact B5|]. unfold steps. split; [lia|]. split; [lia|].
  rewrite B6, A8, B5. unfold recorded. replace (0 <=? steps - 1) with true by (symmetry; apply Nat.leb_le; lia).
  destruct (full =? 1); [reflexivity|]. destruct (full =? 0); cbn [andb orb]; [|reflexivity].
  destruct rs as [|r1 rs]; cbn [length] in B3.
  - replace (0 =? steps - 1) with true by (symmetry; apply Nat.eqb_eq; unfold steps; lia). reflexivity.
  - replace (0 =? steps - 1) with false by (symmetry; apply Nat.eqb_neq; unfold steps; lia). reflexivity.
Qed.

Lemma rs_step_final n k steps e0 ef full fuel t seed (s s' : rstate) : rs_step n k steps e0 ef full fuel t seed s = Ok s' -> Forall (fun e => nlt e ef = false) (q_eps Theta s) ->
  Forall (fun e => nlt e ef = false) (q_eps Theta s').
Proof.
  unfold M_RSMCABC.rs_step. intros H HF.
  match type of H with match ?X with _ => _ end = _ => destruct X as [[[[epsilon eps] R] rep]|] eqn:E; [|discriminate] end.
  destruct (nlt eps ef) eqn:El; [discriminate|]. assert (He : Forall (fun e => nlt e ef = false) epsilon).
  { destruct t as [|t]; [inversion E; subst; constructor; [exact El | constructor]|]. destruct (q_acc Theta s) as [[rows ds]|]; [|discriminate]. destruct (rev ds); [discriminate|].
    inversion E; subst. apply Forall_app. split; [exact HF | constructor; [exact El | constructor]]. }
  match type of H with match ?X with _ => _ end = _ => destruct X as [[results cur1]|]; [|discriminate] end. destruct results; [discriminate|].
  match type of H with match ?X with _ => _ end = _ => destruct X as [[rows ds]|]; [|discriminate] end.
  match type of H with match ?X with _ => _ end = _ => destruct X as [R'|]; [|discriminate] end.
  match type of H with match ?X with _ => _ end = _ => destruct X; [discriminate|] end. injection H as <-. exact He.
Qed.
Lemma rs_final n k steps e0 ef full fuel seed : forall todo t (s s' : rstate), rs_iterate n k steps e0 ef full fuel t todo seed s = Ok s' -> Forall (fun e => nlt e ef = false) (q_eps Theta s) ->
  Forall (fun e => nlt e ef = false) (q_eps Theta s').
Proof.
  induction todo as [|todo IH]; intros t s s' H HF; cbn [M_RSMCABC.rs_iterate] in H; [injection H as <-; exact HF|].
  destruct (rs_step n k steps e0 ef full fuel t (seed t) s) as [s1|] eqn:E; [|discriminate]. eapply IH; [exact H|]. eapply rs_step_final; eassumption.
Qed.
Lemma rs_zero n k steps e0 ef full fuel t seed (s s' : rstate) : q_R Theta s = 0%Z -> rs_step n k steps e0 ef full fuel (S t) seed s <> Ok s'.
Proof.
  unfold M_RSMCABC.rs_step. intros HR0 H. rewrite HR0 in H. destruct (q_acc Theta s) as [[rows ds]|]; [|discriminate]. destruct (rev ds) as [|e l]; [discriminate|].
  destruct (nlt e ef); [discriminate|]. match type of H with match ?X with _ => _ end = _ => destruct X as [[results cur1]|]; [|discriminate] end. destruct results; [discriminate|].
  match type of H with match ?X with _ => _ end = _ => destruct X as [[rows' ds']|]; [|discriminate] end. discriminate.
Qed.

(** * Consequences *)
Lemma closest_in m (rows : list Theta) ds krows kds : length rows = length ds -> Closest m rows ds krows kds ->
  (forall th, In th krows -> In th rows) /\ (forall d, In d kds -> In d ds).
Proof.
  intros Hl (L1 & L2 & orows & ods & L3 & HP & _).
  assert (Hp : forall d th, In (d, th) (combine kds krows) -> In (d, th) (combine ds rows)).
  { intros d th Hin. apply (Permutation_in _ (Permutation_sym HP)). apply in_or_app. left. exact Hin. }
  assert (Hll : length kds = length krows) by lia. clear - Hp Hll Hl. split.
  - intros th Hin. assert (He : exists d, In (d, th) (combine kds krows)).
    { revert kds Hll Hp. induction krows as [|a l IH]; intros [|b kds] Hll Hp; [destruct Hin | destruct Hin | cbn in Hll; lia |]. destruct Hin as [<-|Hin]; [exists b; left; reflexivity|].
      destruct (IH Hin kds ltac:(cbn in Hll; lia)) as [d Hd]; [intros; apply Hp; right; assumption|]. exists d. right. exact Hd. }
    destruct He as [d Hd]. eapply in_combine_r. apply Hp. exact Hd.
  - intros d Hin. assert (He : exists th, In (d, th) (combine kds krows)).
    { revert krows Hll Hp. induction kds as [|a l IH]; intros [|b krows] Hll Hp; [destruct Hin | destruct Hin | cbn in Hll; lia |]. destruct Hin as [<-|Hin]; [exists b; left; reflexivity|].
      destruct (IH Hin krows ltac:(cbn in Hll; lia)) as [th Hd]; [intros; apply Hp; right; assumption|]. exists th. right. exact Hd. }
    destruct He as [th Hd]. eapply in_combine_l. apply Hp. exact Hd.
Qed.
Definition no_nan (r : rec Theta) : Prop := Forall (fun d => is_nan d = false) (r_ds r).
Lemma F2_len {A B} (P : A -> B -> Prop) l l' : Forall2 P l l' -> length l = length l'.
Proof. induction 1; cbn; congruence. Qed.
Lemma rrun_ok n k krows kds count es rs : k < n -> length krows = n - k -> length kds = n - k -> Forall (fun d => is_nan d = false) kds -> StronglySorted (fun x y => nle x y = true) kds ->
  RRun n k krows kds count es rs -> Forall no_nan rs ->
  Forall2 (full_below n) es rs /\ (forall e, nle (last kds NaN) e = true -> forall t e1 e2, nth_error (e :: es) t = Some e1 -> nth_error (e :: es) (S t) = Some e2 -> nle e2 e1 = true).
Proof.
  intros Hk. intros L1 L2 Hn Hs H. revert L1 L2 Hn Hs. induction H as [krows kds count | krows kds count R eps nrows nds r krows' kds' es rs A1 A2 A3 A4 A5 A6 A7 Z1 Z2 A8 HR' IH]; intros L1 L2 Hn Hs HN.
  - split; [constructor|]. intros e _ [|t] e1 e2; cbn; [discriminate | destruct t; discriminate].
  - inversion HN as [|? ? Hnr HN']; subst. assert (Hlr : length (r_rows r) = n) by (rewrite A5, app_length; lia).
    assert (Hld : length (r_ds r) = n) by (rewrite A6, app_length; pose proof (F2_len _ _ _ A4); lia).
    assert (Hkd : forall d, In d kds -> nle d (last kds NaN) = true).
    { apply (sorted_last (fun x y => nle x y = true)); [|exact Hs]. intros x Hx. apply nle_refl. rewrite Forall_forall in Hn. auto. }
    assert (Hall : Forall (fun d => nle d (last kds NaN) = true) (r_ds r)).
    { rewrite A6. apply Forall_app. split; [apply Forall_forall; exact Hkd|]. clear - A4 Hkd. induction A4 as [|th d nrows nds (i & theta & _ & _ & Hd) A4 IH]; constructor; [|exact IH].
      destruct Hd as [Hd|[Hd _]]; [apply Hkd; eapply nth_error_In; exact Hd | apply nlt_nle; exact Hd]. }
    pose proof (eq_trans Hlr (eq_sym Hld)) as Hll. destruct (closest_in _ _ _ _ _ Hll A8) as [_ Hin]. destruct A8 as (K1 & K2 & orows & ods & _ & _ & Hsort). destruct (Hsort Hnr) as [Hs' _].
    assert (Hn' : Forall (fun d => is_nan d = false) kds') by (apply Forall_forall; intros d Hd; red in Hnr; rewrite Forall_forall in Hnr; apply Hnr, Hin, Hd).
    destruct (IH K1 K2 Hn' Hs' HN') as [I1 I2]. split; [constructor; [repeat split; assumption | exact I1]|].
    intros e He [|t] e1 e2 H1 H2.
    + cbn in H1, H2. injection H1 as <-. injection H2 as <-. exact He.
    + apply (I2 (last kds NaN)) with (t := t); [|exact H1 | exact H2]. rewrite Forall_forall in Hall. apply Hall, Hin, last_in. destruct kds'; [cbn in K2; lia | discriminate].
Qed.
(** rows never leave the first population *)
Lemma rrun_stuck n k krows kds count es rs base : RRun n k krows kds count es rs -> length krows = length kds -> (forall th, In th krows -> In th base) -> (forall th c, In th base -> snd (setp th c) = th) ->
  forall r th, In r rs -> In th (r_rows r) -> In th base.
Proof.
  intros H Hl Hb Hst. revert Hl Hb. induction H as [krows kds count | krows kds count R eps nrows nds r krows' kds' es rs A1 A2 A3 A4 A5 A6 A7 Z1 Z2 A8 HR' IH]; intros Hl Hb r0 th Hr; [destruct Hr|].
  assert (Hrows : forall th, In th (r_rows r) -> In th base).
  { intros th0. rewrite A5. intros Hin. apply in_app_or in Hin. destruct Hin as [Hin|Hin]; [apply Hb; exact Hin|]. clear - A4 Hin Hb Hst.
    induction A4 as [|t d nrows nds (i & theta & Hi & (c & ->) & _) A4 IH]; [destruct Hin|]. destruct Hin as [<-|Hin]; [|apply IH; exact Hin].
    apply nth_error_In in Hi. rewrite Hst; apply Hb; exact Hi. }
  assert (Hlr : length (r_rows r) = length (r_ds r)). { rewrite A5, A6, !app_length. pose proof (F2_len _ _ _ A4). lia. }
  destruct Hr as [<-|Hr]; [apply Hrows|]. apply IH; [destruct A8 as (? & ? & _); congruence | | exact Hr].
  intros t Ht. apply Hrows. destruct (closest_in _ _ _ _ _ Hlr A8) as [H1 _]. apply H1. exact Ht.
Qed.
End P.
