(** Proofs about SABC. *)
From Coq Require Import Lqa.
From Verif Require Import M_Base M_Num L_Num M_Infer S_Infer L_Infer M_PMCABC S_PMCABC L_PMCABC M_RSMCABC M_SMCABC L_RSMCABC L_SMCABC M_SABC S_SABC.
Open Scope nat_scope.

(** * lists *)
Lemma latest_cons {A} i (c : nat * A * bool) cs : latest i (c :: cs) = match latest i cs with Some y => Some y | None => if snd c && (fst (fst c) =? i) then Some (snd (fst c)) else None end.
Proof.
  unfold latest. cbn [filter]. destruct (snd c && (fst (fst c) =? i)); [|destruct (nth_error _ 0); reflexivity].
  cbn [rev]. destruct (rev _) as [|x l]; reflexivity.
Qed.
Fixpoint last_of {A} (i : nat) (us : list (nat * A)) : option A := match us with [] => None | (j, y) :: us' => match last_of i us' with Some z => Some z | None => if j =? i then Some y else None end end.
Lemma lset_length {A} (l : list A) i x : length (lset l i x) = length l.
Proof. unfold lset. revert i. induction l as [|a l IH]; intros [|i]; cbn; auto. Qed.
Lemma lset_nth {A} (l : list A) i x j : i < length l -> nth_error (lset l i x) j = if i =? j then Some x else nth_error l j.
Proof. unfold lset. revert i j. induction l as [|a l IH]; intros [|i] [|j] H; cbn in *; try lia; auto. apply IH. lia. Qed.
Lemma place_spec {A} (us : list (nat * A)) : forall l l', place l us = Ok l' -> length l' = length l /\ (forall i x, nth_error l i = Some x -> nth_error l' i = Some (match last_of i us with Some y => y | None => x end))
  /\ Forall (fun u => fst u < length l) us.
Proof.
  induction us as [|[j y] us IH]; intros l l' H; cbn [place] in H; [injection H as <-; split; [reflexivity|]; split; [auto | constructor]|].
  destruct (Nat.ltb_spec j (length l)) as [Hj|]; [|discriminate]. apply IH in H. rewrite lset_length in H. destruct H as (L & H & HF). split; [exact L|]. split.
  - intros i x Hi. cbn [last_of]. assert (Hn : nth_error (lset l j y) i = Some (if j =? i then y else x)) by (rewrite lset_nth by exact Hj; destruct (j =? i); auto).
    rewrite (H i _ Hn). destruct (last_of i us); [reflexivity|]. destruct (j =? i); reflexivity.
  - constructor; [exact Hj | exact HF].
Qed.
Lemma picks_map {A B} (f : A -> B) l idx : picks (map f l) idx = match picks l idx with Ok xs => Ok (map f xs) | Err e => Err e end.
Proof. induction idx as [|i idx IH]; cbn; [reflexivity|]. rewrite nth_error_map, IH. destruct (nth_error l i); cbn; [|reflexivity]. destruct (picks l idx); reflexivity. Qed.
Lemma picks_spec {A} (l : list A) idx : forall xs, picks l idx = Ok xs -> Forall2 (fun i x => nth_error l i = Some x) idx xs.
Proof.
  induction idx as [|i idx IH]; intros xs H; cbn in H; [injection H as <-; constructor|]. destruct (nth_error l i) as [x|] eqn:E; [|discriminate]. destruct (picks l idx) as [ys|]; [|discriminate].
  injection H as <-. constructor; [exact E | apply IH; reflexivity].
Qed.
Lemma combine_nth_error {A B} (l : list A) (l' : list B) i x y : nth_error l i = Some x -> nth_error l' i = Some y -> nth_error (combine l l') i = Some (x, y).
Proof. revert l' i. induction l as [|a l IH]; intros [|b l'] [|i] H1 H2; try discriminate; cbn in *; [congruence | apply IH; assumption]. Qed.
Lemma list_ext {A} (l l' : list A) : length l = length l' -> (forall i x, nth_error l i = Some x -> nth_error l' i = Some x) -> l' = l.
Proof.
  revert l'. induction l as [|a l IH]; intros [|b l'] HL H; try discriminate; [reflexivity|]. f_equal; [specialize (H 0 a eq_refl); cbn in H; congruence|].
  apply IH; [cbn in HL; lia | intros i x Hi; exact (H (S i) x Hi)].
Qed.
Lemma map_fst_combine {A B} (l : list A) (l' : list B) : length l = length l' -> map fst (combine l l') = l.
Proof. revert l'. induction l as [|a l IH]; intros [|b l'] H; try discriminate; cbn; [reflexivity|]. rewrite IH by (cbn in H; lia). reflexivity. Qed.
Lemma map_snd_combine {A B} (l : list A) (l' : list B) : length l = length l' -> map snd (combine l l') = l'.
Proof. revert l'. induction l as [|a l IH]; intros [|b l'] H; try discriminate; cbn; [reflexivity|]. rewrite IH by (cbn in H; lia). reflexivity. Qed.
Lemma place_seq {A} (xs : list A) : forall o pre l, length pre = o -> length l = length xs -> place (pre ++ l) (combine (seq o (length xs)) xs) = Ok (pre ++ xs).
Proof.
  induction xs as [|x xs IH]; intros o pre l Ho Hl; destruct l as [|a l]; try discriminate; cbn [length seq combine place]; [reflexivity|].
  assert (E : o <? length (pre ++ a :: l) = true) by (apply Nat.ltb_lt; rewrite app_length; cbn; lia). rewrite E.
  assert (Es : lset (pre ++ a :: l) o x = (pre ++ [x]) ++ l).
  { unfold lset. subst o. rewrite firstn_app, skipn_app, firstn_all, skipn_all, Nat.sub_diag. cbn. rewrite app_nil_r, <- app_assoc. reflexivity. }
  rewrite Es, IH; [rewrite <- app_assoc; reflexivity | rewrite app_length; cbn; lia | cbn in Hl; lia].
Qed.
Lemma F2_build {A B} (P : A -> B -> Prop) l : Forall (fun x => exists y, P x y) l -> exists l', Forall2 P l l'.
Proof. induction 1 as [|x l [y Hy] HF [l' IH]]; [exists []; constructor | exists (y :: l'); constructor; assumption]. Qed.
Lemma fold_ones {A} (f : A -> nat) l : Forall (fun x => f x = 1) l -> forall a, fold_left (fun a x => a + f x) l a = a + length l.
Proof. induction 1 as [|x l Hx Hl IH]; intros a; cbn [fold_left length]; [lia|]. rewrite IH, Hx. lia. Qed.

Section P.
Variables Theta Rng Y : Type.
Variable setp : Theta -> Theta -> bool * Theta.
Variable pdfv : Theta -> Theta -> num.
Variable kupd : pop Theta -> nat -> Rng -> Rng * Theta.
Variable prior : Rng -> Rng * Theta.
Variable simc : Theta -> Rng -> Rng * option Y.
Variable dist : Y -> num.
Variable mkrng : Z -> Rng.
Variable reseed : Rng -> Rng.
Variable choiceU : nat -> Rng -> res (Rng * nat).
Variable bern : num -> Rng -> res (Rng * bool).
Variable rand : Rng -> Rng * num.
Variable nexp : num -> num.
Variable fsolve : num -> num.
Hypothesis Hset : set_ok setp.
Notation sa_prior := (sa_prior Theta Rng Y prior simc dist bern nexp).
Notation sa_accept := (sa_accept Theta Rng Y setp pdfv kupd prior simc dist mkrng reseed choiceU bern rand nexp).
Notation sa_step := (sa_step Theta Rng Y setp pdfv kupd prior simc dist mkrng reseed choiceU bern rand nexp fsolve).
Notation sa_iterate := (sa_iterate Theta Rng Y setp pdfv kupd prior simc dist mkrng reseed choiceU bern rand nexp fsolve).
Notation sa_sample := (sa_sample Theta Rng Y setp pdfv kupd prior simc dist mkrng reseed choiceU bern rand nexp fsolve).
Notation First := (First setp prior simc dist bern nexp).
Notation Cand := (Cand setp pdfv kupd simc dist choiceU rand nexp).
Notation SRun := (SRun setp pdfv kupd simc dist choiceU rand nexp fsolve).
Notation SFirst := (SFirst setp prior simc dist bern nexp fsolve).
Notation astate := (astate Theta).
Notation wres := (wres Theta).
Notation w_th := (w_th Theta).
Notation w_d := (w_d Theta).
Notation w_all := (w_all Theta).
Notation w_i := (w_i Theta).
Notation w_acc := (w_acc Theta).
Notation w_k := (w_k Theta).

Lemma prior_spec eps fuel : forall r tried w c, sa_prior eps fuel r tried = Ok (w, c) -> exists l, w_all w = tried ++ l /\ First eps (w_th w) (w_d w) l /\ w_acc w = true /\ w_k w = length (w_all w).
Proof.
  induction fuel as [|f IH]; intros r tried w c H; cbn [M_SABC.sa_prior] in H; [discriminate|]. destruct (prior r) as [r1 th] eqn:Ep. destruct (simc th r1) as [r2 [y|]] eqn:Es; [|discriminate].
  assert (HS : Simulated setp simc dist th (dist y)) by (exists th, r1, r2, y; auto).
  destruct (bern _ r2) as [[r3 [|]]|] eqn:Eb; [| |discriminate].
  - injection H as <- <-. exists [dist y]. cbn [M_SABC.w_all M_SABC.w_th M_SABC.w_d M_SABC.w_acc M_SABC.w_k]. split; [reflexivity|]. split; [eapply fi_acc; eassumption|]. split; [reflexivity|]. rewrite app_length. cbn. lia.
  - apply IH in H. destruct H as (l & A & B & C & D). exists (dist y :: l). rewrite A, <- app_assoc in *. split; [reflexivity|]. split; [eapply fi_rej; eassumption | auto].
Qed.
Definition matches (x : wres) (c : nat * (Theta * num) * bool) : Prop := w_i x = fst (fst c) /\ w_acc x = snd c /\ w_th x = fst (snd (fst c)) /\ (snd c = true -> w_d x = snd (snd (fst c))) /\ w_k x = 1.
Lemma accept_spec n eps p all ds fuel seed cur x c : sa_accept n eps (Some p) (Some all) (map (smooth all) ds) fuel seed cur = Ok (x, c) ->
  exists cd, matches x cd /\ Cand n all p ds eps (fst (fst cd)) (fst (snd (fst cd))) (snd (snd (fst cd))) (snd cd).
Proof.
  unfold M_SABC.sa_accept. intros H. destruct (choiceU n _) as [[r0 i]|] eqn:Ec; [|discriminate]. destruct (nth_error (p_rows p) i) as [theta|] eqn:Et; [|discriminate].
  destruct (propose _ _ _ _ _ _ _ _ _ _ _) as [[[c1 r1] th]|] eqn:Ep; [|discriminate]. destruct (simc c1 r1) as [r2 [y|]] eqn:Es; [|discriminate].
  destruct all as [|a0 all0] eqn:Ea; [discriminate|]. rewrite <- Ea in *. unfold pdf_of_prior in H. rewrite nth_error_map in H. destruct (nth_error ds i) as [di|] eqn:Ed; [|discriminate]. cbn [option_map] in H.
  destruct (rand r2) as [r3 u] eqn:Er.
  destruct (propose_spec _ _ _ _ _ _ _ Hset _ _ _ _ _ _ _ Ep) as (Hpdf & Hc & r4 & r5 & Hk).
  assert (HS : Simulated setp simc dist th (dist y)) by (exists c1, r1, r2, y; auto).
  match type of H with (if nlt u ?q then _ else _) = _ => remember (nlt u q) as b eqn:Eb end.
  exists (i, (th, dist y), b). cbn [fst snd]. split.
  - destruct b; injection H as <- <-; unfold matches; cbn; auto 8. split; [reflexivity|]. split; [reflexivity|]. split; [reflexivity|]. split; [discriminate | reflexivity].
  - exists theta, di, (reseed (mkrng seed)), r0, r4, r5, r2, r3, u, c1. eexists. eexists. split; [exact Ec|]. split; [exact Et|]. split; [exact Ed|]. split; [exact Hk|]. split; [exact Hpdf|]. split; [exact HS|]. split; [exact Er|]. exact Eb.
Qed.
Lemma taken_latest (P : nat * (Theta * num) * bool -> Prop) results cands : Forall2 matches results cands -> forall i,
  let taken := filter (fun ix : nat * wres => w_acc (snd ix)) (combine (map w_i results) results) in
  last_of i (map (fun ix => (fst ix, w_th (snd ix))) taken) = option_map fst (latest i cands)
  /\ last_of i (map (fun ix => (fst ix, w_d (snd ix))) taken) = option_map snd (latest i cands).
Proof.
  intros H i. induction H as [|x c results cands (M1 & M2 & M3 & M4 & _) HF IH]; [split; reflexivity|]. cbn [map combine filter] in *. rewrite !latest_cons. cbn [snd].
  destruct IH as [IH1 IH2]. rewrite M2. destruct (snd c) eqn:Eb; cbn [andb].
  - cbn [map last_of fst snd]. rewrite IH1, IH2, M1, M3, (M4 eq_refl). destruct (latest i cands); [split; reflexivity|]. cbn. destruct (fst (fst c) =? i); split; reflexivity.
  - rewrite IH1, IH2. destruct (latest i cands); split; reflexivity.
Qed.
Lemma accepted_count results cands : Forall2 matches results cands -> length (filter w_acc results) = accepted cands.
Proof. unfold accepted. induction 1 as [|x c results cands (M1 & M2 & M3 & M4 & _) HF IH]; cbn; [reflexivity|]. rewrite M2. destruct (snd c); cbn; congruence. Qed.
Lemma last_of_pointwise {A} (f : nat -> A) i us : Forall (fun u => snd u = f (fst u)) us -> last_of i us = None \/ last_of i us = Some (f i).
Proof.
  induction 1 as [|[j y] us Hu HF IH]; cbn; [auto|]. destruct IH as [-> | ->]; [|auto]. destruct (Nat.eqb_spec j i) as [->|]; [right; cbn in Hu; congruence | auto].
Qed.
Lemma last_of_none {A} i (us : list (nat * A)) : last_of i us = None -> Forall (fun u => fst u <> i) us.
Proof. induction us as [|[j y] us IH]; cbn; intros H; constructor; destruct (last_of i us); try discriminate; destruct (Nat.eqb_spec j i); try discriminate; auto. Qed.
Lemma none_last_of {A} i (us : list (nat * A)) : Forall (fun u => fst u <> i) us -> last_of i us = None.
Proof. induction 1 as [|[j y] us Hu HF IH]; cbn; [reflexivity|]. rewrite IH. destruct (Nat.eqb_spec j i); [contradiction | reflexivity]. Qed.
(** after replacement the smoothed distances still belong to the distances *)
Lemma smooth_updated all (ds ds' : list num) us dts sms sm : all <> [] ->
  place ds us = Ok ds' -> picks ds' (map fst us) = Ok dts -> smoother dts all = Ok sms -> place (map (smooth all) ds) (combine (map fst us) sms) = Ok sm -> sm = map (smooth all) ds'.
Proof.
  intros Hall H1 H2 H3 H4. apply place_spec in H1. destruct H1 as (L1 & N1 & _). apply picks_spec in H2.
  assert (Esm : sms = map (smooth all) dts).
  { unfold smoother in H3. destruct dts; [injection H3 as <-; reflexivity|]. destruct all; [congruence|]. injection H3 as <-. reflexivity. }
  subst sms. clear H3. apply place_spec in H4. destruct H4 as (L4 & N4 & _). rewrite map_length in L4.
  apply list_ext; [rewrite map_length; congruence|]. intros i s Hi. rewrite nth_error_map in Hi. destruct (nth_error ds' i) as [d'|] eqn:Ed'; [|discriminate]. cbn in Hi. injection Hi as <-.
  assert (Hlt : i < length ds) by (rewrite <- L1; apply nth_error_Some; congruence). destruct (nth_error ds i) as [d|] eqn:Ed; [|apply nth_error_None in Ed; lia].
  assert (En : nth_error (map (smooth all) ds) i = Some (smooth all d)) by (rewrite nth_error_map, Ed; reflexivity). rewrite (N4 i _ En).
  assert (Hpt : Forall (fun u : nat * num => snd u = smooth all (nth (fst u) ds' NaN)) (combine (map fst us) (map (smooth all) dts))).
  { clear - H2. induction H2 as [|j x idx dts Hj HF IH]; cbn; constructor; [|exact IH]. cbn. apply nth_error_nth with (d := NaN) in Hj. congruence. }
  destruct (last_of_pointwise (fun j => smooth all (nth j ds' NaN)) i _ Hpt) as [E | E]; rewrite E; [|apply nth_error_nth with (d := NaN) in Ed'; congruence].
  apply last_of_none in E. assert (Hno : last_of i us = None).
  { apply none_last_of. clear - E H2. revert us dts H2 E. induction us as [|[j y] us IH]; intros dts H2 E; [constructor|]. cbn in H2. inversion H2; subst. cbn in E. inversion E; subst. constructor; [assumption | eapply IH; eassumption]. }
  specialize (N1 i d Ed). rewrite Hno in N1. congruence.
Qed.

Section Run.
Variables n_update resample : nat.
Variables delta cutoff : num.
Variables full fuel : nat.
Variable resamp : nat -> list num -> res (list nat).

Lemma step_first n eps0 seed cur0 count0 (s' : astate) bds0 :
  sa_step n n_update resample delta cutoff full fuel 0 seed (resamp 0)
    (mkast Theta None (repeat (Fin 0) n) (repeat (Fin 0) n) (repeat (Fin 1) n) None bds0 None eps0 0 0 count0 cur0 [] [] [] [] false) = Ok s' ->
  exists all pp r eps1, SFirst n resample delta resamp eps0 count0 all pp r eps1 /\ all <> []
  /\ s' = mkast Theta (Some (map fst pp)) (map snd pp) (map (smooth all) (map snd pp)) (repeat (Fin 1) n) (Some all) bds0 (Some (mkpop (map fst pp) (repeat (Fin 1) n))) eps1 0 0 (r_nsim r)
            (a_cur Theta s') [r] (if full =? 1 then [r] else if full =? 0 then [r] else []) (if full <? 2 then [r_nsim r] else []) [eps1] false.
Proof.
  unfold M_SABC.sa_step. cbn [a_all a_bds a_mgr a_eps a_sm a_cur a_count a_rows a_ds a_acc a_until a_w a_hist a_recs a_nsims a_epss]. intros H.
  match type of H with context [mapT ?f ?l ?c] => destruct (mapT f l c) as [[results cur1]|] eqn:Em; [|discriminate] end.
  apply mapT_ok in Em. destruct results as [|x0 res0] eqn:Eres; [discriminate|]. rewrite <- Eres in *.
  assert (Hlen : length results = n) by (apply F2_len in Em; unfold seeds_of in Em; rewrite map_length, seq_length in Em; congruence).
  assert (Hn : 0 < n) by (rewrite <- Hlen, Eres; cbn; lia). clear Eres x0 res0.
  assert (HF : Forall (fun x => First eps0 (w_th x) (w_d x) (w_all x) /\ w_acc x = true /\ w_k x = length (w_all x)) results).
  { clear - Em. induction Em as [|sd x l results (c1 & c2 & Hx) Em IH]; constructor; [|exact IH]. apply prior_spec in Hx. destruct Hx as (l0 & A & B & C & D). cbn [app] in A. rewrite A in *. auto. }
  set (all := concat (map w_all results)) in *.
  assert (Hall : all <> []).
  { unfold all. destruct HF as [|x res (A & _) HF]; [cbn in Hlen; lia|]. cbn. destruct (w_all x) eqn:E; [inversion A | discriminate]. }
  assert (Htaken : filter (fun ix : nat * wres => w_acc (snd ix)) (combine (seq 0 n) results) = combine (seq 0 n) results).
  { clear - HF. revert HF. generalize (seq 0 n). induction results as [|x results IH]; intros [|i l] HF; cbn; auto. inversion HF as [|? ? (_ & A & _) HF']; subst. rewrite A. f_equal. apply IH. exact HF'. }
  rewrite Htaken in H. clear Htaken. subst n.
  assert (Ecomb : forall B (g : wres -> B), map (fun ix : nat * wres => (fst ix, g (snd ix))) (combine (seq 0 (length results)) results) = combine (seq 0 (length (map g results))) (map g results)).
  { intros B g. rewrite map_length. generalize 0. clear. induction results as [|x l IH]; intros o; cbn; [reflexivity|]. f_equal. apply IH. }
  rewrite (Ecomb _ w_d) in H.
  assert (Hpl : forall l, length l = length results -> place (repeat (Fin 0) (length results)) (combine (seq 0 (length l)) l) = Ok l).
  { intros l Hl. apply (place_seq l 0 [] (repeat (Fin 0) (length results)) eq_refl). rewrite repeat_length. congruence. }
  rewrite (Hpl (map w_d results)) in H by apply map_length.
  assert (Eidx : map fst (combine (seq 0 (length results)) results) = seq 0 (length (map w_d results))) by (rewrite map_length; apply map_fst_combine; apply seq_length). rewrite Eidx in H.
  assert (Epk : forall l : list num, picks l (seq 0 (length l)) = Ok l).
  { intros l. assert (G : forall k o, o + k = length l -> picks l (seq o k) = Ok (skipn o l)).
    { induction k as [|k IH]; intros o Ho; cbn; [rewrite skipn_all2 by lia; reflexivity|]. rewrite IH by lia. destruct (nth_error l o) eqn:E; [|apply nth_error_None in E; lia].
      f_equal. clear - E. revert l E. induction o as [|o IH]; intros [|a l] E; try discriminate; cbn in *; [congruence | apply IH; exact E]. }
    apply (G (length l) 0). lia. }
  rewrite Epk in H.
  assert (Esm : smoother (map w_d results) all = Ok (map (smooth all) (map w_d results))).
  { unfold smoother. destruct results as [|x l]; [cbn in Hn; lia|]. destruct all; [congruence | reflexivity]. }
  rewrite Esm in H. replace (seq 0 (length (map w_d results))) with (seq 0 (length (map (smooth all) (map w_d results)))) in H by (rewrite !map_length; reflexivity).
  rewrite Hpl in H by (rewrite !map_length; reflexivity).
  assert (Eall : smoother all all = Ok (map (smooth all) all)) by (unfold smoother; destruct all; [congruence | reflexivity]). rewrite Eall in H.
  assert (Hcount : fold_left (fun a x => a + w_k x) results count0 = count0 + length all).
  { unfold all. clear - HF. revert count0. induction HF as [|x l (_ & _ & E) HF IH]; intros a; cbn; [lia|]. rewrite IH, app_length, E. lia. }
  rewrite Hcount in H. set (first := combine (map w_th results) (map w_d results)).
  assert (F1 : map fst first = map w_th results) by (apply map_fst_combine; rewrite !map_length; reflexivity).
  assert (F2 : map snd first = map w_d results) by (apply map_snd_combine; rewrite !map_length; reflexivity).
  assert (F3 : length first = length results) by (unfold first; rewrite combine_length, !map_length; lia).
  assert (F4 : forall i x l, nth_error first i = Some x -> nth_error (map w_all results) i = Some l -> First eps0 (fst x) (snd x) l).
  { intros i x l Hx Hl. rewrite nth_error_map in Hl. destruct (nth_error results i) as [w|] eqn:Ew; [|discriminate]. cbn in Hl. injection Hl as <-.
    unfold first in Hx. rewrite (combine_nth_error (map w_th results) (map w_d results) i (w_th w) (w_d w)) in Hx by (rewrite nth_error_map, Ew; reflexivity). injection Hx as <-. cbn [fst snd].
    rewrite Forall_forall in HF. destruct (HF w) as (A & _); [eapply nth_error_In; eassumption | exact A]. }
  rewrite <- F1, <- F2 in H.
  destruct (average nexp (map (smooth all) all) eps0) as [U|] eqn:Eavg; [|discriminate].
  assert (HU : neqb eps0 (Fin 0) = true /\ U = Fin 0
      \/ neqb eps0 (Fin 0) = false /\ (let ws := map (fun d => nexp (ndiv (nopp (smooth all d)) eps0)) all in
           neqb (nsum ws) (Fin 0) = false /\ U = ndiv (nsum (map (fun dw => nmul (smooth all (fst dw)) (snd dw)) (combine all ws))) (nsum ws))).
  { unfold average in Eavg. destruct (neqb eps0 (Fin 0)); [left; injection Eavg as <-; auto|]. right. split; [reflexivity|]. rewrite map_map in Eavg. cbv zeta in Eavg |- *.
    destruct (neqb (nsum (map (fun d => nexp (ndiv (nopp (smooth all d)) eps0)) all)) (Fin 0)); [discriminate|]. split; [reflexivity|]. injection Eavg as <-. f_equal. f_equal.
    generalize (map (fun d => nexp (ndiv (nopp (smooth all d)) eps0)) all). generalize (smooth all). clear. intros f. induction all as [|a l IH]; intros [|w ws]; cbn; auto. f_equal. apply IH. }
  assert (Hfin : forall pp eps1, ((0 < resample \/ nlt tiny U = false) /\ pp = first /\ eps1 = (if nlt U tiny then Fin 0 else fsolve U)
      \/ resample = 0 /\ nlt tiny U = true /\ Eps fsolve all (map snd pp) eps1
         /\ exists idx, resamp 0 (normalise (map (fun s => nexp (ndiv (nmul (nopp s) delta) U)) (map (smooth all) (map snd first)))) = Ok idx
                        /\ Forall2 (fun i x => nth_error first i = Some x) idx pp) ->
     SFirst (length results) resample delta resamp eps0 count0 all pp (mkrec (map fst pp) (map snd pp) (repeat (Fin 1) (length results)) (count0 + length all)) eps1).
  { intros pp eps1 Hc. exists (map w_all results), first, U. rewrite map_length. repeat (split; [first [exact F3 | exact Hn | exact F4 | exact HU | exact Hc | reflexivity]|]). reflexivity. }
  cbv zeta in H. destruct (Nat.leb_spec resample 0) as [Hr|Hr]; [destruct (nlt tiny U) eqn:Et|]; cbn [andb] in H.
  - destruct (resamp 0 _) as [idx|] eqn:Ers in H; [|discriminate]. rewrite !picks_map in H. destruct (picks first idx) as [pp|] eqn:Epp; [|discriminate].
    injection H as <-. exists all, pp. eexists. eexists. split; [apply Hfin; right; split; [lia|]; split; [reflexivity|]; split; [reflexivity|]; exists idx; split; [exact Ers | apply picks_spec; exact Epp]|].
    split; [exact Hall|]. reflexivity.
  - injection H as <-. exists all, first. eexists. eexists. split; [apply Hfin; left; split; [right; reflexivity|]; split; reflexivity|]. split; [exact Hall|]. reflexivity.
  - injection H as <-. exists all, first. eexists. eexists. split; [apply Hfin; left; split; [left; exact Hr|]; split; reflexivity|]. split; [exact Hall|]. reflexivity.
Qed.

Lemma step_later n t (s s' : astate) all pp seed : all <> [] ->
  a_rows Theta s = Some (map fst pp) -> a_ds Theta s = map snd pp -> a_sm Theta s = map (smooth all) (map snd pp) -> a_w Theta s = repeat (Fin 1) n -> a_all Theta s = Some all ->
  a_mgr Theta s = Some (mkpop (map fst pp) (repeat (Fin 1) n)) ->
  sa_step n n_update resample delta cutoff full fuel (S t) seed (resamp (S t)) s = Ok s' ->
  exists cands, length cands = n_update /\ 0 < n_update
  /\ Forall (fun c => Cand n all (mkpop (map fst pp) (repeat (Fin 1) n)) (map snd pp) (a_eps Theta s) (fst (fst c)) (fst (snd (fst c))) (snd (snd (fst c))) (snd c)) cands
  /\ (nlt (ndiv (ofnat (a_acc Theta s + accepted cands)) (ofnat (a_until Theta s + n_update))) cutoff = true
         /\ a_stop Theta s' = true /\ a_hist Theta s' = a_hist Theta s /\ a_recs Theta s' = a_recs Theta s /\ a_nsims Theta s' = a_nsims Theta s /\ a_epss Theta s' = a_epss Theta s
       \/ nlt (ndiv (ofnat (a_acc Theta s + accepted cands)) (ofnat (a_until Theta s + n_update))) cutoff = false
         /\ exists pop1 pop2 acc2 until2 eps2, Replaced pp cands pop1
         /\ (let sm := map (smooth all) (map snd pop1) in let U := nmean sm in
               ((a_acc Theta s + accepted cands < resample \/ nlt tiny U = false) /\ pop2 = pop1 /\ acc2 = a_acc Theta s + accepted cands /\ until2 = a_until Theta s + n_update)
               \/ (resample <= a_acc Theta s + accepted cands /\ nlt tiny U = true /\ acc2 = 0 /\ until2 = 0
                   /\ exists idx, resamp (S t) (normalise (map (fun s => nexp (ndiv (nmul (nopp s) delta) U)) sm)) = Ok idx
                                  /\ Forall2 (fun i x => nth_error pop1 i = Some x) idx pop2))
         /\ Eps fsolve all (map snd pop2) eps2
         /\ (let count := a_count Theta s + n_update in let r := mkrec (map fst pop2) (map snd pop2) (repeat (Fin 1) n) count in
             a_stop Theta s' = false /\ a_hist Theta s' = a_hist Theta s ++ [r] /\ a_recs Theta s' = (if full =? 1 then a_recs Theta s ++ [r] else if full =? 0 then [r] else a_recs Theta s)
             /\ a_nsims Theta s' = (if full <? 2 then a_nsims Theta s ++ [count] else a_nsims Theta s) /\ a_epss Theta s' = a_epss Theta s ++ [eps2]
             /\ a_rows Theta s' = Some (map fst pop2) /\ a_ds Theta s' = map snd pop2 /\ a_sm Theta s' = map (smooth all) (map snd pop2) /\ a_w Theta s' = repeat (Fin 1) n /\ a_all Theta s' = Some all
             /\ a_mgr Theta s' = Some (mkpop (map fst pop2) (repeat (Fin 1) n)) /\ a_eps Theta s' = eps2 /\ a_acc Theta s' = acc2 /\ a_until Theta s' = until2 /\ a_count Theta s' = count)).
Proof.
  intros Hall Hr Hd Hs Hw Ha Hm H. unfold M_SABC.sa_step in H. rewrite Hr, Hd, Hs, Ha, Hm, Hw in H.
  match type of H with context [mapT ?f ?l ?c] => destruct (mapT f l c) as [[results cur1]|] eqn:Em; [|discriminate] end.
  apply mapT_ok in Em. destruct results as [|x0 res0] eqn:Eres; [discriminate|]. rewrite <- Eres in *.
  assert (Hlen : length results = n_update) by (apply F2_len in Em; unfold seeds_of in Em; rewrite map_length, seq_length in Em; congruence).
  assert (Hn : 0 < n_update) by (rewrite <- Hlen, Eres; cbn; lia). clear Eres x0 res0.
  assert (HF : exists cands, Forall2 (fun x cd => matches x cd /\ Cand n all (mkpop (map fst pp) (repeat (Fin 1) n)) (map snd pp) (a_eps Theta s) (fst (fst cd)) (fst (snd (fst cd))) (snd (snd (fst cd))) (snd cd)) results cands).
  { apply F2_build. clear - Em Hset. induction Em as [|sd x l results (c1 & c2 & Hx) Em IH]; constructor; [|exact IH]. eapply accept_spec. exact Hx. }
  destruct HF as (cands & HF). assert (HM : Forall2 matches results cands) by (clear - HF; induction HF as [|? ? ? ? [A _]]; constructor; assumption).
  assert (HC : Forall (fun cd => Cand n all (mkpop (map fst pp) (repeat (Fin 1) n)) (map snd pp) (a_eps Theta s) (fst (fst cd)) (fst (snd (fst cd))) (snd (snd (fst cd))) (snd cd)) cands) by (clear - HF; induction HF as [|? ? ? ? [_ A]]; constructor; assumption).
  clear HF. exists cands. split; [rewrite <- Hlen; symmetry; apply F2_len with (1 := HM)|]. split; [exact Hn|]. split; [exact HC|].
  assert (Hcount : fold_left (fun a x => a + w_k x) results (a_count Theta s) = a_count Theta s + n_update).
  { rewrite <- Hlen. apply fold_ones. clear - HM. induction HM as [|x c l l' (_ & _ & _ & _ & E) HM IH]; constructor; assumption. }
  rewrite Hcount in H. rewrite (accepted_count _ _ HM) in H. pose proof (fun i => taken_latest (fun _ => True) results cands HM i) as HT. cbv zeta in HT, H.
  set (taken := filter (fun ix : nat * wres => w_acc (snd ix)) (combine (map w_i results) results)) in *.
  destruct (place (map fst pp) _) as [rows|] eqn:Er in H; [|discriminate]. destruct (place (map snd pp) _) as [ds|] eqn:Ed in H; [|discriminate].
  destruct (picks ds (map fst taken)) as [dts|] eqn:Ek in H; [|discriminate]. destruct (smoother dts all) as [sms|] eqn:Es in H; [|discriminate].
  destruct (place (map (smooth all) (map snd pp)) _) as [sm|] eqn:Ep in H; [|discriminate].
  assert (Esm : sm = map (smooth all) ds).
  { eapply (smooth_updated all (map snd pp) ds (map (fun ix => (fst ix, w_d (snd ix))) taken)); [exact Hall | exact Ed | | exact Es |]; (replace (map fst (map (fun ix : nat * wres => (fst ix, w_d (snd ix))) taken)) with (map fst taken) by (rewrite map_map; reflexivity)); assumption. }
  subst sm. apply place_spec in Er. apply place_spec in Ed. destruct Er as (R1 & R2 & _), Ed as (D1 & D2 & _). rewrite map_length in R1, D1.
  assert (HRep : Replaced pp cands (combine rows ds)).
  { split; [rewrite combine_length; lia|]. intros i x Hx.  assert (E1 : nth_error (map fst pp) i = Some (fst x)) by (rewrite nth_error_map, Hx; reflexivity). assert (E2 : nth_error (map snd pp) i = Some (snd x)) by (rewrite nth_error_map, Hx; reflexivity).
    apply R2 in E1. apply D2 in E2. destruct (HT i) as [T1 T2]. rewrite T1 in E1. rewrite T2 in E2. rewrite (combine_nth_error rows ds i _ _ E1 E2).
    destruct (latest i cands) as [[? ?]|]; cbn; [reflexivity|]. destruct x; reflexivity. }
  assert (G1 : map fst (combine rows ds) = rows) by (apply map_fst_combine; lia). assert (G2 : map snd (combine rows ds) = ds) by (apply map_snd_combine; lia).
  set (pop1 := combine rows ds) in *. clearbody pop1. subst rows ds.
  destruct (nlt (ndiv (ofnat (a_acc Theta s + accepted cands)) (ofnat (a_until Theta s + n_update))) cutoff) eqn:Ecut.
  - left. injection H as <-. cbn. auto 10.
  - right. split; [reflexivity|]. exists pop1.
    destruct (Nat.leb_spec resample (a_acc Theta s + accepted cands)) as [Hle|Hlt]; [destruct (nlt tiny (nmean (map (smooth all) (map snd pop1)))) eqn:Et|]; cbn [andb] in H.
    + destruct (resamp (S t) _) as [idx|] eqn:Ers in H; [|discriminate]. rewrite !picks_map in H. destruct (picks pop1 idx) as [pop2|] eqn:Epp; [|discriminate]. injection H as <-.
      exists pop2, 0, 0. eexists. split; [exact HRep|]. split; [right; split; [exact Hle|]; split; [exact Et|]; split; [reflexivity|]; split; [reflexivity|]; exists idx; split; [exact Ers | apply picks_spec; exact Epp]|].
      split; [reflexivity|]. cbn. auto 20.
    + injection H as <-. exists pop1. eexists. eexists. eexists. split; [exact HRep|]. split; [left; split; [right; exact Et|]; split; [reflexivity|]; split; reflexivity|]. split; [reflexivity|]. cbn. auto 20.
    + injection H as <-. exists pop1. eexists. eexists. eexists. split; [exact HRep|]. split; [left; split; [left; exact Hlt|]; split; [reflexivity|]; split; reflexivity|]. split; [reflexivity|]. cbn. auto 20.
Qed.
Lemma iterate_later n seed all : all <> [] -> forall todo t (s s' : astate) pp,
  a_rows Theta s = Some (map fst pp) -> a_ds Theta s = map snd pp -> a_sm Theta s = map (smooth all) (map snd pp) -> a_w Theta s = repeat (Fin 1) n -> a_all Theta s = Some all ->
  a_mgr Theta s = Some (mkpop (map fst pp) (repeat (Fin 1) n)) -> a_stop Theta s = false ->
  sa_iterate n n_update resample delta cutoff full fuel (S t) todo seed resamp s = Ok s' ->
  exists rs es, SRun n n_update resample delta cutoff resamp all (S t) pp (a_eps Theta s) (a_acc Theta s) (a_until Theta s) (a_count Theta s) rs es (a_stop Theta s')
  /\ length es = length rs /\ length rs <= todo /\ (a_stop Theta s' = false -> length rs = todo) /\ (a_stop Theta s' = true -> length rs < todo)
  /\ a_hist Theta s' = a_hist Theta s ++ rs /\ a_epss Theta s' = a_epss Theta s ++ es
  /\ a_recs Theta s' = (if full =? 1 then a_recs Theta s ++ rs else if full =? 0 then match rev rs with [] => a_recs Theta s | r :: _ => [r] end else a_recs Theta s)
  /\ a_nsims Theta s' = (if full <? 2 then a_nsims Theta s ++ map r_nsim rs else a_nsims Theta s).
Proof.
  intros Hall. induction todo as [|todo IH]; intros t s s' pp Hr Hd Hs Hw Ha Hm Hst H; cbn [M_SABC.sa_iterate] in H.
  - injection H as <-. exists [], []. rewrite Hst. split; [constructor|]. cbn [length]. do 2 (split; [lia|]). split; [reflexivity|]. split; [discriminate|]. cbn [rev map]. rewrite !app_nil_r. do 2 (split; [reflexivity|]). split; [destruct (full =? 1), (full =? 0); reflexivity|]. destruct (full <? 2); reflexivity.
  - destruct (sa_step _ _ _ _ _ _ _ _ _ _ s) as [s1|] eqn:Es in H; [|discriminate].
    destruct (step_later _ _ _ _ _ _ _ Hall Hr Hd Hs Hw Ha Hm Es) as (cands & C1 & C2 & C3 & [(E1 & E2 & E3 & E4 & E5 & E6) | (E1 & pop1 & pop2 & acc2 & until2 & eps2 & R1 & R2 & R3 & R4)]).
    + rewrite E2 in H. injection H as <-. exists [], []. rewrite E2. split; [eapply sr_stop; eassumption|]. cbn [length]. do 2 (split; [lia|]). split; [discriminate|]. split; [lia|]. cbn [rev map]. rewrite E3, E4, E5, E6, !app_nil_r. do 2 (split; [reflexivity|]). split; [destruct (full =? 1), (full =? 0); reflexivity|]. destruct (full <? 2); reflexivity.
    + cbv zeta in R4. destruct R4 as (S1 & S2 & S3 & S4 & S5 & S6 & S7 & S8 & S9 & S10 & S11 & S12 & S13 & S14 & S15). rewrite S1 in H.
      destruct (IH (S t) s1 s' pop2 S6 S7 S8 S9 S10 S11 S1 H) as (rs & es & B1 & B2 & B3 & B4 & B5 & B6 & B7 & B8 & B9). rewrite S12, S13, S14, S15 in B1.
      eexists (_ :: rs), (eps2 :: es). split; [eapply sr_step; try eassumption; reflexivity|]. cbn [length]. do 2 (split; [lia|]). split; [intros Hx; rewrite (B4 Hx); reflexivity|]. split; [intros Hx; specialize (B5 Hx); lia|].
      rewrite B6, S2, B7, S5, <- !app_assoc. do 2 (split; [reflexivity|]). rewrite B8, B9, S3, S4. cbn [rev map]. split.
      * destruct (full =? 1); [rewrite <- app_assoc; reflexivity|]. destruct (full =? 0); [|reflexivity]. destruct (rev rs) as [|x l]; reflexivity.
      * destruct (full <? 2); [rewrite <- app_assoc|]; reflexivity.
Qed.
End Run.
Lemma sample_run steps n eps resample n_update delta cutoff full fuel seed resamp bds0 cur0 count0 s :
  sa_sample steps n eps resample n_update delta cutoff full None fuel seed resamp None bds0 cur0 count0 = Ok s ->
  let rsm := match resample with None => n | Some k => k end in let up := match n_update with None => n | Some k => k end in
  exists all pp r eps1 rs es, SFirst n rsm delta resamp eps count0 all pp r eps1 /\ SRun n up rsm delta cutoff resamp all 1 pp eps1 0 0 (r_nsim r) rs es (a_stop Theta s)
  /\ a_hist Theta s = r :: rs /\ a_epss Theta s = eps1 :: es /\ length es = length rs /\ (a_stop Theta s = false -> length (r :: rs) = steps) /\ (a_stop Theta s = true -> length (r :: rs) < steps)
  /\ a_recs Theta s = (if full =? 1 then r :: rs else if full =? 0 then [last (r :: rs) r] else []) /\ a_nsims Theta s = (if full <? 2 then map r_nsim (r :: rs) else []).
Proof.
  intros H rsm up. unfold M_SABC.sa_sample in H. destruct steps as [|steps]; [discriminate|]. cbn [M_SABC.sa_iterate option_map] in H.
  destruct (sa_step _ _ _ _ _ _ _ _ _ _ _) as [s1|] eqn:Es in H; [|discriminate]. apply step_first in Es. destruct Es as (all & pp & r & eps1 & HF & Hall & E).
  assert (Hst : a_stop Theta s1 = false) by (rewrite E; reflexivity). rewrite Hst in H.
  assert (E1 : a_rows Theta s1 = Some (map fst pp)) by (rewrite E; reflexivity). assert (E2 : a_ds Theta s1 = map snd pp) by (rewrite E; reflexivity). assert (E3 : a_sm Theta s1 = map (smooth all) (map snd pp)) by (rewrite E; reflexivity).
  assert (E4 : a_w Theta s1 = repeat (Fin 1) n) by (rewrite E; reflexivity). assert (E5 : a_all Theta s1 = Some all) by (rewrite E; reflexivity). assert (E6 : a_mgr Theta s1 = Some (mkpop (map fst pp) (repeat (Fin 1) n))) by (rewrite E; reflexivity).
  destruct (iterate_later _ _ _ _ _ _ _ n seed all Hall steps 0 s1 s pp E1 E2 E3 E4 E5 E6 Hst H) as (rs & es & B1 & B2 & B3 & B4 & B5 & B6 & B7 & B8 & B9).
  rewrite E in B1, B6, B7, B8, B9. cbn [a_eps a_acc a_until a_count a_hist a_epss a_recs a_nsims app] in *.
  exists all, pp, r, eps1, rs, es. split; [exact HF|]. split; [exact B1|]. split; [exact B6|]. split; [exact B7|]. split; [exact B2|]. cbn [length]. split; [intros Hx; rewrite (B4 Hx); reflexivity|]. split; [intros Hx; specialize (B5 Hx); lia|].
  rewrite B8, B9. split.
  - destruct (full =? 1); [reflexivity|]. destruct (full =? 0); [|reflexivity]. destruct (rev rs) as [|x l] eqn:Ev; [destruct rs as [|y rs]; [reflexivity | apply (f_equal (@length _)) in Ev; rewrite rev_length in Ev; discriminate]|].
    destruct (last_rev _ _ _ r Ev) as [Hx Hne]. cbn [last]. destruct rs; [congruence|]. rewrite Hx. reflexivity.
  - destruct (full <? 2); reflexivity.
Qed.
End P.
