(** Proofs about SMCABC. *)
From Coq Require Import Lqa Qround.
From Verif Require Import M_Base M_Num L_Num M_Infer S_Infer L_Infer M_PMCABC S_PMCABC L_PMCABC M_RSMCABC L_RSMCABC M_SMCABC S_SMCABC.
Open Scope Q_scope.

(** * Bisection *)
Lemma Qltb_iff a b : Qltb a b = true <-> a < b.
Proof. unfold Qltb. rewrite negb_true_iff. split; intros H; [apply Qnot_le_lt; intros H'; apply Qle_bool_iff in H'; congruence | destruct (Qle_bool b a) eqn:E; [apply Qle_bool_iff in E; lra | reflexivity]]. Qed.
Lemma Qltb_false a b : Qltb a b = false <-> b <= a.
Proof. unfold Qltb. rewrite negb_false_iff. apply Qle_bool_iff. Qed.
Lemma pow2_pos k : 0 < inject_Z (2 ^ Z.of_nat k).
Proof. change 0 with (inject_Z 0). rewrite <- Zlt_Qlt. apply Z.pow_pos_nonneg; lia. Qed.
Lemma pow2_S k : inject_Z (2 ^ Z.of_nat (S k)) == 2 * inject_Z (2 ^ Z.of_nat k).
Proof. rewrite Nat2Z.inj_succ, Z.pow_succ_r by lia. rewrite inject_Z_mult. reflexivity. Qed.
Lemma bisect_pow f tol : 0 < tol -> forall k lo hi, (hi - lo) <= 2 * tol * inject_Z (2 ^ Z.of_nat k) -> exists m, bisect f k lo hi tol = Ok m.
Proof.
  intros Ht. induction k as [|k IH]; intros lo hi H; cbn [bisect].
  - destruct (Qltb tol ((hi - lo) / 2)) eqn:E; [|eauto]. apply Qltb_iff in E. change (2 ^ Z.of_nat 0)%Z with 1%Z in H. change (inject_Z 1) with 1 in H. exfalso. assert (tol * 2 < hi - lo) by (apply Qmult_lt_r with (z := / 2); [reflexivity|]; field_simplify; field_simplify in E; lra). lra.
  - destruct (Qltb tol ((hi - lo) / 2)) eqn:E; [|eauto]. destruct (neqb _ _); [eauto|]. rewrite pow2_S in H.
    assert (Hm : Qred ((lo + hi) / 2) == (lo + hi) / 2) by apply Qred_correct. set (mid := Qred ((lo + hi) / 2)) in *. clearbody mid.
    assert (Hm' : mid * 2 == lo + hi) by (rewrite Hm; field).
    destruct (nlt _ _); apply IH; nra.
Qed.
Lemma Qnat_le_pow k : inject_Z (Z.of_nat k) <= inject_Z (2 ^ Z.of_nat k).
Proof. rewrite <- Zle_Qle. apply Z.lt_le_incl. apply Z.pow_gt_lin_r; lia. Qed.
Lemma bisect_terminates f lo hi tol fuel : 0 < tol -> (bisect_fuel lo hi tol <= fuel)%nat -> exists m, bisect f fuel lo hi tol = Ok m.
Proof.
  intros Ht Hf. apply bisect_pow; [exact Ht|]. unfold bisect_fuel in Hf.
  pose proof (Qle_ceiling ((hi - lo) / (2 * tol))) as Hc.
  assert (Hz : (Qceiling ((hi - lo) / (2 * tol)) <= Z.of_nat fuel)%Z) by lia. rewrite Zle_Qle in Hz. pose proof (Qnat_le_pow fuel) as Hp.
  assert (Hq : (hi - lo) / (2 * tol) <= inject_Z (2 ^ Z.of_nat fuel)) by lra.
  assert (E : hi - lo == (2 * tol) * ((hi - lo) / (2 * tol))) by (field; lra). rewrite E. apply Qmult_le_l; [lra | exact Hq].
Qed.
Lemma bisect_interval f tol fuel : forall lo hi m, lo <= hi -> bisect f fuel lo hi tol = Ok m -> lo <= m <= hi.
Proof.
  assert (Hmid : forall lo hi, Qred ((lo + hi) / 2) * 2 == lo + hi) by (intros; rewrite Qred_correct; field).
  induction fuel as [|k IH]; intros lo hi m Hl; cbn [bisect]; pose proof (Hmid lo hi) as Hm; set (mid := Qred ((lo + hi) / 2)) in *; clearbody mid; (destruct (Qltb tol ((hi - lo) / 2)); [|intros H; injection H as <-; split; lra]); [discriminate|].
  destruct (neqb _ _); [intros H; injection H as <-; split; lra|]. destruct (nlt _ _); intros H; apply IH in H; lra.
Qed.
Lemma nlt_fin a b : nlt (Fin a) (Fin b) = true <-> a < b.
Proof. exact (Qltb_iff a b). Qed.
Lemma nlt_fin_false a b : nlt (Fin a) (Fin b) = false <-> b <= a.
Proof. exact (Qltb_false a b). Qed.
(** a sign change stays enclosed *)
Lemma bisect_bracket f tol fuel : (forall x, exists q, f x = Fin q) -> forall lo hi m, lo <= hi -> nlt (nmul (f lo) (f hi)) (Fin 0) = true ->
  bisect f fuel lo hi tol = Ok m ->
  neqb (f m) (Fin 0) = true \/ exists a b, lo <= a <= m /\ m <= b <= hi /\ (b - a) / 2 <= tol /\ m == (a + b) / 2 /\ nlt (nmul (f a) (f b)) (Fin 0) = true.
Proof.
  intros Hf. assert (Hmid : forall lo hi, Qred ((lo + hi) / 2) * 2 == lo + hi) by (intros; rewrite Qred_correct; field).
  induction fuel as [|k IH]; intros lo hi m Hl Hs; cbn [bisect]; pose proof (Hmid lo hi) as Hm; set (mid := Qred ((lo + hi) / 2)) in *; clearbody mid;
    (destruct (Qltb tol ((hi - lo) / 2)) eqn:Et; [|intros H; injection H as <-; right; exists lo, hi; apply Qltb_false in Et; split; [split; lra|]; split; [split; lra|]; split; [exact Et|]; split; [rewrite <- Hm; field | exact Hs]]); [discriminate|].
  destruct (neqb (f mid) (Fin 0)) eqn:En; [intros H; injection H as <-; left; exact En|].
  destruct (nlt (nmul (f lo) (f mid)) (Fin 0)) eqn:Es; intros H.
  - apply IH in H; [|lra | exact Es]. destruct H as [H|(a & b & A & B & C)]; [left; exact H|]. right. exists a, b. split; [split; lra|]. split; [split; lra|]. exact C.
  - apply IH in H; [|lra|].
    + destruct H as [H|(a & b & A & B & C)]; [left; exact H|]. right. exists a, b. split; [split; lra|]. split; [split; lra|]. exact C.
    + destruct (Hf lo) as [x Hx], (Hf mid) as [y Hy], (Hf hi) as [z Hz]. rewrite Hx, Hy, Hz in *. cbn [nmul] in *. rewrite nlt_fin in *. rewrite nlt_fin_false in Es.
      assert (Hy0 : ~ y == 0) by (intros E; cbn in En; apply Qeq_bool_iff in E; congruence).
      destruct (Qlt_le_dec 0 y) as [P|P]; [|assert (y < 0) by (apply Qle_lteq in P; destruct P; [assumption | contradiction])].
      * assert (0 <= x) by nra. nra.
      * assert (x <= 0) by nra. nra.
Qed.
(** without a sign change the upper end is approached *)
Lemma bisect_no_change f tol fuel : forall lo hi m, 0 <= tol -> lo <= hi -> (forall x y, lo <= x <= hi -> lo <= y <= hi -> exists a b, f x = Fin a /\ f y = Fin b /\ 0 < a * b) ->
  bisect f fuel lo hi tol = Ok m -> hi - tol <= m.
Proof.
  assert (Hmid : forall lo hi, Qred ((lo + hi) / 2) * 2 == lo + hi) by (intros; rewrite Qred_correct; field).
  induction fuel as [|k IH]; intros lo hi m Ht Hl Hs; cbn [bisect]; pose proof (Hmid lo hi) as Hm; set (mid := Qred ((lo + hi) / 2)) in *; clearbody mid;
    (destruct (Qltb tol ((hi - lo) / 2)) eqn:Et; [|intros H; injection H as <-; apply Qltb_false in Et; assert ((hi - lo) / 2 * 2 == hi - lo) by field; lra]); [discriminate|].
  destruct (Hs mid mid) as (a & b & Ea & Eb & Hab); [lra | lra|]. rewrite Ea in Eb. injection Eb as <-.
  destruct (Hs lo mid) as (c & d & Ec & Ed & Hcd); [lra | lra|]. rewrite Ea in Ed. injection Ed as <-.
  rewrite Ea, Ec. cbn [neqb nmul]. destruct (Qeq_bool a 0) eqn:E0; [apply Qeq_bool_iff in E0; rewrite E0 in Hab; exfalso; clear - Hab; lra|].
  destruct (nlt (Fin (c * a)) (Fin 0)) eqn:En; [apply nlt_fin in En; exfalso; lra|].
  intros H. apply IH in H; [exact H | exact Ht | lra|]. intros x y Hx Hy. apply Hs; lra.
Qed.
Open Scope nat_scope.

Section P.
Variables Theta Rng Y : Type.
Variable setp : Theta -> Theta -> bool * Theta.
Variable pdfv : Theta -> Theta -> num.
Variable kupd : pop Theta -> nat -> Rng -> Rng * Theta.
Variable kupdL : pop Theta -> Theta -> Rng -> Rng * Theta.
Variable kpdf : pop Theta -> Theta -> Theta -> num.
Variable prior : Rng -> Rng * Theta.
Variable simc : Theta -> Rng -> Rng * option Y.
Variable dist : Y -> num.
Variable dist1 : Y -> list num.
Variable mkrng : Z -> Rng.
Variable reseed : Rng -> Rng.
Variable bern : num -> Rng -> res (Rng * bool).
Variable choiceL : list nat -> Rng -> res (Rng * nat).
Variable uniq : list num -> nat.
Variable draw : nat -> nat -> list num -> res (list nat).
Hypothesis Hset : set_ok setp.
Hypothesis Hch : forall l r r' i, choiceL l r = Ok (r', i) -> In i l.
Notation until_hits := (until_hits Theta Rng Y dist).
Notation hits_at := (hits_at Y dist).
Notation sim1 := (sim1 Theta Rng Y simc).
Notation pert_sim := (pert_sim Theta Rng Y setp pdfv simc).
Notation Trials := (Trials Y dist).
Notation hit := (hit Y dist).
Notation Installed := (Installed Theta setp).
Notation SimY := (SimY Theta Rng Y setp simc).
Notation Proposed := (Proposed Theta Rng pdfv).
Notation Prob := (Prob Theta setp pdfv kpdf).
Notation Candidate := (Candidate Theta Rng Y setp pdfv kupd kupdL simc dist dist1).
Notation Moved := (Moved Theta Rng Y setp pdfv kupd kupdL kpdf simc dist dist1 bern).
Notation Fresh := (Fresh Theta Rng Y setp prior simc dist).

Lemma installed_set th c : Installed th (snd (setp th c)).
Proof. destruct (setp th c) as [[|] c'] eqn:E; [left; apply (proj1 Hset _ _ _ E) | right; exists c; exact E]. Qed.
Lemma hits_app {A} eps (l : list (A * Y)) x : filter (hit eps) (l ++ [x]) = filter (hit eps) l ++ (if nlt (dist (snd x)) eps then [x] else []).
Proof. rewrite filter_app. cbn. unfold S_SMCABC.hit at 2. reflexivity. Qed.
(* invariant: generation keeps a property of the graph *)
Lemma until_spec {A} (gen : Theta -> Rng -> res (Theta * Rng * (A * Y))) (I : Theta -> Prop) (P : A * Y -> Prop) eps :
  (forall c r c' r' x, I c -> gen c r = Ok (c', r', x) -> I c' /\ P x) ->
  forall fuel want cur r tr cur' r' l, I cur -> Forall P tr -> (want = 0 -> forall l' x, tr = l' ++ [x] -> hit eps x = true) ->
  until_hits gen eps want fuel cur r tr = Ok (cur', r', l) ->
  I cur' /\ Forall P l /\ length (filter (hit eps) l) = length (filter (hit eps) tr) + want /\ (want = 0 -> l = tr) /\ (0 < want -> l <> []) /\ (forall l' x, l = l' ++ [x] -> hit eps x = true).
Proof.
  intros Hg. induction fuel as [|f IH]; intros want cur r tr cur' r' l HI HP Hlast; (destruct want as [|w]; cbn [M_SMCABC.until_hits];
    [intros H; inversion H; subst; split; [exact HI|]; split; [exact HP|]; split; [lia|]; split; [reflexivity|]; split; [lia | apply Hlast; reflexivity]|]); [discriminate|].
  destruct (gen cur r) as [[[c1 r1] x]|] eqn:Eg; [|discriminate]. destruct (Hg _ _ _ _ _ HI Eg) as [HI1 HPx]. intros H.
  apply IH in H; [|exact HI1 | apply Forall_app; auto |].
  - destruct H as (B1 & B2 & B3 & B4 & B5 & B6). split; [exact B1|]. split; [exact B2|]. rewrite hits_app, app_length in B3. split; [destruct (nlt (dist (snd x)) eps); cbn in B3; lia|]. split; [discriminate|]. split; [|exact B6].
    intros _. destruct (nlt (dist (snd x)) eps); [|apply B5; lia]. destruct w; [rewrite B4 by reflexivity; destruct tr; discriminate | apply B5; lia].
  - intros Hw l' z Hz. apply app_inj_tail in Hz. destruct Hz as [_ <-]. unfold S_SMCABC.hit. destruct (nlt (dist (snd x)) eps); [reflexivity | discriminate Hw].
Qed.
Lemma trials_of {A} gen (I : Theta -> Prop) (P : A * Y -> Prop) eps want fuel cur r cur' r' l :
  (forall c r c' r' x, I c -> gen c r = Ok (c', r', x) -> I c' /\ P x) -> I cur -> until_hits gen eps want fuel cur r [] = Ok (cur', r', l) ->
  Trials P eps want l /\ I cur'.
Proof.
  intros Hg HI H. apply (until_spec gen I P eps Hg) in H; [|exact HI | constructor | intros _ [|? ?] ? E; discriminate E].
  destruct H as (B1 & B2 & B3 & B4 & B5 & B6). split; [|exact B1]. split; [exact B2|]. split; [exact B3|]. split; [exact B4 | exact B6].
Qed.
Lemma sim1_spec {A} (P : Y -> Prop) (a : A) cur0 c r c' r' x : (forall r r' y, simc cur0 r = (r', Some y) -> P y) -> c = cur0 -> sim1 a c r = Ok (c', r', x) -> c' = cur0 /\ P (snd x) /\ fst x = a.
Proof.
  intros HP -> H. unfold M_SMCABC.sim1 in H. destruct (simc cur0 r) as [r1 [y|]] eqn:E; [|discriminate]. inversion H; subst. cbn. eauto.
Qed.
(* a hit that is not the last one *)
Lemma hits_at_in {A} eps (l : list (A * Y)) J : In J (removelast (hits_at eps l)) ->
  exists l1 x l2, l = l1 ++ x :: l2 /\ length l1 = J /\ hit eps x = true /\ existsb (hit eps) l2 = true.
Proof.
  intros H. unfold M_SMCABC.hits_at in H.
  assert (Hgen : forall (l : list (A * Y)) k, In J (removelast (map fst (filter (fun ix => nlt (dist (snd (snd ix))) eps) (combine (seq k (length l)) l)))) ->
    exists l1 x l2, l = l1 ++ x :: l2 /\ k + length l1 = J /\ hit eps x = true /\ existsb (hit eps) l2 = true).
  { clear. induction l as [|x l IH]; intros k H; [destruct H|]. cbn [length seq combine filter snd] in H.
    assert (Hrec : forall k, In J (removelast (map fst (filter (fun ix => nlt (dist (snd (snd ix))) eps) (combine (seq k (length l)) l)))) ->
      exists l1 x0 l2, x :: l = l1 ++ x0 :: l2 /\ k + length l1 = S J /\ hit eps x0 = true /\ existsb (hit eps) l2 = true).
    { intros k' Hk'. destruct (IH k' Hk') as (l1 & x0 & l2 & -> & E & H1 & H2). exists (x :: l1), x0, l2. cbn. split; [reflexivity|]. split; [lia | auto]. }
    destruct (nlt (dist (snd x)) eps) eqn:Eh.
    - cbn [map fst] in H. set (rest := map fst (filter (fun ix => nlt (dist (snd (snd ix))) eps) (combine (seq (S k) (length l)) l))) in *.
      destruct rest as [|z rest'] eqn:Er; [destruct H|]. change (removelast (k :: z :: rest')) with (k :: removelast (z :: rest')) in H. destruct H as [<-|H].
      + exists [], x, l. cbn. split; [reflexivity|]. split; [lia|]. split; [exact Eh|].
        assert (Hz : In z rest) by (rewrite Er; left; reflexivity). unfold rest in Hz. apply in_map_iff in Hz. destruct Hz as ((z1 & y) & _ & Hz). apply filter_In in Hz. destruct Hz as [Hz1 Hz2].
        apply in_combine_r in Hz1. apply existsb_exists. exists y. auto.
      + rewrite <- Er in H. destruct (Hrec _ H) as (l1 & x0 & l2 & E & E2 & H1). exists l1, x0, l2. split; [exact E|]. split; [lia | exact H1].
    - destruct (Hrec _ H) as (l1 & x0 & l2 & E & E2 & H1). exists l1, x0, l2. split; [exact E|]. split; [lia | exact H1]. }
  destruct (Hgen l 0 H) as (l1 & x & l2 & E & E2 & H1). exists l1, x, l2. auto.
Qed.
Lemma two_hits {A} eps (l : list (A * Y)) : 2 <= length (filter (hit eps) l) -> exists l1 x l2, l = l1 ++ x :: l2 /\ hit eps x = true /\ existsb (hit eps) l2 = true.
Proof.
  induction l as [|x l IH]; cbn [filter length]; [lia|]. destruct (hit eps x) eqn:E; cbn [length]; intros H.
  - exists [], x, l. split; [reflexivity|]. split; [exact E|]. destruct (filter (hit eps) l) as [|y f] eqn:Ef; [cbn in H; lia|].
    apply existsb_exists. exists y. assert (In y (filter (hit eps) l)) by (rewrite Ef; left; reflexivity). apply filter_In in H0. tauto.
  - destruct (IH H) as (l1 & y & l2 & -> & H1). exists (x :: l1), y, l2. auto.
Qed.
Lemma ratios_spec p th theta cur : let '(rp, rk, c) := ratios Theta setp pdfv kpdf p th theta cur in forall ratio, Prob p th theta ratio (min1 (nmul (nmul ratio rp) rk)).
Proof. unfold ratios, pdf_of_prior. intros ratio. do 2 eexists. reflexivity. Qed.
Lemma propose_proposed {Pop} (up : Pop -> nat -> Rng -> Rng * Theta) fuel p i c r c' r' th : propose Theta Rng Pop setp up pdfv fuel p i c r = Ok (c', r', th) ->
  Proposed (up p i) th /\ Installed th c'.
Proof.
  intros H. destruct (propose_spec _ _ _ _ _ _ _ Hset _ _ _ _ _ _ _ H) as (A & B & r0 & r1 & C). split; [exists r0, r1, c'; auto | exact B].
Qed.
Lemma pert_spec {Pop} (up : Pop -> nat -> Rng -> Rng * Theta) fuel p i c r c' r' x : pert_sim up fuel p i c r = Ok (c', r', x) -> Proposed (up p i) (fst x) /\ SimY (fst x) (snd x).
Proof.
  unfold M_SMCABC.pert_sim. destruct (propose _ _ _ _ _ _ _ _ _ _ _) as [[[c1 r1] th]|] eqn:E; [|discriminate]. apply propose_proposed in E. destruct E as [E1 E2].
  intros H. unfold M_SMCABC.sim1 in H. destruct (simc c1 r1) as [r2 [y|]] eqn:Es; [|discriminate]. inversion H; subst. cbn. split; [exact E1|]. exists c', r1, r'. auto.
Qed.
Lemma keep_spec ys idx k theta cur th' y k' c : keep Theta Y setp ys idx k theta cur = Ok (th', y, k', c) ->
  exists ysl, ys = Some ysl /\ nth_error ysl idx = Some y /\ Installed theta th' /\ k' = k.
Proof.
  unfold keep. destruct ys as [ysl|]; [|discriminate]. destruct (nth_error ysl idx) as [y0|] eqn:E; [|discriminate]. intros H. inversion H; subst.
  exists ysl. split; [reflexivity|]. split; [exact E|]. split; [apply installed_set | reflexivity].
Qed.
Lemma prob_of p th theta cur rp rk c ratio : ratios Theta setp pdfv kpdf p th theta cur = (rp, rk, c) -> Prob p th theta ratio (min1 (nmul (nmul ratio rp) rk)).
Proof. intros E. pose proof (ratios_spec p th theta cur) as H. rewrite E in H. apply H. Qed.

Notation accept := (sm_accept Theta Rng Y setp pdfv kupd kupdL kpdf prior simc dist dist1 mkrng reseed bern choiceL).
Lemma accept_none kernel hits eps ys fuel si cur th y d k c : accept kernel hits eps None ys fuel si cur = Ok (th, y, d, k, c) -> Fresh (th, y, d, k).
Proof.
  unfold sm_accept. destruct (prior (reseed (mkrng (fst si)))) as [r1 th1] eqn:Ep. unfold M_SMCABC.sim1. destruct (simc th1 r1) as [r2 [y1|]] eqn:Es; [|discriminate].
  intros H. inversion H; subst. cbn. split; [eauto|]. split; [|auto]. exists c, r1, r2. split; [exact Es | left; reflexivity].
Qed.

Lemma accept_some kernel hits eps p ys fuel sd i cur th y d k c : accept kernel hits eps (Some p) (Some ys) fuel (sd, i) cur = Ok (th, y, d, k, c) ->
  Moved kernel hits eps p ys i (th, y, d, k).
Proof.
  unfold sm_accept. cbn [fst snd]. set (r := reseed (mkrng sd)). clearbody r. intros H.
  destruct (nth_error (p_w p) i) as [w|] eqn:Ew; [|discriminate]. destruct (nth_error (p_rows p) i) as [theta|] eqn:Et; [|discriminate].
  assert (Hgoal : ((nlt (Fin 0) w = false /\ Installed theta th /\ nth_error ys i = Some y /\ k = 0) \/ (nlt (Fin 0) w = true /\ exists th0 ratio pa r r', Prob p th0 theta ratio pa
            /\ ((bern pa r = Ok (r', true) /\ Installed th0 th /\ Candidate kernel hits eps p ys i theta th0 y ratio k)
                \/ (bern pa r = Ok (r', false) /\ Installed theta th /\ nth_error ys i = Some y /\ (kernel <> 1 \/ 2 <= hits -> exists yc, Candidate kernel hits eps p ys i theta th0 yc ratio k))))) ->
     d = dist y -> Moved kernel hits eps p ys i (th, y, d, k)).
  { intros H0 Hd. exists w, theta. auto 6. }
  destruct (nlt (Fin 0) w) eqn:Hw.
  2: { destruct (keep Theta Y setp (Some ys) i 0 theta cur) as [[[[th1 y1] k1] c1]|] eqn:Ek; [|discriminate]. inversion H; subst. apply keep_spec in Ek. destruct Ek as (ysl & E & Hy & Hi & ->). inversion E; subst. apply Hgoal; auto. }
  destruct kernel as [|[|kernel]].
  - unfold move0 in H. destruct (propose Theta Rng (pop Theta) setp kupd pdfv fuel p i cur r) as [[[c1 r1] th1]|] eqn:Ep; [|discriminate]. apply propose_proposed in Ep. destruct Ep as [P1 P2].
    unfold M_SMCABC.sim1 in H. destruct (simc c1 r1) as [r2 [y1|]] eqn:Es; [|discriminate]. destruct (nth_error ys i) as [yo|] eqn:Ey; [|discriminate].
    destruct (ratios Theta setp pdfv kpdf p th1 theta c1) as [[rp rk] c2] eqn:Er.
    match type of H with context [bern ?x r2] => destruct (bern x r2) as [[r3 b]|] eqn:Eb; [|discriminate] end.
    assert (HS : SimY th1 y1) by (exists c1, r1, r2; auto).
    destruct b; inversion H; subst; apply Hgoal; try reflexivity; right; (split; [reflexivity|]); do 5 eexists; (split; [eapply prob_of; exact Er|]).
    + left. split; [exact Eb|]. split; [apply installed_set|]. split; [exact P1|]. split; [exact HS|]. split; [reflexivity|]. exists yo. split; [exact Ey | reflexivity].
    + right. split; [exact Eb|]. split; [apply installed_set|]. split; [reflexivity|]. intros _. exists y1. split; [exact P1|]. split; [exact HS|]. split; [reflexivity|]. exists y. split; [exact Ey | reflexivity].
  - unfold move1 in H. destruct (until_hits (sim1 tt) eps (hits - 1) fuel (snd (setp theta cur)) r []) as [[[c1 r1] old]|] eqn:E1; [|discriminate].
    destruct (propose Theta Rng (pop Theta) setp kupd pdfv fuel p i c1 r1) as [[[c2 r2] th1]|] eqn:Ep; [|discriminate]. apply propose_proposed in Ep. destruct Ep as [P1 P2].
    destruct (until_hits (sim1 tt) eps hits fuel c2 r2 []) as [[[c3 r3] new]|] eqn:E2; [|discriminate].
    destruct (ratios Theta setp pdfv kpdf p th1 theta c3) as [[rp rk] c4] eqn:Er. destruct (length new =? 1); [discriminate|].
    match type of H with context [bern ?x r3] => destruct (bern x r3) as [[r4 b]|] eqn:Eb; [|discriminate] end.
    assert (T1 : Trials (fun x : unit * Y => SimY theta (snd x)) eps (hits - 1) old).
    { eapply (trials_of (sim1 tt) (fun c => c = snd (setp theta cur))); [|reflexivity | exact E1]. intros c' r' c'' r'' x Hc Hx.
      eapply (sim1_spec (fun y => SimY theta y)) in Hx; [destruct Hx as (A & B & _); split; [exact A | exact B] | | exact Hc]. intros ra rb y0 Hs. exists (snd (setp theta cur)), ra, rb. split; [exact Hs | apply installed_set]. }
    assert (T2 : Trials (fun x : unit * Y => SimY th1 (snd x)) eps hits new).
    { eapply (trials_of (sim1 tt) (fun c => c = c2)); [|reflexivity | exact E2]. intros c' r' c'' r'' x Hc Hx.
      eapply (sim1_spec (fun y => SimY th1 y)) in Hx; [destruct Hx as (A & B & _); split; [exact A | exact B] | | exact Hc]. intros ra rb y0 Hs. exists c2, ra, rb. split; [exact Hs | exact P2]. }
    destruct b.
    + destruct (choiceL (removelast (hits_at eps new)) r4) as [[r5 J]|] eqn:Ec; [|discriminate]. apply Hch in Ec. apply hits_at_in in Ec. destruct Ec as (l1 & [[] yj] & l2 & El & EJ & H1 & H2).
      assert (EnJ : nth_error new J = Some (tt, yj)) by (rewrite El, <- EJ, nth_error_app2, Nat.sub_diag by lia; reflexivity). rewrite EnJ in H. inversion H; subst y k th d.
      apply Hgoal; [|reflexivity]. right. split; [reflexivity|]. do 5 eexists. split; [eapply prob_of; exact Er|]. left. split; [exact Eb|]. split; [apply installed_set|].
      exists old, new. split; [exact P1|]. split; [exact T1|]. split; [exact T2|]. split; [exists l1, l2; auto|]. split; reflexivity.
    + destruct (keep Theta Y setp (Some ys) i (length old + length new) theta c4) as [[[[th2 y2] k2] c5]|] eqn:Ek; [|discriminate]. inversion H; subst. apply keep_spec in Ek. destruct Ek as (ysl & E & Hy & Hi & ->). inversion E; subst.
      apply Hgoal; [|reflexivity]. right. split; [reflexivity|]. do 5 eexists. split; [eapply prob_of; exact Er|]. right. split; [exact Eb|]. split; [exact Hi|]. split; [exact Hy|].
      intros [Hx|Hh]; [congruence|]. destruct (two_hits eps new) as (l1 & [[] yj] & l2 & El & H1 & H2); [destruct T2 as (_ & T2 & _); lia|].
      exists yj, old, new. split; [exact P1|]. split; [exact T1|]. split; [exact T2|]. split; [exists l1, l2; auto|]. split; reflexivity.
  - unfold move2 in H. destruct (until_hits (pert_sim kupd fuel p i) eps hits fuel cur r []) as [[[c1 r1] primes]|] eqn:E1; [|discriminate].
    destruct (choiceL (removelast (hits_at eps primes)) r1) as [[r2 L]|] eqn:Ec; [|discriminate]. apply Hch in Ec. apply hits_at_in in Ec. destruct Ec as (l1 & [th1 yj] & l2 & El & EJ & H1 & H2).
    assert (EnJ : nth_error primes L = Some (th1, yj)) by (rewrite El, <- EJ, nth_error_app2, Nat.sub_diag by lia; reflexivity). rewrite EnJ in H.
    match type of H with context [until_hits ?g eps (hits - 1) fuel c1 r2 []] => destruct (until_hits g eps (hits - 1) fuel c1 r2 []) as [[[c2 r3] back]|] eqn:E2; [|discriminate] end.
    destruct (ratios Theta setp pdfv kpdf p th1 theta c2) as [[rp rk] c3] eqn:Er. destruct (length primes =? 1); [discriminate|].
    match type of H with context [bern ?x r3] => destruct (bern x r3) as [[r4 b]|] eqn:Eb; [|discriminate] end.
    assert (HC : exists primes back, Trials (fun x => Proposed (kupd p i) (fst x) /\ SimY (fst x) (snd x)) eps hits primes
         /\ (exists l1 l2, primes = l1 ++ (th1, yj) :: l2 /\ nlt (dist yj) eps = true /\ existsb (hit eps) l2 = true)
         /\ Trials (fun x => Proposed (kupdL p th1) (fst x) /\ SimY (fst x) (snd x)) eps (hits - 1) back
         /\ ndiv (ofnat (length back)) (Fin (inject_Z (Z.of_nat (length primes) - 1))) = ndiv (ofnat (length back)) (Fin (inject_Z (Z.of_nat (length primes) - 1))) /\ length primes + length back = length primes + length back) by
      (exists primes, back; split; [|split; [exists l1, l2; auto|split; [|split; reflexivity]]];
        [eapply (trials_of _ (fun _ => True)); [|exact I | exact E1]; intros c' r' c'' r'' x _ Hx; split; [exact I | apply pert_spec in Hx; exact Hx]
        |eapply (trials_of _ (fun _ => True)); [|exact I | exact E2]; intros c' r' c'' r'' x _ Hx; split; [exact I | apply pert_spec in Hx; exact Hx]]).
    assert (HC' : Candidate (S (S kernel)) hits eps p ys i theta th1 yj (ndiv (ofnat (length back)) (Fin (inject_Z (Z.of_nat (length primes) - 1)))) (length primes + length back)).
    { exists primes, back. split; [|split; [exists l1, l2; auto|split; [|split; reflexivity]]].
      - eapply (trials_of _ (fun _ => True)); [|exact I | exact E1]. intros c' r' c'' r'' x _ Hx. split; [exact I | apply pert_spec in Hx; exact Hx].
      - eapply (trials_of _ (fun _ => True)); [|exact I | exact E2]. intros c' r' c'' r'' x _ Hx. split; [exact I | apply pert_spec in Hx; exact Hx]. }
    clear HC. destruct b.
    + inversion H; subst y k th d. apply Hgoal; [|reflexivity]. right. split; [reflexivity|]. do 5 eexists. split; [eapply prob_of; exact Er|]. left. split; [exact Eb|]. split; [apply installed_set | exact HC'].
    + destruct (keep Theta Y setp (Some ys) i (length primes + length back) theta c3) as [[[[th2 y2] k2] c5]|] eqn:Ek; [|discriminate]. inversion H; subst. apply keep_spec in Ek. destruct Ek as (ysl & E & Hy & Hi & ->). inversion E; subst.
      apply Hgoal; [|reflexivity]. right. split; [reflexivity|]. do 5 eexists. split; [eapply prob_of; exact Er|]. right. split; [exact Eb|]. split; [exact Hi|]. split; [exact Hy|]. intros _. exists yj. exact HC'.
Qed.

Variable n : nat.
Variable bernton : bool.
Variables kernel hits : nat.
Variables alpha efinal resample : Q.
Notation cloud := (cloud Theta Y).
Notation sstate := (sstate Theta Y).
Notation Reweighted := (Reweighted Theta Y dist1 n bernton efinal resample draw).
Notation SRun := (SRun Theta Rng Y setp pdfv kupd kupdL kpdf prior simc dist dist1 bern n bernton kernel hits efinal resample draw).
Notation step := (sm_step Theta Rng Y setp pdfv kupd kupdL kpdf prior simc dist dist1 mkrng reseed bern choiceL uniq draw bernton kernel hits n).
Notation iterate := (sm_iterate Theta Rng Y setp pdfv kupd kupdL kpdf prior simc dist dist1 mkrng reseed bern choiceL uniq draw bernton kernel hits n).

Lemma pick_spec {A} (l : list A) idx xs : pick l idx = Ok xs -> Forall2 (fun i x => nth_error l i = Some x) idx xs.
Proof.
  revert xs. induction idx as [|i idx IH]; intros xs H; cbn in H; [inversion H; constructor|]. destruct (nth_error l i) as [x|] eqn:E; [|discriminate].
  destruct (pick l idx) as [ys|]; [|discriminate]. inversion H; subst. constructor; auto.
Qed.
Lemma seq_rows {A} (l : list A) : Forall2 (fun i x => nth_error l i = Some x) (seq 0 (length l)) l.
Proof.
  assert (H : forall k (pre : list A), length pre = k -> Forall2 (fun i x => nth_error (pre ++ l) i = Some x) (seq k (length l)) l).
  { induction l as [|a l IH]; intros k pre Hk; cbn; [constructor|]. constructor; [rewrite nth_error_app2, Hk, Nat.sub_diag by lia; reflexivity|].
    specialize (IH (S k) (pre ++ [a])). rewrite <- app_assoc in IH. apply IH. rewrite app_length. cbn. lia. }
  apply (H 0 []). reflexivity.
Qed.
Lemma reweight_spec e (w ds : list num) rows ys e' nw : (efinal <= e)%Q -> sm_reweight Y dist1 uniq bernton n alpha efinal e w ds ys = Ok (e', nw) ->
  (efinal <= e' <= e)%Q /\ nw = normalise (raw_weights Theta Y dist1 n bernton e' e (mkcloud Theta Y rows ys ds w)).
Proof.
  intros He. unfold sm_reweight, raw_weights. cbn [k_ds k_w k_ys].
  assert (Hclip : forall f e1, bisect f (bisect_fuel efinal e (1 # 1000)) efinal e (1 # 1000) = Ok e1 -> (efinal <= (if Qltb e1 efinal then efinal else e1) <= e)%Q).
  { intros f e1 H. apply bisect_interval in H; [|exact He]. destruct (Qltb e1 efinal); [split; [apply Qle_refl | exact He] | exact H]. }
  destruct bernton.
  - destruct (negb _); [discriminate|]. destruct (bisect _ _ _ _ _) as [e1|] eqn:Eb; [|discriminate]. intros H. injection H as <- <-. split; [exact (Hclip _ _ Eb) | reflexivity].
  - destruct (_ || _); [discriminate|]. destruct (bisect _ _ _ _ _) as [e1|] eqn:Eb; [|discriminate]. intros H. injection H as <- <-. split; [exact (Hclip _ _ Eb)|].
    f_equal. unfold dm_weights. assert (Hc : forall (l : list num) (m : list Y), combine l (map dist1 m) = map (fun wy => (fst wy, dist1 (snd wy))) (combine l m)).
    { induction l as [|a l IH]; intros [|b m]; cbn; [reflexivity | reflexivity | reflexivity|]. rewrite IH. reflexivity. }
    rewrite Hc, map_map. apply map_ext. intros [a b]. reflexivity.
Qed.
Definition cl (s : sstate) : option cloud :=
  match m_rows _ _ s, m_ys _ _ s, m_ds _ _ s with Some rows, Some ys, Some ds => Some (mkcloud Theta Y rows ys ds (m_w _ _ s)) | _, _, _ => None end.
(** either nothing has been accepted yet, or everything is there *)
Definition wf (s : sstate) : Prop := (m_rows _ _ s = None /\ m_ds _ _ s = None /\ m_mgr _ _ s = None) \/ cl s <> None.
Definition recd (full steps t : nat) := ((full =? 1) && (t <=? steps - 1)) || ((full =? 0) && (t =? steps - 1)).
Lemma combine4 {X A B C D} (a : X -> A) (b : X -> B) (c : X -> C) (d : X -> D) l : combine (combine (combine (map a l) (map b l)) (map c l)) (map d l) = map (fun x => (a x, b x, c x, d x)) l.
Proof. induction l as [|x l IH]; cbn; [reflexivity|]. rewrite IH. reflexivity. Qed.
Lemma F2_nth {A B} (P : A -> B -> Prop) l l' : Forall2 P l l' -> forall i y, nth_error l' i = Some y -> exists x, nth_error l i = Some x /\ P x y.
Proof. induction 1 as [|x y l l' H1 H2 IH]; intros [|i] z Hz; try discriminate; cbn in *; [injection Hz as <-; eauto | auto]. Qed.
Lemma nth_combine_seq (sd : list Z) i x : nth_error (combine sd (seq 0 (length sd))) i = Some x -> exists z, x = (z, i).
Proof.
  assert (H : forall k i, nth_error (combine sd (seq k (length sd))) i = Some x -> exists z, x = (z, k + i)).
  { clear i. induction sd as [|z sd IH]; intros k i H; [destruct i; discriminate|]. destruct i as [|i]; cbn in H; [injection H as <-; exists z; f_equal; lia|].
    destruct (IH (S k) i H) as [z' ->]. exists z'. f_equal. lia. }
  intros Hx. exact (H 0 i Hx).
Qed.
Lemma step_spec steps full fuel t seed (s s' : sstate) e es0 : wf s -> m_eps _ _ s = es0 ++ [e] -> (efinal < e)%Q ->
  step steps alpha efinal resample full fuel t seed s = Ok s' ->
  exists x ks, length (r_rows (fst x)) = n /\ 0 < n /\ length ks = n /\ length (snd x) = n /\ length (r_ds (fst x)) = n
  /\ r_nsim (fst x) = m_count _ _ s + list_sum ks
  /\ cl s' = Some (cloud_of Theta Y x) /\ m_count _ _ s' = r_nsim (fst x) /\ m_hist _ _ s' = m_hist _ _ s ++ [x]
  /\ m_recs _ _ s' = (if recd full steps t then m_recs _ _ s ++ [x] else m_recs _ _ s) /\ m_conf _ _ s' = Some (m_eps _ _ s')
  /\ match cl s with
     | None => Forall Fresh (combine (combine (combine (r_rows (fst x)) (snd x)) (r_ds (fst x))) ks) /\ r_w (fst x) = repeat (ndiv (Fin 1) (ofnat n)) n /\ m_eps _ _ s' = m_eps _ _ s
     | Some c => exists e' idx p, Reweighted t c e e' idx p /\ r_w (fst x) = p_w p /\ m_eps _ _ s' = m_eps _ _ s ++ [e']
                 /\ forall i z, nth_error (combine (combine (combine (r_rows (fst x)) (snd x)) (r_ds (fst x))) ks) i = Some z -> Moved kernel hits (Fin e') p (k_ys Theta Y c) i z
     end.
Proof.
  intros Hwf He Hlt. unfold sm_step. rewrite He at 1. rewrite rev_app_distr. cbn [rev app].
  match goal with |- match ?X with _ => _ end = _ -> _ => destruct X as [[[[epsilon eps] w] rows]|] eqn:Ere; [|discriminate] end.
  cbv zeta. match goal with |- context [mapT ?f ?l ?c] => destruct (mapT f l c) as [[results cur1]|] eqn:Em; [|discriminate] end.
  destruct results as [|x0 res0] eqn:Eres; [discriminate|]. rewrite <- Eres in *. assert (Hpos : 0 < length results) by (rewrite Eres; cbn; lia). clear x0 res0 Eres.
  intros H. injection H as <-. apply mapT_ok in Em.
  assert (Hlen : length results = n).
  { transitivity (length (combine (seeds_of seed n) (seq 0 n))); [clear - Em; induction Em; cbn; congruence|]. unfold seeds_of. rewrite combine_length, map_length, !seq_length. lia. }
  set (x := (mkrec (map (fun x => fst (fst (fst x))) results) (map (fun x => snd (fst x)) results) w (fold_left (fun a x => a + snd x) results (m_count Theta Y s)), map (fun x => snd (fst (fst x))) results)).
  exists x, (map snd results). unfold x at 1 2 3 4 5. cbn [fst snd r_rows r_ds r_nsim]. rewrite !map_length.
  split; [exact Hlen|]. split; [lia|]. split; [exact Hlen|]. split; [exact Hlen|]. split; [exact Hlen|]. split; [apply fold_count|].
  split; [reflexivity|]. split; [reflexivity|]. split; [reflexivity|]. split; [reflexivity|]. split; [reflexivity|].
  unfold x. cbn [fst snd r_rows r_ds r_w]. rewrite combine4. cbn [M_SMCABC.m_eps].
  assert (Hid : map (fun x : Theta * Y * num * nat => (fst (fst (fst x)), snd (fst (fst x)), snd (fst x), snd x)) results = results).
  { rewrite <- (map_id results) at 2. apply map_ext. intros [[[a b] c] d]. reflexivity. }
  rewrite Hid. destruct Hwf as [(W1 & W2 & W3)|Hc].
  - unfold cl. rewrite W1. rewrite W1, W2 in Ere. injection Ere as <- <- <- <-. split; [|split; reflexivity].
    rewrite W3 in Em. clear - Em Hset. induction Em as [|si z l results (c1 & c2 & Hx) Em IH]; [constructor|]. constructor; [|exact IH].
    match type of Hx with context [sm_accept _ _ _ _ _ _ _ _ _ _ _ _ _ _ _ _ ?k ?h ?e ?m ?y ?f ?z ?c] => destruct (accept k h e m y f z c) as [[[[[th y0] d] cnt] c']|] eqn:Ea; [|discriminate] end.
    inversion Hx; subst. apply accept_none in Ea. exact Ea.
  - unfold cl in Hc |- *. destruct (m_rows Theta Y s) as [rows0|] eqn:E1; [|congruence]. destruct (m_ys Theta Y s) as [ys0|] eqn:E2; [|congruence]. destruct (m_ds Theta Y s) as [ds0|] eqn:E3; [|congruence].
    destruct (sm_reweight Y dist1 uniq bernton n alpha efinal e (m_w Theta Y s) ds0 ys0) as [[e' nw]|] eqn:Erw; [|discriminate].
    destruct (reweight_spec e (m_w Theta Y s) ds0 rows0 ys0 e' nw (Qlt_le_weak _ _ Hlt) Erw) as [B1 B2].
    assert (Hfin : exists idx rows1, rows = Some rows1 /\ eps = e' /\ epsilon = m_eps Theta Y s ++ [e'] /\ Reweighted t (mkcloud Theta Y rows0 ys0 ds0 (m_w Theta Y s)) e e' idx (mkpop rows1 w)).
    { unfold S_SMCABC.Reweighted. fold (normalise (raw_weights Theta Y dist1 n bernton e' e (mkcloud Theta Y rows0 ys0 ds0 (m_w Theta Y s)))). rewrite <- B2. fold (ess nw).
      destruct (bernton || nlt (ess nw) (Fin resample)).
      - destruct (draw t n nw) as [idx|] eqn:Ed; [|discriminate]. destruct (pick rows0 idx) as [rows'|] eqn:Ep; [|discriminate]. injection Ere as <- <- <- <-.
        exists idx, rows'. split; [reflexivity|]. split; [reflexivity|]. split; [reflexivity|]. split; [exact B1|]. split; [apply pick_spec; exact Ep|]. split; [reflexivity|]. reflexivity.
      - injection Ere as <- <- <- <-. exists (seq 0 (length rows0)), rows0. split; [reflexivity|]. split; [reflexivity|]. split; [reflexivity|]. split; [exact B1|]. split; [apply seq_rows|]. split; reflexivity. }
    destruct Hfin as (idx & rows1 & -> & -> & -> & HR). exists e', idx, (mkpop rows1 w). split; [exact HR|]. split; [reflexivity|]. split; [reflexivity|].
    intros i z Hz. destruct (F2_nth _ _ _ Em i z Hz) as (si & Hsi & c1 & c2 & Hx).
    assert (Hsd : n = length (seeds_of seed n)) by (unfold seeds_of; rewrite map_length, seq_length; reflexivity). rewrite Hsd in Hsi at 2. apply nth_combine_seq in Hsi. destruct Hsi as [sd ->].
    match type of Hx with context [sm_accept _ _ _ _ _ _ _ _ _ _ _ _ _ _ _ _ ?k ?h ?e ?m ?y ?f ?z ?c] => destruct (accept k h e m y f z c) as [[[[[th y0] d] cnt] c']|] eqn:Ea; [|discriminate] end.
    inversion Hx; subst. cbn [k_ys]. eapply accept_some. exact Ea.
Qed.
Lemma iterate_run steps full fuel seed : forall todo t (s s' : sstate) e es0, wf s -> m_eps _ _ s = es0 ++ [e] -> t + todo = steps ->
  iterate steps alpha efinal resample full fuel t todo seed s = Ok s' ->
  exists es idxs xs, SRun t (cl s) e (m_count _ _ s) es idxs xs /\ m_eps _ _ s' = m_eps _ _ s ++ es /\ m_hist _ _ s' = m_hist _ _ s ++ xs
  /\ length xs <= todo /\ (length xs < todo -> (last (m_eps _ _ s') 0 <= efinal)%Q)
  /\ m_recs _ _ s' = m_recs _ _ s ++ (if full =? 1 then xs else if (full =? 0) && (length xs =? todo) then match xs with [] => [] | x0 :: _ => [last xs x0] end else []).
Proof.
  induction todo as [|todo IH]; intros t s s' e es0 Hwf He Ht H; cbn [sm_iterate] in H.
  - injection H as <-. exists [], [], []. split; [constructor|]. cbn [length]. rewrite !app_nil_r. split; [reflexivity|]. split; [reflexivity|]. split; [lia|]. split; [lia|].
    destruct (full =? 1), (full =? 0); rewrite app_nil_r; reflexivity.
  - rewrite He in H. rewrite rev_app_distr in H. cbn [rev app] in H. destruct (Qle_bool e efinal) eqn:El.
    + injection H as <-. exists [], [], []. split; [constructor|]. cbn [length]. rewrite !app_nil_r. split; [reflexivity|]. split; [reflexivity|]. split; [lia|]. split; [|destruct (full =? 1), (full =? 0); rewrite app_nil_r; reflexivity].
      intros _. rewrite He, last_last. apply Qle_bool_iff. exact El.
    + assert (Hlt : (efinal < e)%Q) by (apply Qltb_iff; unfold Qltb; rewrite El; reflexivity).
      destruct (step steps alpha efinal resample full fuel t (seed t) s) as [s1|] eqn:Es; [|discriminate].
      destruct (step_spec _ _ _ _ _ _ _ _ _ Hwf He Hlt Es) as (x & ks & A1 & A2 & A3 & A4 & A5 & A6 & A7 & A8 & A9 & A10 & A11 & A12).
      assert (Hwf1 : wf s1) by (right; rewrite A7; discriminate).
      assert (Hgo : forall e1 es1, m_eps _ _ s1 = es1 ++ [e1] ->
        (forall es idxs xs, SRun (S t) (Some (cloud_of Theta Y x)) e1 (r_nsim (fst x)) es idxs xs -> exists es' idxs', SRun t (cl s) e (m_count _ _ s) es' idxs' (x :: xs) /\ m_eps _ _ s1 ++ es = m_eps _ _ s ++ es') ->
        exists es idxs xs, SRun t (cl s) e (m_count _ _ s) es idxs xs /\ m_eps _ _ s' = m_eps _ _ s ++ es /\ m_hist _ _ s' = m_hist _ _ s ++ xs
        /\ length xs <= S todo /\ (length xs < S todo -> (last (m_eps _ _ s') 0 <= efinal)%Q)
        /\ m_recs _ _ s' = m_recs _ _ s ++ (if full =? 1 then xs else if (full =? 0) && (length xs =? S todo) then match xs with [] => [] | x0 :: _ => [last xs x0] end else [])).
      { intros e1 es1 He1 Hbuild. destruct (IH (S t) s1 s' e1 es1 Hwf1 He1 ltac:(lia) H) as (es & idxs & xs & B1 & B2 & B3 & B4 & B5 & B6).
        rewrite A7, A8 in B1. destruct (Hbuild _ _ _ B1) as (es' & idxs' & C1 & C2). exists es', idxs', (x :: xs). cbn [length].
        split; [exact C1|]. split; [rewrite B2; exact C2|]. split; [rewrite B3, A9, <- app_assoc; reflexivity|]. split; [lia|]. split; [intros Hl; apply B5; lia|].
        rewrite B6, A10. unfold recd. replace (t <=? steps - 1) with true by (symmetry; apply Nat.leb_le; lia).
        destruct (full =? 1); cbn [andb orb]; [rewrite <- app_assoc; reflexivity|]. destruct (full =? 0); cbn [andb]; [|reflexivity].
        change (S (length xs) =? S todo) with (length xs =? todo). destruct (length xs =? todo) eqn:Elx.
        - destruct xs as [|x1 xs]; [|destruct (Nat.eqb_spec t (steps - 1)); [apply Nat.eqb_eq in Elx; cbn in Elx; lia|]].
          + apply Nat.eqb_eq in Elx. cbn in Elx. replace (t =? steps - 1) with true by (symmetry; apply Nat.eqb_eq; lia). rewrite app_nil_r. reflexivity.
          + f_equal. f_equal. assert (Hl : forall (l : list (srec Theta Y)) a b, l <> [] -> last l a = last l b) by (clear; induction l as [|u l IH]; intros a b Hl; [congruence|]; destruct l as [|v l]; [reflexivity | apply (IH a b); discriminate]). change (last (x :: x1 :: xs) x) with (last (x1 :: xs) x). apply Hl. discriminate.
        - rewrite app_nil_r. destruct (Nat.eqb_spec t (steps - 1)); [|rewrite app_nil_r; reflexivity]. apply Nat.eqb_neq in Elx. exfalso. lia. }
      destruct (cl s) as [c|] eqn:Ecl.
      * destruct A12 as (e' & idx & p & D1 & D2 & D3 & D4). apply (Hgo e' (m_eps Theta Y s) D3). intros es idxs xs HS. exists (e' :: es), (idx :: idxs). split; [|rewrite D3, <- app_assoc; reflexivity].
        eapply sr_step; eassumption.
      * destruct A12 as (D1 & D2 & D3). apply (Hgo e es0); [rewrite D3; exact He|]. intros es idxs xs HS. exists es, ([] :: idxs). split; [|rewrite D3; reflexivity]. eapply sr_first; eassumption.
Qed.
End P.
