(** C92: what an iteration of RSMCABC does to a population. *)
From Coq Require Import Reals Lra Lia Qreals Permutation.
From Verif Require Import M_Base M_Num L_Num M_Infer S_Infer L_Infer M_PMCABC S_PMCABC L_PMCABC M_RSMCABC S_RSMCABC L_RSMCABC P_PMCABC P_RSMCABC M_XReal M_Stats L_PMC S_Stats L_Stats L_Distance L_PosDef L_Histogram S_Law P_Law L_Law P_Law3 P_Law4 S_Gen L_Gen L_Series L_Hits L_Coin S_Chain S_Anneal L_Anneal P_Law7 S_Consist L_LLN S_Renew.
Open Scope R_scope.

Lemma nonempty {X} (l : list X) : l <> [] -> exists x, In x l.
Proof. destruct l as [|x l]; [contradiction|]. exists x. left. reflexivity. Qed.
Section Renewal.
Variables A Theta Y : Type.
Variable outs : list A.
Variable p : A -> R.
Hypothesis dlaw : Law outs p.
Variable setp : Theta -> Theta -> bool * Theta.
Variable pdfv : Theta -> Theta -> num.
Variable kupd : pop Theta -> nat -> list A -> list A * Theta.
Variable kpdf : pop Theta -> Theta -> Theta -> num.
Variable prior : list A -> list A * Theta.
Variable simc : Theta -> list A -> list A * option Y.
Variable dist : Y -> num.
Variable dist_max : num.
Variable choiceU : nat -> list A -> res (list A * nat).
Variable bern : num -> list A -> res (list A * bool).
Variable newR : Q -> res Z.
Variable eps : num.
Variable pi : Theta -> Q.
Variable kern : Theta -> Theta -> Q.
Variable pts : list Theta.
Variable datas : list Y.
Variable lik : Theta -> Y -> R.
Hypothesis set_all : forall th cur, setp th cur = (true, th).
Hypothesis density : forall th cur, pdfv th cur = Fin (pi th).
Hypothesis density_nonneg : forall th, (0 <= pi th)%Q.
Notation Ts := (filter (inside Theta pi) pts).
Hypothesis kern_law : forall th, Law pts (fun x => Q2R (kern th x)).
(** what can be proposed has a way back *)
Hypothesis kern_nonneg : forall th th', (0 <= kern th th')%Q.
Hypothesis data_law : forall th, Law datas (lik th).
Notation simulated := (simulated A Theta Y simc).
Hypothesis sim_law : forall th, In th Ts -> Produces outs p (simulated th) datas (lik th).
Hypothesis coin : forall v, (0 <= v <= 1)%Q -> Produces outs p (fun _ l => bern (Fin v) l) [true; false] (fun b => if b then Q2R v else 1 - Q2R v).
Hypothesis newR_ok : forall x, exists z, newR x = Ok z.
Definition closer (y : Y) : bool := nlt (dist y) eps.
Notation ratio := (ratio Theta pi kern).
Notation inner := (inner Theta kern Ts).
Notation renew := (renew Theta Y pi kern lik closer dist Ts datas).
Notation renewals := (renewals Theta Y pi kern lik closer dist Ts datas).
Definition good (x : Theta * num) : Prop := In (fst x) Ts /\ 0 < inner (fst x).
(** the kernels perturb member i of the population by [kern], which is also their density *)
Definition kernel_is (q : pop Theta) : Prop := (forall i th, nth_error (p_rows q) i = Some th -> Produces outs p (fun _ l => Ok (kupd q i l)) pts (fun x => Q2R (kern th x))) /\ (forall x y, kpdf q x y = Fin (kern x y)).
Notation chooses := (chooses A outs p choiceU).

Lemma Ts_in th : In th Ts -> In th pts /\ ~ (pi th == 0)%Q.
Proof. intros H. apply filter_In in H. destruct H as [H1 H2]. split; [exact H1|]. intros X. unfold inside in H2. apply Qeq_bool_iff in X. rewrite X in H2. discriminate. Qed.
Lemma prior_pos th : In th Ts -> 0 < Q2R (pi th).
Proof. intros H. apply Ts_in in H. destruct H as [_ H]. apply Q2R_pos. specialize (density_nonneg th). apply Qle_lteq in density_nonneg. destruct density_nonneg as [X|X]; [exact X|]. exfalso. apply H. symmetry. exact X. Qed.
Lemma inner_within th : within Theta pi pts (fun x => Q2R (kern th x)) = inner th.
Proof. unfold within, S_Chain.inner, chance, expect. clear. induction pts as [|x l IH]; [reflexivity|]. cbn [map filter]. rewrite total_cons, IH. destruct (inside Theta pi x); cbn [map]; [rewrite total_cons; ring|ring]. Qed.
Lemma inner_sum th : 0 < inner th -> total (map (fun th' => Q2R (kern th th') / inner th) Ts) = 1.
Proof. intros H. rewrite (total_ext _ (fun x => / inner th * Q2R (kern th x))) by (intros; unfold Rdiv; ring). rewrite total_scale. fold (inner th). apply Rinv_l. lra. Qed.
Lemma kern_posR th th' : Q2R (kern th th') <> 0 -> (0 < kern th th')%Q.
Proof. intros H. destruct (Qle_lt_or_eq _ _ (kern_nonneg th th')) as [X|X]; [exact X|]. exfalso. apply H. apply Qeq_eqR in X. rewrite <- X. unfold Q2R. cbn. lra. Qed.
Lemma ratio_value th th' : In th Ts -> In th' Ts -> Q2R (kern th th') <> 0 -> exists v, min1 (nmul (ndiv (Fin (pi th')) (Fin (pi th))) (ndiv (Fin (kern th' th)) (Fin (kern th th')))) = Fin v /\ Q2R v = ratio th th' /\ (0 <= v <= 1)%Q.
Proof.
  intros H H' Hk. apply kern_posR in Hk. assert (K0 : ~ (kern th th' == 0)%Q) by (intros X; rewrite X in Hk; discriminate).
  pose proof (proj2 (Ts_in th H)) as P0. rewrite !ndiv_fin by assumption. cbn [nmul]. set (z := (pi th' / pi th * (kern th' th / kern th th'))%Q).
  assert (Hz : Q2R z = Q2R (pi th') / Q2R (pi th) * (Q2R (kern th' th) / Q2R (kern th th'))) by (unfold z; rewrite Q2R_mult, !Q2R_div by assumption; reflexivity).
  assert (O1 : Q2R 1 = 1) by (unfold Q2R; cbn; lra). assert (O0 : Q2R 0 = 0) by (unfold Q2R; cbn; lra).
  assert (Z0 : 0 <= Q2R z).
  { rewrite Hz. pose proof (prior_pos th H). pose proof (prior_pos th' H'). pose proof (Q2R_pos _ Hk). pose proof (Qle_Rle _ _ (kern_nonneg th' th)) as K1. rewrite O0 in K1. apply Rmult_le_pos; apply Rmult_le_pos; try lra; apply Rlt_le, Rinv_0_lt_compat; lra. }
  assert (M : exists u, min1 (Fin z) = Fin u /\ Q2R u = ratio th th').
  { unfold min1. cbn [nlt]. unfold S_Chain.ratio. rewrite <- Hz. destruct (Qle_bool 1 z) eqn:Ez; cbn [negb].
    - exists 1%Q. split; [reflexivity|]. apply Qle_bool_iff, Qle_Rle in Ez. rewrite O1 in *. rewrite Rmin_left by exact Ez. reflexivity.
    - assert (L : (z < 1)%Q) by (apply Qnot_le_lt; intros X; apply Qle_bool_iff in X; congruence). exists z. split; [reflexivity|]. rewrite Rmin_right; [reflexivity|]. apply Rlt_le. rewrite <- O1. apply Qlt_Rlt, L. }
  destruct M as (u & Eu & Hu). exists u. split; [exact Eu|]. split; [exact Hu|]. assert (Hr : 0 <= ratio th th' <= 1) by (unfold S_Chain.ratio; rewrite <- Hz; split; [apply Rmin_glb; lra|apply Rmin_l]).
  split; apply Rle_Qle; rewrite Hu, ?O0, ?O1; lra.
Qed.
Lemma renew_const x c : 0 < inner (fst x) -> renew x (fun _ => c) = c.
Proof.
  intros Hi. unfold S_Renew.renew. cbv zeta. rewrite (total_ext _ (fun th' => c * (Q2R (kern (fst x) th') / inner (fst x)))).
  - rewrite total_scale, inner_sum by exact Hi. ring.
  - intros th' _. transitivity (Q2R (kern (fst x) th') / inner (fst x) * expect datas (lik th') (fun _ => c)); [|rewrite (expect_const _ _ _ _ (data_law th')); ring]. f_equal. apply total_ext. intros y _. ring.
Qed.

Notation moves p0 ds i theta := (rs_moves Theta (list A) Y setp pdfv kupd kpdf simc dist bern eps p0 (Some ds) i theta).
Lemma moves_tend q kds i theta d0 (g : Theta * num -> nat -> R) (G : Theta * num -> R) B : kernel_is q -> nth_error (p_rows q) i = Some theta -> nth_error kds i = Some d0 -> In theta Ts -> 0 < inner theta ->
  (forall x f, Rabs (g x f) <= B) -> (forall d, Tends outs p (fun f _ => g (theta, d) f) (G (theta, d))) ->
  forall k cur d acc cnt, (k = O -> cur = theta) ->
  Tends outs p (fun f l => match moves q kds i theta f k cur l d acc cnt with Ok (th, d', _, _, _) => g (th, d') f | Err _ => 0 end) (match k with O => G (theta, d) | S _ => renew (theta, d0) G end).
Proof.
  intros (Hk1 & Hk2) Hi Hd0 H Hin Bg Tg. assert (Bpos : 0 <= B) by (apply Rle_trans with (Rabs (g (theta, d0) 0%nat)); [apply Rabs_pos|apply Bg]).
  assert (BG : forall k cur d acc cnt f l, Rabs (match moves q kds i theta f k cur l d acc cnt with Ok (th, d', _, _, _) => g (th, d') f | Err _ => 0 end) <= B).
  { intros. destruct (rs_moves _ _ _ _ _ _ _ _ _ _ _ _ _ _ _ _ _ _ _ _ _ _) as [[[[[th d'] ?] ?] ?]|]; [apply Bg|rewrite Rabs_R0; exact Bpos]. }
  induction k as [|k IH]; intros cur d acc cnt Hcur; [rewrite (Hcur eq_refl); cbn [rs_moves]; apply Tg|].
  set (val := fun d' => match k with O => G (theta, d') | S _ => renew (theta, d0) G end).
  assert (V : renew (theta, d0) G = renew (theta, d0) (fun x => val (snd x))).
  { unfold val. destruct k as [|k']; [|symmetry; apply (renew_const (theta, d0)); exact Hin]. unfold S_Renew.renew. cbv zeta. apply total_ext. intros th' _. f_equal. }
  rewrite V. clear V.
  set (tl := fun (y : Y) (b : bool) f l => match moves q kds i theta f k theta l (if b then dist y else d0) (if b then S acc else acc) (S cnt) with Ok (th, d', _, _, _) => g (th, d') f | Err _ => 0 end).
  set (pa := fun th' => min1 (nmul (ndiv (Fin (pi th')) (Fin (pi theta))) (ndiv (Fin (kern th' theta)) (Fin (kern theta th'))))).
  apply (Tends_ext _ outs p (after (propose1 A Theta (pop Theta) setp pdfv kupd q i cur) (fun z => after (simulated (fst z)) (fun y => if closer y then after (fun _ l => bern (pa (snd z)) l) (fun b => tl y b) else tl y false)))).
  { intros fuel l _. cbn [rs_moves]. unfold after at 1, propose1. destruct (propose _ _ _ _ _ _ _ _ _ _ _) as [[[c1 r1] th']|]; [|reflexivity]. cbn [fst snd].
    unfold after at 1, L_Anneal.simulated. destruct (simc c1 r1) as [r2 [y|]]; [|reflexivity]. unfold pdf_of_prior. rewrite !set_all, !density, !Hk2. cbn [snd]. fold (closer y). fold (pa th'). rewrite Hd0. destruct (closer y); [|unfold tl; reflexivity].
    unfold after. destruct (bern (pa th') r2) as [[r3 [|]]|]; [unfold tl; reflexivity..|reflexivity]. }
  assert (Bt : forall y b fu l, Rabs (tl y b fu l) <= B) by (intros y b fu l; unfold tl; apply BG).
  refine (propose_gives A Theta (pop Theta) outs p dlaw setp pdfv kupd q i pi pts (fun x => Q2R (kern theta x)) (kern_law theta) set_all density (Hk1 i theta Hi) _ cur _ (fun z => total (map (fun y => lik (snd z) y *
     ((if closer y then ratio theta (snd z) else 0) * val (dist y) + (1 - (if closer y then ratio theta (snd z) else 0)) * val d0)) datas)) B _ _ _ _).
  - rewrite inner_within. exact Hin.
  - intros z fu l. apply after_bound; [exact Bpos|]. intros y fu2 l2. destruct (closer y); [|apply Bt]. apply after_bound; [exact Bpos|]. intros; apply Bt.
  - intros [c th'] (Ec & H' & Hkk). cbn [fst snd] in *. subst c.
    refine (sim_law th' H' _ (fun y => (if closer y then ratio theta th' else 0) * val (dist y) + (1 - (if closer y then ratio theta th' else 0)) * val d0) B _ _ _ eq_refl).
    + intros y fu l. destruct (closer y); [|apply Bt]. apply after_bound; [exact Bpos|]. intros; apply Bt.
    + intros y _. destruct (closer y).
      * destruct (ratio_value theta th' H H' Hkk) as (v & Ev & Hv & V01). unfold pa. rewrite Ev, <- Hv.
        refine (coin v V01 _ (fun b => val (if b then dist y else d0)) B _ _ _ _).
        -- intros; apply Bt.
        -- intros b _. unfold tl, val. apply IH. reflexivity.
        -- cbn [map]. rewrite !total_cons. change (total []) with 0. ring.
      * apply (Tends_eq _ outs p _ (val d0)); [ring|]. unfold tl, val. apply IH. reflexivity.
  - cbn [fst snd]. rewrite inner_within. reflexivity.
Qed.

Notation accept mk := (rs_accept Theta (list A) Y setp pdfv kupd kpdf prior simc dist dist_max mk (fun l => l) choiceU bern).
Lemma worker_tend pp w Rn seed cur (g : Theta * num -> nat -> R) (G : Theta * num -> R) B : (0 < Rn)%Z -> (forall x, In x pp -> good x) -> kernel_is (mkpop (map fst pp) w) -> chooses (length pp) ->
  (forall x f, Rabs (g x f) <= B) -> (forall x, In (fst x) (map fst pp) -> Tends outs p (fun f _ => g x f) (G x)) ->
  Tends outs p (fun f l => match accept (fun _ => l) eps Rn (Some (mkpop (map fst pp) w)) (Some (map snd pp)) f seed cur with Ok (th, d, _, _, _) => g (th, d) f | Err _ => 0 end)
    (/ INR (length pp) * total (map (fun x => renew x G) pp)).
Proof.
  intros HR Hpp Hk Hc Hb Ht. set (q := mkpop (map fst pp) w) in *.
  assert (B0 : 0 <= B \/ pp = []) by (destruct pp as [|x0 pp']; [right; reflexivity|left]; apply Rle_trans with (Rabs (g x0 0%nat)); [apply Rabs_pos|apply Hb]).
  destruct (Z.to_nat Rn) as [|m] eqn:EN; [lia|].
  set (k := fun i f l => match nth_error pp i with
    | None => 0
    | Some x => match moves q (map snd pp) i (fst x) f (S m) cur l dist_max 0 0 with Ok (th, d', _, _, _) => g (th, d') f | Err _ => 0 end
    end).
  apply (Tends_ext _ outs p (after (fun _ l => choiceU (length pp) l) k)).
  { intros f l _. unfold rs_accept, after at 1. change (p_rows q) with (map fst pp). rewrite map_length. destruct (choiceU (length pp) l) as [[r0 i]|]; [|reflexivity]. unfold k. rewrite !nth_error_map. destruct (nth_error pp i) as [x|]; [|reflexivity]. cbn [option_map].
    rewrite EN. reflexivity. }
  destruct B0 as [B0 | ->].
  2:{ refine (Hc k (fun _ => 0) 0 _ _ _ _); [intros i f l; unfold k; destruct i; cbn [nth_error]; rewrite Rabs_R0; lra|intros i [[] _]|]. cbn. unfold total. cbn. ring. }
  assert (Bk : forall i f l, Rabs (k i f l) <= B).
  { intros i f l. unfold k. destruct (nth_error pp i); [|rewrite Rabs_R0; exact B0]. destruct (rs_moves _ _ _ _ _ _ _ _ _ _ _ _ _ _ _ _ _ _ _ _ _ _) as [[[[[th d'] ?] ?] ?]|]; [apply Hb|rewrite Rabs_R0; exact B0]. }
  refine (Hc k (fun i => match nth_error pp i with Some x => renew x G | None => 0 end) B _ Bk _ _).
  - intros i [Hi _]. apply in_seq in Hi. unfold k. destruct (nth_error pp i) as [x|] eqn:Ex; [|apply nth_error_None in Ex; lia].
    destruct (Hpp x (nth_error_In _ _ Ex)) as (P1 & P2). apply (Tends_eq _ outs p _ (renew (fst x, snd x) G)); [destruct x; reflexivity|].
    apply (moves_tend q (map snd pp) i (fst x) (snd x) g G B Hk) with (k := S m); try assumption; [cbn [q p_rows]; rewrite nth_error_map, Ex; reflexivity|rewrite nth_error_map, Ex; reflexivity| |discriminate].
    intros d. apply Ht. cbn [fst]. exact (in_map fst _ _ (nth_error_In _ _ Ex)).
  - rewrite <- total_scale. rewrite (total_seq_combine pp _ (fun ix => / INR (length pp) * renew (snd ix) G)) by (intros i x Hi; cbn beta; rewrite Hi; reflexivity).
    f_equal. clear. assert (E : forall (l : list (Theta * num)) o c, map (fun x => c * renew x G) l = map (fun ix : nat * (Theta * num) => c * renew (snd ix) G) (combine (seq o (length l)) l)) by (induction l as [|x l IH]; intros o c; [reflexivity|]; cbn [length seq combine map snd]; rewrite (IH (S o)); reflexivity). apply E.
Qed.
(** C92 (a worker): it chooses a retained particle at random and returns its parameters; the distance is that of the last move proposed from it, if accepted, else the particle's own.  The number of moves does not matter. *)
Theorem C92_worker : forall pp w Rn seed cur F B, (0 < Rn)%Z -> (forall x, In x pp -> good x) -> kernel_is (mkpop (map fst pp) w) -> chooses (length pp) -> (forall x, Rabs (F x) <= B) ->
  Tends outs p (fun f l => match accept (fun _ => l) eps Rn (Some (mkpop (map fst pp) w)) (Some (map snd pp)) f seed cur with Ok (th, d, _, _, _) => F (th, d) | Err _ => 0 end)
    (/ INR (length pp) * total (map (fun x => renew x F) pp)).
Proof. intros pp w Rn seed cur F B HR Hpp Hk Hc HF. apply (worker_tend pp w Rn seed cur (fun x _ => F x) F B HR Hpp Hk Hc); [intros; apply HF|]. intros. apply Tends_const, dlaw. Qed.

Section Batch.
Variable pp : list (Theta * num).
Variable w : list num.
Variable Rn : Z.
Hypothesis R_pos : (0 < Rn)%Z.
Hypothesis pp_some : pp <> [].
Hypothesis pp_good : forall x, In x pp -> good x.
Hypothesis pp_kernel : kernel_is (mkpop (map fst pp) w).
Hypothesis pp_choice : chooses (length pp).
Notation one mk f := (fun sd c => match accept mk eps Rn (Some (mkpop (map fst pp) w)) (Some (map snd pp)) f sd c with Err e => Err e | Ok (th, d, ix, cnt, c') => Ok ((th, d, ix, cnt), c') end).
Notation work f := (fun l c => match accept (fun _ => l) eps Rn (Some (mkpop (map fst pp) w)) (Some (map snd pp)) f 0%Z c with Err e => Err e | Ok (th, d, ix, cnt, c') => Ok ((th, d, ix, cnt), c') end).
Lemma accept_cur mk f sd c th d ix cnt c' : accept mk eps Rn (Some (mkpop (map fst pp) w)) (Some (map snd pp)) f sd c = Ok (th, d, ix, cnt, c') -> c' = th.
Proof.
  unfold rs_accept. destruct (choiceU _ _) as [[r0 i]|]; [|discriminate]. destruct (nth_error _ i) as [theta|]; [|discriminate].
  assert (G : forall k c r d0 acc n0, moves (mkpop (map fst pp) w) (map snd pp) i theta f k c r d0 acc n0 = Ok (th, d, ix, cnt, c') -> c' = th); [|apply G].
  induction k as [|k IH]; intros c0 r d0 acc n0; cbn [rs_moves]; [intros [= <- _ _ _ <-]; reflexivity|].
  destruct (propose _ _ _ _ _ _ _ _ _ _ _) as [[[c1 r1] th']|]; [|discriminate]. destruct (simc c1 r1) as [r2 [y|]]; [|discriminate]. destruct (pdf_of_prior _ _ _ _ _) as [? ?]. destruct (pdf_of_prior _ _ _ _ _) as [? ?].
  destruct (nlt _ _); [destruct (bern _ _) as [[r3 [|]]|]; [apply IH| |discriminate]|]; (destruct (nth_error _ i); [apply IH|discriminate]).
Qed.
Lemma workers_tend F B : (forall l, Rabs (F l) <= B) -> forall m now cur e, 0 < e -> exists K, forall k, (K <= k)%nat ->
  Rabs (gens outs p m k (fun ls => match mapT (work (S k)) ls cur with Ok (xs, _) => F (now ++ map (fun x => fst (fst x)) xs) | Err _ => 0 end) - renewals pp m F now) < e.
Proof.
  intros HF. assert (B0 : 0 <= B) by (apply Rle_trans with (Rabs (F [])); [apply Rabs_pos|apply HF]).
  induction m as [|m IH]; intros now cur e He.
  - exists 0%nat. intros k _. cbn [gens mapT S_Renew.renewals map]. rewrite app_nil_r, Rminus_diag_eq by reflexivity. rewrite Rabs_R0. exact He.
  - set (g := fun (x : Theta * num) (f : nat) => gens outs p m (pred f) (fun ls => match mapT (work f) ls (fst x) with Ok (xs, _) => F ((now ++ [x]) ++ map (fun x => fst (fst x)) xs) | Err _ => 0 end)).
    pose proof (worker_tend pp w Rn 0%Z cur g (fun x' => renewals pp m F (now ++ [x'])) B R_pos pp_good pp_kernel pp_choice) as T.
    destruct T with (e := e) as (K & HK).
    + intros x f. unfold g. apply gens_bound; [exact dlaw|]. intros ls. destruct (mapT _ ls _) as [[xs ?]|]; [apply HF|rewrite Rabs_R0; exact B0].
    + intros x _. apply (Tends_later A outs p dlaw (fun f => g x f)). intros e2 He2.
      destruct (IH (now ++ [x]) (fst x) e2 He2) as (K & HK). exists K. intros k Hk. unfold g. cbn [pred]. apply HK, Hk.
    + exact He.
    + exists K. intros k Hk. specialize (HK k (S k) ltac:(lia)). cbn [gens S_Renew.renewals].
      match goal with |- Rabs (?a - _) < _ => match type of HK with Rabs (?b - _) < _ => replace a with b; [exact HK|] end end.
      apply mean_ext. intros l _. cbn [mapT]. destruct (accept (fun _ => l) _ _ _ _ _ _ _) as [[[[[th d] ix] cnt] c]|] eqn:Ea.
      * apply accept_cur in Ea. subst c. unfold g. cbn [pred fst]. apply gens_ext. intros ls _. destruct (mapT _ ls th) as [[xs ?]|]; [cbn [map fst]; rewrite <- app_assoc; reflexivity|reflexivity].
      * clear - dlaw. induction m as [|m IH]; [reflexivity|]. cbn [gens]. rewrite <- IH. symmetry. apply mean_const, dlaw.
Qed.

Notation step mk := (rs_step Theta (list A) Y setp pdfv kupd kpdf prior simc dist dist_max mk (fun l => l) choiceU bern newR).
(** the state before an iteration after the first: the retained particles in order of distance *)
Definition rstate_is (s : rstate Theta) (m : nat) : Prop :=
  q_acc Theta s = Some (map fst pp, map snd pp) /\ q_mgr Theta s = Some (mkpop (map fst pp) w) /\ q_R Theta s = Rn /\ q_rep Theta s = m /\ last (map snd pp) NaN = eps.
(** F of the last population, as parameters and distances *)
Definition seen (F : list (Theta * num) -> R) (r : res (rstate Theta)) : R :=
  match r with Ok s => match rev (q_hist Theta s) with x :: _ => F (combine (r_rows x) (r_ds x)) | [] => 0 end | Err _ => 0 end.
Lemma mapT_one mk f l : forall c, mapT (fun sd => one mk f sd) l c = mapT (fun z => work f (mk z)) l c.
Proof. induction l as [|z l IH]; intros c; [reflexivity|]. cbn [mapT]. change (accept mk eps Rn (Some (mkpop (map fst pp) w)) (Some (map snd pp)) f z c) with (accept (fun _ => mk z) eps Rn (Some (mkpop (map fst pp) w)) (Some (map snd pp)) f 0%Z c).
  destruct (accept (fun _ => mk z) _ _ _ _ _ _ _) as [[[[[th d] ix] cnt] c']|]; [|reflexivity]. rewrite IH. reflexivity. Qed.
Lemma step_seen mk steps e0 ef full fuel t seed s m F : rstate_is s m -> (0 < m)%nat -> nlt eps ef = false ->
  seen F (step mk (length pp + m) m steps e0 ef full fuel (S t) seed s) =
  match mapT (fun z => work fuel (mk z)) (seeds_of seed m) (q_cur Theta s) with Ok (xs, _) => F (pp ++ map (fun x => fst (fst x)) xs) | Err _ => 0 end.
Proof.
  intros (S1 & S2 & S3 & S4 & S5) Hm He. unfold rs_step. rewrite S1, S2, S3, S4. destruct (rev (map snd pp)) as [|e kds0] eqn:Er.
  { apply (f_equal (@rev num)) in Er. rewrite rev_involutive in Er. destruct pp; [congruence|discriminate]. }
  destruct (last_rev _ _ _ NaN Er) as [Hl _]. rewrite S5 in Hl. subst e. rewrite He. rewrite mapT_one.
  destruct (mapT _ (seeds_of seed m) (q_cur Theta s)) as [[xs c]|] eqn:Em; [|reflexivity]. pose proof (mapT_ok _ _ _ _ _ Em) as HF.
  assert (L : length xs = m) by (apply F2_len in HF; unfold seeds_of in HF; rewrite map_length, seq_length in HF; congruence).
  destruct xs as [|x0 xs'] eqn:Exs; [cbn in L; lia|]. rewrite <- Exs in *. clear Exs x0 xs'. rewrite map_length, L.
  destruct (Nat.eqb_spec m (length pp + m)) as [E|_]; [destruct pp; [congruence|cbn in E; lia]|]. replace (Rn =? 0)%Z with false by (symmetry; apply Z.eqb_neq; lia).
  match goal with |- seen F (match ?X with Ok _ => _ | Err _ => _ end) = _ => assert (EX : exists z, X = Ok z) by (destruct (_ || _)%bool; [eexists; reflexivity|apply newR_ok]); destruct EX as (z & ->) end.
  replace (length pp + m - m)%nat with (length pp) by lia.
  match goal with |- seen F (match ?X with [] => _ | _ :: _ => _ end) = _ => destruct X as [|y ys] eqn:Ef end.
  { apply (f_equal (@length _)) in Ef. rewrite firstn_length, (Permutation_length (ksort_perm _)), combine_length, !app_length, !map_length in Ef. cbn in Ef. destruct pp; [congruence|cbn in Ef; lia]. }
  unfold seen. cbn [q_hist]. rewrite rev_app_distr. cbn [rev app r_rows r_ds]. f_equal.
  assert (C : forall (a : list (Theta * num)) (b : list (Theta * num * nat * nat)), combine (map fst a ++ map (fun x => fst (fst (fst x))) b) (map snd a ++ map (fun x => snd (fst (fst x))) b) = a ++ map (fun x => fst (fst x)) b).
  { clear. induction a as [|[u v] a IH]; intros b; [|cbn [map app combine fst snd]; rewrite IH; reflexivity]. cbn [map app]. induction b as [|[[[u v] x] y] b IH]; [reflexivity|]. cbn [map combine fst snd]. rewrite IH. reflexivity. }
  apply C.
Qed.
(** C92 (an iteration): the retained particles, and as many as were thrown away that come from retained ones chosen at random *)
Theorem C92_iteration : forall steps e0 ef full t s m F B, rstate_is s m -> (0 < m)%nat -> nlt eps ef = false -> (forall l, Rabs (F l) <= B) ->
  forall e, 0 < e -> exists K, forall k, (K <= k)%nat ->
  Rabs (gens outs p m k (fun ls => seen F (step (fun z => nth (Z.to_nat z) ls []) (length pp + m) m steps e0 ef full (S k) (S t) Z.of_nat s)) - renewals pp m F pp) < e.
Proof.
  intros steps e0 ef full t s m F B Hs Hm Hef HF e He. destruct (workers_tend F B HF m pp (q_cur Theta s) e He) as (K & HK). exists K. intros k Hk. specialize (HK k Hk).
  match goal with |- Rabs (?a - _) < _ => match type of HK with Rabs (?b - _) < _ => replace a with b; [exact HK|] end end.
  apply gens_ext. intros ls Hl. rewrite (step_seen _ steps e0 ef full (S k) t Z.of_nat s m F Hs Hm Hef). rewrite <- Hl. rewrite <- (seeds_gens A ls) at 1. rewrite L_Anneal.mapT_map. reflexivity.
Qed.

(** ** The parameters of a recorded population *)
Notation avg l := (S_Stats.average l).
Lemma renew_fst x (h : Theta -> R) : 0 < inner (fst x) -> renew x (fun x' => h (fst x')) = h (fst x).
Proof. intros H. transitivity (renew x (fun _ => h (fst x))); [reflexivity|apply renew_const, H]. Qed.
(** any function of the new particles' parameters: they are m retained ones, chosen at random *)
Lemma renewals_params (H : list Theta -> R) m : forall now, renewals pp m (fun l => H (map fst l)) now = mean pp (fun _ => / INR (length pp)) m (fun xs => H (map fst now ++ map fst xs)).
Proof.
  revert H. induction m as [|m IH]; intros H now; cbn [S_Renew.renewals mean map]; [rewrite app_nil_r; reflexivity|]. unfold expect. rewrite <- total_scale. apply total_ext. intros x Hx. f_equal.
  transitivity (renew x (fun x' => (fun th => mean pp (fun _ => / INR (length pp)) m (fun xs => H ((map fst now ++ [th]) ++ map fst xs))) (fst x'))).
  - unfold S_Renew.renew. cbv zeta. apply total_ext. intros th' _. f_equal. apply total_ext. intros y _. rewrite !IH, !map_app. reflexivity.
  - rewrite (renew_fst x (fun th => mean pp (fun _ => / INR (length pp)) m (fun xs => H ((map fst now ++ [th]) ++ map fst xs)))) by apply (pp_good x Hx). apply mean_ext. intros l _. rewrite <- app_assoc. reflexivity.
Qed.
Lemma pp_law : Law pp (fun _ => / INR (length pp)).
Proof.
  assert (Hn : 0 < INR (length pp)) by (apply lt_0_INR; destruct pp; [congruence|cbn; lia]). split; [intros; left; apply Rinv_0_lt_compat, Hn|].
  rewrite (total_ext _ (fun _ => / INR (length pp) * 1)) by (intros; ring). rewrite total_scale. replace (total (map (fun _ : Theta * num => 1) pp)) with (INR (length pp)); [apply Rinv_l; lra|]. clear. induction pp as [|x l IH]; [reflexivity|]. cbn [map length]. rewrite total_cons, <- IH, S_INR. ring.
Qed.
Notation size m := (INR (length pp + m)).
(** a population's average of f *)
Definition avg_of (f : Theta -> R) (l : list (Theta * num)) : R := S_Stats.average (map f (map fst l)).
Lemma avg_bound f B l : (forall th, Rabs (f th) <= B) -> Rabs (avg_of f l) <= B.
Proof.
  intros Hf. unfold avg_of, S_Stats.average. rewrite !map_length. assert (H : Rabs (total (map f (map fst l))) <= INR (length l) * B).
  { induction l as [|x l IH]; [unfold total; cbn; rewrite Rabs_R0; lra|]. cbn [map length]. rewrite total_cons, S_INR. eapply Rle_trans; [apply Rabs_triang|]. specialize (Hf (fst x)). lra. }
  destruct l as [|x l]; [cbn [map length]; unfold total; cbn [fold_right INR]; unfold Rdiv; rewrite Rmult_0_l, Rabs_R0; destruct (nonempty pp pp_some) as (x0 & _); apply Rle_trans with (Rabs (f (fst x0))); [apply Rabs_pos|apply Hf]|].
  set (n := length (x :: l)) in *. assert (Hn : 0 < INR n) by (apply lt_0_INR; unfold n; cbn; lia). unfold Rdiv. rewrite Rabs_mult, (Rabs_right (/ INR n)) by (apply Rle_ge, Rlt_le, Rinv_0_lt_compat, Hn).
  apply Rmult_le_reg_r with (INR n); [exact Hn|]. rewrite Rmult_assoc, Rinv_l, Rmult_1_r by lra. lra.
Qed.
Lemma avg_join f m (xs : list (Theta * num)) : length xs = m ->
  S_Stats.average (map f (map fst pp ++ map fst xs)) = avg_of f pp + / size m * total (map (fun x => f (fst x) - avg_of f pp) xs).
Proof.
  intros L. assert (H1 : 0 < INR (length pp)) by (apply lt_0_INR; destruct pp; [congruence|cbn; lia]). assert (H2 : 0 <= INR m) by apply pos_INR.
  rewrite (total_minus xs (fun x => f (fst x)) (fun _ => avg_of f pp)), total_const_map, L. unfold avg_of, S_Stats.average. rewrite !map_length, app_length, !map_length, L, map_app, total_app, !map_map, plus_INR. field. lra.
Qed.
(** C92 (parameters): those of the recorded population are the retained ones and m of them chosen at random with repetition *)
Theorem C92_params : forall steps e0 ef full t s m (F : list Theta -> R) B, rstate_is s m -> (0 < m)%nat -> nlt eps ef = false -> (forall l, Rabs (F l) <= B) ->
  forall e, 0 < e -> exists K, forall k, (K <= k)%nat ->
  Rabs (gens outs p m k (fun ls => seen (fun l => F (map fst l)) (step (fun z => nth (Z.to_nat z) ls []) (length pp + m) m steps e0 ef full (S k) (S t) Z.of_nat s))
    - mean pp (fun _ => / INR (length pp)) m (fun xs => F (map fst pp ++ map fst xs))) < e.
Proof. intros. rewrite <- renewals_params. apply C92_iteration with (B := B); try assumption. intros l. apply H2. Qed.
(** C92 (averages): an iteration keeps the retained average on average, and adds noise of variance m / n^2 times that of f among the retained particles *)
Theorem C92_average : forall steps e0 ef full t s m (f : Theta -> R) B, rstate_is s m -> (0 < m)%nat -> nlt eps ef = false -> (forall th, Rabs (f th) <= B) ->
  forall e, 0 < e -> exists K, forall k, (K <= k)%nat ->
  let E F := gens outs p m k (fun ls => seen F (step (fun z => nth (Z.to_nat z) ls []) (length pp + m) m steps e0 ef full (S k) (S t) Z.of_nat s)) in
  Rabs (E (avg_of f) - avg_of f pp) < e /\
  Rabs (E (fun l => (avg_of f l - avg_of f pp) ^ 2) - INR m / size m ^ 2 * variance pp (fun _ => / INR (length pp)) (fun x => f (fst x))) < e.
Proof.
  intros steps e0 ef full t s m f B Hs Hm Hef Hf e He. pose proof pp_law as PL. assert (H1 : 0 < INR (length pp)) by (apply lt_0_INR; destruct pp; [congruence|cbn; lia]). assert (H2 : 0 <= INR m) by apply pos_INR.
  assert (EA : expect pp (fun _ => / INR (length pp)) (fun x => f (fst x)) = avg_of f pp) by (unfold expect, avg_of, S_Stats.average; rewrite !map_length, total_scale, map_map; unfold Rdiv; ring).
  assert (EZ : expect pp (fun _ => / INR (length pp)) (fun x => f (fst x) - avg_of f pp) = 0) by (rewrite <- EA; apply (centre _ pp _ PL)).
  destruct (C92_params steps e0 ef full t s m (fun l => S_Stats.average (map f l)) B Hs Hm Hef) with (e := e) as (K1 & HK1); [intros l; pose proof (avg_bound f B (map (fun th => (th, eps)) l) Hf) as X; unfold avg_of in X; rewrite !map_map in X; cbn [fst] in X; exact X|exact He|].
  destruct (C92_params steps e0 ef full t s m (fun l => (S_Stats.average (map f l) - avg_of f pp) ^ 2) ((2 * B) ^ 2) Hs Hm Hef) with (e := e) as (K2 & HK2); [|exact He|].
  { intros l. pose proof (avg_bound f B (map (fun th => (th, eps)) l) Hf) as X. unfold avg_of at 1 in X. rewrite !map_map in X. change (Rabs (S_Stats.average (map f l)) <= B) in X. pose proof (avg_bound f B pp Hf) as X2. rewrite <- RPow_abs. apply pow_incr. split; [apply Rabs_pos|].
    unfold Rminus. eapply Rle_trans; [apply Rabs_triang|]. rewrite Rabs_Ropp. lra. }
  exists (max K1 K2). intros k Hk. cbv zeta. specialize (HK1 k ltac:(lia)). specialize (HK2 k ltac:(lia)). split.
  - match type of HK1 with Rabs (_ - ?y) < _ => replace y with (avg_of f pp) in HK1; [exact HK1|] end.
    rewrite (mean_ext _ _ _ _ _ (fun xs => avg_of f pp + / size m * total (map (fun x => f (fst x) - avg_of f pp) xs))) by (intros xs L; apply avg_join, L).
    rewrite mean_plus, mean_scale, (mean_const _ pp _ PL), (mean_sum _ pp _ PL _ EZ). ring.
  - match type of HK2 with Rabs (_ - ?y) < _ => match goal with |- Rabs (_ - ?z) < _ => replace z with y; [exact HK2|] end end.
    rewrite (mean_ext _ _ _ _ _ (fun xs => (/ size m) ^ 2 * total (map (fun x => f (fst x) - avg_of f pp) xs) ^ 2)) by (intros xs L; rewrite (avg_join f m xs L); ring).
    rewrite mean_scale, (mean_square _ pp _ PL _ EZ). unfold variance. rewrite EA. assert (0 < size m) by (rewrite plus_INR; lra). field. lra.
Qed.
End Batch.
End Renewal.
Print Assumptions C92_worker.
Print Assumptions C92_iteration.
Print Assumptions C92_params.
Print Assumptions C92_average.

(** ** How many different parameters are left *)
Section Shrink.
Variables Theta Rng Y : Type.
Variable setp : Theta -> Theta -> bool * Theta.
Variable pdfv : Theta -> Theta -> num.
Variable kupd : pop Theta -> nat -> Rng -> Rng * Theta.
Variable kpdf : pop Theta -> Theta -> Theta -> num.
Variable prior : Rng -> Rng * Theta.
Variable simc : Theta -> Rng -> Rng * option Y.
Variable dist : Y -> num.
Variable dist_max : num.
Variable mkrng : Z -> Rng.
Variable reseed : Rng -> Rng.
Variable choiceU : nat -> Rng -> res (Rng * nat).
Variable bern : num -> Rng -> res (Rng * bool).
Variable newR : Q -> res Z.
Notation rs_sample := (rs_sample Theta Rng Y setp pdfv kupd kpdf prior simc dist dist_max mkrng reseed choiceU bern newR).
Notation RRun := (RRun setp pdfv kupd kpdf simc dist bern).
(** all rows of r2 are among m rows of r1 *)
Definition shrunk (m : nat) (r1 r2 : rec Theta) : Prop := exists base, length base = m /\ (forall th, In th base -> In th (r_rows r1)) /\ (forall th, In th (r_rows r2) -> In th base).
Lemma rrun_shrinks n k krows kds count es rs : RRun n k krows kds count es rs -> length krows = length kds -> (forall r th c, In r rs -> In th (r_rows r) -> snd (setp th c) = th) ->
  forall t t' r1 r2, (t < t')%nat -> nth_error rs t = Some r1 -> nth_error rs t' = Some r2 -> shrunk (n - k) r1 r2.
Proof.
  induction 1 as [krows kds count | krows kds count R eps nrows nds r krows' kds' es rs A1 A2 A3 A4 A5 A6 A7 Z1 Z2 A8 HR' IH]; intros Hl Hst t t' r1 r2 Ht H1 H2; [destruct t; discriminate|].
  assert (Hlr : length (r_rows r) = length (r_ds r)). { rewrite A5, A6, !app_length. pose proof (F2_len _ _ _ A4). lia. }
  assert (L' : length krows' = length kds') by (destruct A8 as (? & ? & _); congruence).
  destruct t' as [|t']; [lia|]. cbn [nth_error] in H2. destruct t as [|t].
  - cbn [nth_error] in H1. injection H1 as <-. exists krows'. split; [apply A8|]. pose proof (proj1 (closest_in Theta _ _ _ _ _ Hlr A8)) as HI. split; [exact HI|]. intros th Hth.
    apply (rrun_stuck Theta Rng Y setp pdfv kupd kpdf simc dist bern _ _ _ _ _ _ _ krows' HR' L' (fun _ H => H)) with (r := r2); [|exact (nth_error_In _ _ H2)|exact Hth].
    intros th0 c H0. apply (Hst r); [left; reflexivity|apply HI, H0].
  - apply (IH L') with (t := t) (t' := t'); [|lia|exact H1|exact H2]. intros r0 th c Hr. apply (Hst r0). right. exact Hr.
Qed.
(** C92 (different parameters): with k = round(n alpha), all parameter vectors of an iteration are among n - k of any earlier one, although n are recorded, with equal weights *)
Theorem C92_shrinks : set_ok setp -> (forall p z, (0 < p)%Q -> (p < 1)%Q -> newR p = Ok z -> (0 <= z)%Z) ->
  forall steps n alpha e0 ef full fuel seed dists0 cur0 count0 s, (0 < steps)%nat ->
  rs_sample steps n alpha e0 ef full None fuel seed None dists0 cur0 count0 = Ok s ->
  (forall r th c, In r (q_hist Theta s) -> In th (r_rows r) -> setp th c = (true, th)) ->
  let k := Z.to_nat (pyround (inject_Z (Z.of_nat n) * alpha)) in
  forall t t' r1 r2, (t < t')%nat -> nth_error (q_hist Theta s) t = Some r1 -> nth_error (q_hist Theta s) t' = Some r2 ->
  shrunk (n - k) r1 r2 /\ length (r_rows r2) = n /\ r_w r2 = repeat (ndiv (Fin 1) (Fin (inject_Z (Z.of_nat n)))) n.
Proof.
  intros Hset HR steps n alpha e0 ef full fuel seed dists0 cur0 count0 s Hs H Hst k t t' r1 r2 Ht H1 H2.
  destruct (C20_run Theta Rng Y setp pdfv kupd kpdf prior simc dist dist_max mkrng reseed choiceU bern newR Hset HR _ _ _ _ _ _ _ _ _ _ _ _ Hs H) as [Hk (r & krows & kds & es & rs & A1 & A2 & A3 & A4 & A5 & _ & A6 & A7 & _)]. fold k in A4, A5, Hk. rewrite A7 in *.
  destruct t' as [|t']; [lia|]. cbn [nth_error] in H2. pose proof (F2_len _ _ _ A2) as Hlr. assert (Lk : length krows = length kds) by (destruct A4 as (? & ? & _); congruence). split.
  - destruct t as [|t].
    + cbn [nth_error] in H1. injection H1 as <-. exists krows. split; [apply A4|]. pose proof (proj1 (closest_in Theta _ _ _ _ _ Hlr A4)) as HI. split; [exact HI|]. intros th Hth.
      apply (rrun_stuck Theta Rng Y setp pdfv kupd kpdf simc dist bern _ _ _ _ _ _ _ krows A5 Lk (fun _ H => H)) with (r := r2); [|exact (nth_error_In _ _ H2)|exact Hth].
      intros th0 c H0. rewrite (Hst r th0 c (or_introl eq_refl) (HI _ H0)). reflexivity.
    + cbn [nth_error] in H1. apply (rrun_shrinks n k krows kds _ es rs A5 Lk) with (t := t) (t' := t'); [|lia|exact H1|exact H2]. intros r0 th c Hr0 Hth. rewrite (Hst r0 th c (or_intror Hr0) Hth). reflexivity.
  - assert (K : length krows = (n - k)%nat) by apply A4. clear - A5 H2 K Hk. revert t' H2 K. induction A5 as [krows kds count | krows kds count R eps nrows nds r0 krows' kds' es rs B1 B2 B3 B4 B5 B6 B7 Z1 Z2 B8 HR' IH]; intros t' H2 K; [destruct t'; discriminate|].
    destruct t' as [|t']; [cbn [nth_error] in H2; injection H2 as <-; split; [rewrite B5, app_length; lia|exact B7]|]. apply (IH t' H2). apply B8.
Qed.
End Shrink.
Print Assumptions C92_shrinks.
Example C92_shrinks_case : exists s r1 r2, xrs 3 4 (1 # 2) (Fin 5) (Fin 0) 1 None 30 xseed None None 0%Q 0 = Ok s /\ nth_error (q_hist Q s) 0 = Some r1 /\ nth_error (q_hist Q s) 2 = Some r2 /\
  map Qred (r_rows r1) = [2; 4; 0; 1]%Q /\ map Qred (r_rows r2) = [0; 1; 0; 0]%Q /\ (forall r th c, In r (q_hist Q s) -> In th (r_rows r) -> P_PMCABC.xset th c = (true, th)).
Proof.
  do 3 eexists. split; [vm_compute; reflexivity|]. split; [reflexivity|]. split; [reflexivity|]. split; [vm_compute; reflexivity|]. split; [vm_compute; reflexivity|].
  intros r th c [<-|[<-|[<-|[]]]] H; cbn in H; intuition (subst; reflexivity).
Qed.

(** Cases: the parameters 0 and 1 give data of distance 0 and 1; a move proposes each with probability 1/2; the retained particles are one of each. *)
Module Two.
Import Pair.
Definition prop (_ a : nat) : nat := if bit a then 0%nat else 1%nat.
Definition pp : list (nat * num) := [(0%nat, Fin 0); (1%nat, Fin 1)].
Definition w : list num := [Fin (1 # 2); Fin (1 # 2)].
Definition s0 : rstate nat := mkrst nat [Fin 5] 3 1 (Some (map fst pp, map snd pp)) (Some (mkpop (map fst pp) w)) None 3 0%nat [] [].
Definition step1 (ls : list (list nat)) (k : nat) : res (rstate nat) :=
  rs_step nat (list nat) nat setp pdfv (kupd prop) (fun _ x y => Fin (kern prop x y)) prior simc dist PInf (fun z => nth (Z.to_nat z) ls []) (fun l => l) choiceU bern (fun _ => Ok 2%Z) 3 1 2 (Fin 5) (Fin 0) 1 (S k) 1 Z.of_nat s0.
Lemma prop_in th a : In (prop th a) [0; 1; 2]%nat.
Proof. unfold prop. destruct (bit a); cbn; auto. Qed.
Lemma pi_nonneg th : (0 <= pi th)%Q.
Proof. destruct th as [|[|th]]; discriminate. Qed.
Lemma kern_values : forall th, kern prop th 0%nat = (1 # 2)%Q /\ kern prop th 1%nat = (1 # 2)%Q /\ kern prop th 2%nat = 0%Q.
Proof. intros th. split; [reflexivity|split; reflexivity]. Qed.
Lemma kern_pos th x : (0 <= kern prop th x)%Q.
Proof. unfold kern. rewrite Qred_correct. induction outs as [|a l IH]; cbn [fold_right]; [discriminate|]. destruct (_ =? _)%nat; [|exact IH]. apply Qle_trans with (0 + 0)%Q; [discriminate|]. apply Qplus_le_compat; [discriminate|exact IH]. Qed.
Notation h := (1 / 2).
Lemma half : Q2R (1 # 2) = h. Proof. unfold Q2R. cbn. lra. Qed.
Lemma inner_one th : inner nat (kern prop) (filter (inside nat pi) [0; 1; 2]%nat) th = 1.
Proof. unfold inner. change (filter (inside nat pi) [0; 1; 2]%nat) with [0; 1]%nat. cbn [map]. destruct (kern_values th) as (-> & -> & _). rewrite !total_cons. change (total []) with 0. rewrite half. lra. Qed.
Lemma law_of F B : (forall l, Rabs (F l) <= B) -> forall e, 0 < e -> exists K, forall k, (K <= k)%nat ->
  Rabs (gens outs p 1 k (fun ls => seen nat F (step1 ls k)) - renewals nat nat pi (kern prop) lik (closer nat dist (Fin 1)) dist (filter (inside nat pi) [0; 1; 2]%nat) [0; 1]%nat pp 1 F pp) < e.
Proof.
  intros HF. refine (fun e He => C92_iteration nat nat nat outs p law setp pdfv (kupd prop) (fun _ x y => Fin (kern prop x y)) prior simc dist PInf choiceU bern (fun _ => Ok 2%Z) (Fin 1) pi (kern prop) [0; 1; 2]%nat [0; 1]%nat lik
    (fun _ _ => eq_refl) (fun _ _ => eq_refl) pi_nonneg (kern_law prop prop_in) kern_pos data_law (fun th _ => sims th) (fun v Hv => flip_gives nat outs p law bit fair v Hv) (fun x => ex_intro _ 2%Z eq_refl)
    pp w 3%Z eq_refl _ _ _ chooses2 2 (Fin 5) (Fin 0) 1 0 s0 1 F B _ (le_n 1) eq_refl HF e He).
  - discriminate.
  - intros x Hx. unfold good. rewrite inner_one. split; [|lra]. clear - Hx. cbn in Hx. change (filter (inside nat pi) [0; 1; 2]%nat) with [0; 1]%nat. cbn. destruct Hx as [<-|[<-|[]]]; cbn; auto.
  - split; [apply (kernels prop prop_in)|reflexivity].
  - repeat split.
Qed.
(** an instance of C92_average: one particle in three is new *)
Example average_case : forall e, 0 < e -> exists K, forall k, (K <= k)%nat ->
  let f th := if (th =? 1)%nat then 1 else 0 in let E F := gens Pair.outs Pair.p 1 k (fun ls => seen nat F (Two.step1 ls k)) in
  Rabs (E (avg_of nat f) - 1 / 2) < e /\ Rabs (E (fun l => (avg_of nat f l - 1 / 2) ^ 2) - 1 / 36) < e.
Proof.
  assert (H : forall e, 0 < e -> exists K, forall k, (K <= k)%nat -> let f := fun th : nat => if (th =? 1)%nat then 1 else 0 in let E F := gens Pair.outs Pair.p 1 k (fun ls => seen nat F (Two.step1 ls k)) in
    Rabs (E (avg_of nat f) - avg_of nat f Two.pp) < e /\ Rabs (E (fun l => (avg_of nat f l - avg_of nat f Two.pp) ^ 2) - INR 1 / (INR (length Two.pp) + INR 1) ^ 2 * variance Two.pp (fun _ => / INR (length Two.pp)) (fun x => f (fst x))) < e).
  {
  intros e He. refine (C92_average nat nat nat outs p law setp pdfv (kupd prop) (fun _ x y => Fin (kern prop x y)) prior simc dist PInf choiceU bern (fun _ => Ok 2%Z) (Fin 1) pi (kern prop) [0; 1; 2]%nat [0; 1]%nat lik
    (fun _ _ => eq_refl) (fun _ _ => eq_refl) pi_nonneg (kern_law prop prop_in) kern_pos data_law (fun th _ => sims th) (fun v Hv => flip_gives nat outs p law bit fair v Hv) (fun x => ex_intro _ 2%Z eq_refl)
    pp w 3%Z eq_refl _ _ _ chooses2 2 (Fin 5) (Fin 0) 1 0 s0 1 (fun th => if (th =? 1)%nat then 1 else 0) 1 _ (le_n 1) eq_refl _ e He).
  - discriminate.
  - intros x Hx. unfold good. rewrite inner_one. split; [|lra]. clear - Hx. cbn in Hx. change (filter (inside nat pi) [0; 1; 2]%nat) with [0; 1]%nat. cbn. destruct Hx as [<-|[<-|[]]]; cbn; auto.
  - split; [apply (kernels prop prop_in)|reflexivity].
  - repeat split.
  - intros th. cbn beta. destruct (_ =? _)%nat; [rewrite Rabs_R1|rewrite Rabs_R0]; lra.
  }
  assert (EA : avg_of nat (fun th : nat => if (th =? 1)%nat then 1 else 0) Two.pp = 1 / 2) by (unfold avg_of, S_Stats.average, Two.pp, total; cbn; lra).
  assert (EV : INR 1 / (INR (length Two.pp) + INR 1) ^ 2 * variance Two.pp (fun _ => / INR (length Two.pp)) (fun x => if (fst x =? 1)%nat then 1 else 0) = 1 / 36) by (unfold variance, expect, Two.pp, total; cbn; field).
  intros e He. destruct (H e He) as (K & HK). exists K. intros k Hk. specialize (HK k Hk). cbv zeta in *. rewrite EA in HK. rewrite EV in HK. exact HK.
Qed.
End Two.
(** C92 (parameters with distances of others): a particle that simulations never bring closer than 1 is recorded with distance 0 with a probability that tends to 1/4 *)
Theorem C92_distance_refuted : exists x : nat * num, fst x = 1%nat /\ snd x = Fin 0 /\ (forall l l' y, Pair.simc (fst x) l = (l', Some y) -> Pair.dist y = Fin 1) /\
  forall e, 0 < e -> exists K, forall k, (K <= k)%nat ->
  Rabs (gens Pair.outs Pair.p 1 k (fun ls => seen nat (fun l => match nth 2 l x with (1%nat, Fin q) => if Qeq_bool q 0 then 1 else 0 | _ => 0 end) (Two.step1 ls k)) - 1 / 4) < e.
Proof.
  exists (1%nat, Fin 0). split; [reflexivity|]. split; [reflexivity|]. split; [intros [|a l] l' y; cbn; [discriminate|]; intros [= _ <-]; reflexivity|]. intros e He.
  set (F := fun l : list (nat * num) => match nth 2 l (1%nat, Fin 0) with (1%nat, Fin q) => if Qeq_bool q 0 then 1 else 0 | _ => 0 end).
  destruct (Two.law_of F 1) with (e := e) as (K & HK); [|exact He|].
  - intros l. unfold F. destruct (nth 2 l _) as [[|[|n]] [q| | |]]; try (rewrite Rabs_R0; lra). destruct (Qeq_bool q 0); [rewrite Rabs_R1|rewrite Rabs_R0]; lra.
  - exists K. intros k Hk. specialize (HK k Hk). match type of HK with Rabs (_ - ?y) < _ => replace y with (1 / 4) in HK; [exact HK|] end.
    cbn [renewals]. unfold renew. cbv zeta. change (filter (inside nat Pair.pi) [0; 1; 2]%nat) with [0; 1]%nat. unfold Two.pp. cbn [map length fst snd app].
    assert (I : forall th, inner nat (Pair.kern Two.prop) [0; 1]%nat th = 1) by exact Two.inner_one. rewrite !I. rewrite !total_cons. change (total []) with 0.
    repeat match goal with |- context [Pair.kern Two.prop ?a ?b] => change (Pair.kern Two.prop a b) with (1 # 2)%Q end. rewrite !Two.half.
    change (closer nat Pair.dist (Fin 1) 0%nat) with true. change (closer nat Pair.dist (Fin 1) 1%nat) with false. cbn iota.
    unfold F. cbn [nth]. change (Pair.dist 0%nat) with (Fin 0). change (Pair.dist 1%nat) with (Fin 1). cbn iota. change (Qeq_bool 0 0) with true. change (Qeq_bool 1 0) with false. cbn iota.
    unfold ratio. repeat match goal with |- context [Pair.kern Two.prop ?a ?b] => change (Pair.kern Two.prop a b) with (1 # 2)%Q end. unfold Pair.pi. rewrite !Two.half. replace (1 / 2 / (1 / 2)) with 1 by field. rewrite Rmult_1_l, Rmin_left by lra.
    unfold Pair.lik. cbn. lra.
Qed.
Print Assumptions C92_distance_refuted.
