(** The law of the workers of SABC (C83). *)
From Coq Require Import Reals Lra Lia Qreals.
From Verif Require Import M_Base M_Num L_Num M_Infer L_Infer M_PMCABC S_PMCABC L_PMCABC M_RSMCABC L_RSMCABC M_SMCABC L_SMCABC M_SABC S_SABC L_SABC M_XReal M_Stats L_PMC S_Stats L_Stats L_Distance L_PosDef L_Histogram S_Law P_Law L_Law P_Law3 P_Law4 S_Gen L_Gen L_Series L_Hits L_Coin S_Chain S_Anneal.
Open Scope R_scope.

Section Limits.
Variable A : Type.
Variable outs : list A.
Variable p : A -> R.
Hypothesis dlaw : Law outs p.
(** a quantity of the number of draws, for the generators of other workers *)
Lemma Tends_later (h : nat -> R) v : (forall e, 0 < e -> exists K, forall k, (K <= k)%nat -> Rabs (h (S k) - v) < e) -> Tends outs p (fun f _ => h f) v.
Proof. intros H e He. destruct (H e He) as (K & HK). exists K. intros k f Hk. rewrite (mean_const _ _ _ dlaw). destruct f as [|f]; [lia|]. apply HK. lia. Qed.
(** a test that succeeds with probability r, and what follows *)
Lemma Tends_test (t : list A -> bool) r (g h : nat -> R) x y B : 0 <= r <= 1 -> Tends outs p (fun _ l => if t l then 1 else 0) r -> (forall f, Rabs (g f) <= B) -> (forall f, Rabs (h f) <= B) ->
  Tends outs p (fun f _ => g f) x -> Tends outs p (fun f _ => h f) y -> Tends outs p (fun f l => if t l then g f else h f) (r * x + (1 - r) * y).
Proof.
  intros Hr Ht Bg Bh Hg Hh e He. assert (B0 : 0 <= B) by (apply Rle_trans with (Rabs (g 0%nat)); [apply Rabs_pos|apply Bg]).
  destruct (Ht (e / (8 * (B + 1)))) as (K1 & H1); [apply Rdiv_lt_0_compat; lra|]. destruct (Hg (e / 4)) as (K2 & H2); [lra|]. destruct (Hh (e / 4)) as (K3 & H3); [lra|].
  exists (max K1 (max K2 K3)). intros k f Hk. specialize (H1 k f ltac:(lia)). specialize (H2 k f ltac:(lia)). specialize (H3 k f ltac:(lia)). rewrite (mean_const _ _ _ dlaw) in H2, H3.
  replace (mean outs p k (fun l => if t l then g f else h f)) with ((g f - h f) * mean outs p k (fun l => if t l then 1 else 0) + h f).
  2:{ transitivity (mean outs p k (fun l => (g f - h f) * (if t l then 1 else 0)) + mean outs p k (fun _ => h f)); [rewrite mean_scale, (mean_const _ _ _ dlaw); reflexivity|]. rewrite <- mean_plus. apply mean_ext. intros l _. destruct (t l); ring. }
  set (m := mean outs p k (fun l => if t l then 1 else 0)) in *.
  replace ((g f - h f) * m + h f - (r * x + (1 - r) * y)) with ((g f - h f) * (m - r) + (r * (g f - x) + (1 - r) * (h f - y))) by ring.
  eapply Rle_lt_trans; [apply Rabs_triang|]. assert (P1 : Rabs ((g f - h f) * (m - r)) <= e / 4).
  { rewrite Rabs_mult. assert (D : Rabs (g f - h f) <= 2 * (B + 1)) by (unfold Rminus; eapply Rle_trans; [apply Rabs_triang|]; rewrite Rabs_Ropp; specialize (Bg f); specialize (Bh f); lra).
    apply Rle_trans with (2 * (B + 1) * (e / (8 * (B + 1)))); [apply Rmult_le_compat; try apply Rabs_pos; [exact D|apply Rlt_le, H1]|]. right. field. lra. }
  assert (P2 : Rabs (r * (g f - x) + (1 - r) * (h f - y)) <= e / 4).
  { eapply Rle_trans; [apply Rabs_triang|]. rewrite !Rabs_mult, (Rabs_right r), (Rabs_right (1 - r)) by lra.
    apply Rle_trans with (r * (e / 4) + (1 - r) * (e / 4)); [apply Rplus_le_compat; apply Rmult_le_compat_l; lra|lra]. }
  lra.
Qed.
Lemma gens_ext m k F G : (forall ls, length ls = m -> F ls = G ls) -> gens outs p m k F = gens outs p m k G.
Proof. revert F G. induction m as [|m IH]; intros F G H; cbn [gens]; [apply H; reflexivity|]. apply mean_ext. intros l _. apply IH. intros ls Hl. apply H. cbn. lia. Qed.
Lemma gens_bound m k F B : (forall ls, Rabs (F ls) <= B) -> Rabs (gens outs p m k F) <= B.
Proof.
  revert F. induction m as [|m IH]; intros F H; cbn [gens]; [apply H|]. rewrite <- (mean_const _ outs p dlaw k B). apply mean_abs; [exact dlaw|]. intros l _. apply IH. intros ls. apply H.
Qed.
End Limits.

Section Workers.
Variables A Theta Y : Type.
Variable outs : list A.
Variable p : A -> R.
Hypothesis dlaw : Law outs p.
Variable setp : Theta -> Theta -> bool * Theta.
Variable pdfv : Theta -> Theta -> num.
Variable kupd : pop Theta -> nat -> list A -> list A * Theta.
Variable prior : list A -> list A * Theta.
Variable simc : Theta -> list A -> list A * option Y.
Variable dist : Y -> num.
Variable choiceU : nat -> list A -> res (list A * nat).
Variable bern : num -> list A -> res (list A * bool).
Variable rand : list A -> list A * num.
Variable nexp : num -> num.
Variable fsolve : num -> num.
Variable eps : num.
Variable all : list num.
Variable pi : Theta -> Q.
Variable kern : Theta -> Theta -> Q.
Variable W : num -> R.
Variable pts : list Theta.
Variable datas : list Y.
Variable lik : Theta -> Y -> R.
Hypothesis set_all : forall th cur, setp th cur = (true, th).
Hypothesis density : forall th cur, pdfv th cur = Fin (pi th).
Hypothesis density_nonneg : forall th, (0 <= pi th)%Q.
Notation Ts := (filter (inside Theta pi) pts).
Hypothesis kern_law : forall th, Law pts (fun x => Q2R (kern th x)).
Hypothesis data_law : forall th, Law datas (lik th).
Definition simulated (th : Theta) (_ : nat) (l : list A) : res (list A * Y) := match simc th l with (l', Some y) => Ok (l', y) | (_, None) => Err TypeError end.
Hypothesis sim_law : forall th, In th Ts -> Produces outs p (simulated th) datas (lik th).
Hypothesis all_some : all <> [].
Hypothesis W_pos : forall d, In d (map dist datas) -> 0 < W d.
Hypothesis exp_law : forall d d', In d (map dist datas) -> In d' (map dist datas) -> exists z, nexp (ndiv (nsub (smooth all d) (smooth all d')) eps) = Fin z /\ Q2R z = W d' / W d.
Hypothesis rand_law : forall v, (0 <= v)%Q -> Tends outs p (fun _ l => if nlt (snd (rand l)) (Fin v) then 1 else 0) (Rmin 1 (Q2R v)).
Notation inner := (inner Theta kern Ts).
Notation keep := (keep Theta pi W).
Notation attempt := (attempt Theta Y pi kern lik dist W Ts datas).
Notation batch := (batch Theta Y pi kern lik dist W Ts datas).
Notation member := (member Theta Y pi kern lik dist W Ts datas).
Notation weigh := (weigh Theta Y pi lik dist W Ts datas).
Notation accept mk := (sa_accept Theta (list A) Y setp pdfv kupd prior simc dist mk (fun l => l) choiceU bern rand nexp).
Notation wres := (wres Theta).
Notation w_th := (w_th Theta).
Notation w_d := (w_d Theta).
Notation w_i := (w_i Theta).
Notation w_acc := (w_acc Theta).
(** a member of a population: parameters inside the prior and the distance of a data set *)
Definition proper (x : Theta * num) : Prop := In (fst x) Ts /\ 0 < inner (fst x) /\ In (snd x) (map dist datas).
(** the kernels perturb member i of the population by [kern]; an index is chosen at random *)
Definition perturbs (q : pop Theta) : Prop := forall i th, nth_error (p_rows q) i = Some th -> Produces outs p (fun _ l => Ok (kupd q i l)) pts (fun x => Q2R (kern th x)).
Definition chooses (n : nat) : Prop := Produces outs p (fun _ l => choiceU n l) (seq 0 n) (fun _ => / INR n).

Lemma Ts_in th : In th Ts -> In th pts /\ ~ (pi th == 0)%Q.
Proof. intros H. apply filter_In in H. destruct H as [H1 H2]. split; [exact H1|]. intros X. unfold inside in H2. apply Qeq_bool_iff in X. rewrite X in H2. discriminate. Qed.
Lemma prior_pos th : In th Ts -> 0 < Q2R (pi th).
Proof. intros H. apply Ts_in in H. destruct H as [_ H]. apply Q2R_pos. specialize (density_nonneg th). apply Qle_lteq in density_nonneg. destruct density_nonneg as [X|X]; [exact X|]. exfalso. apply H. symmetry. exact X. Qed.
Lemma inner_within th : within Theta pi pts (fun x => Q2R (kern th x)) = inner th.
Proof. unfold within, S_Chain.inner, chance, expect. clear. induction pts as [|x l IH]; [reflexivity|]. cbn [map filter]. rewrite total_cons, IH. destruct (inside Theta pi x); cbn [map]; [rewrite total_cons; ring|ring]. Qed.
Lemma inner_sum th : 0 < inner th -> total (map (fun th' => Q2R (kern th th') / inner th) Ts) = 1.
Proof. intros H. rewrite (total_ext _ (fun x => / inner th * Q2R (kern th x))) by (intros; unfold Rdiv; ring). rewrite total_scale. fold (inner th). apply Rinv_l. lra. Qed.
Lemma keep_range x x' : In (fst x) Ts -> In (fst x') Ts -> In (snd x) (map dist datas) -> In (snd x') (map dist datas) -> 0 <= keep x x' <= 1.
Proof.
  intros H H' D D'. unfold S_Anneal.keep. split; [|apply Rmin_l]. apply Rmin_glb; [lra|]. pose proof (prior_pos _ H). pose proof (prior_pos _ H'). pose proof (W_pos _ D). pose proof (W_pos _ D').
  apply Rmult_le_pos; apply Rmult_le_pos; try lra; apply Rlt_le, Rinv_0_lt_compat; lra.
Qed.
Lemma keep_value x x' : In (fst x) Ts -> In (fst x') Ts -> In (snd x) (map dist datas) -> In (snd x') (map dist datas) ->
  exists v, nmul (ndiv (Fin (pi (fst x'))) (Fin (pi (fst x)))) (nexp (ndiv (nsub (smooth all (snd x)) (smooth all (snd x'))) eps)) = Fin v /\ Rmin 1 (Q2R v) = keep x x' /\ (0 <= v)%Q.
Proof.
  intros H H' D D'. destruct (exp_law _ _ D D') as (z & Ez & Hz). rewrite Ez. pose proof (proj2 (Ts_in _ H)) as P0. rewrite ndiv_fin by exact P0. cbn [nmul]. eexists. split; [reflexivity|].
  assert (V : Q2R (pi (fst x') / pi (fst x) * z) = Q2R (pi (fst x')) / Q2R (pi (fst x)) * (W (snd x') / W (snd x))) by (rewrite Q2R_mult, Q2R_div, Hz by exact P0; reflexivity).
  split; [unfold S_Anneal.keep; rewrite V; reflexivity|]. apply Rle_Qle. rewrite V. replace (Q2R 0) with 0 by (unfold Q2R; cbn; lra).
  pose proof (prior_pos _ H). pose proof (prior_pos _ H'). pose proof (W_pos _ D). pose proof (W_pos _ D'). apply Rmult_le_pos; apply Rmult_le_pos; try lra; apply Rlt_le, Rinv_0_lt_compat; lra.
Qed.
Lemma nth_combine_seq {X} (l : list X) : forall o i x, In (i, x) (combine (seq o (length l)) l) <-> (o <= i)%nat /\ nth_error l (i - o) = Some x.
Proof.
  induction l as [|a l IH]; intros o i x; cbn [length seq combine In]; [split; [intros []|intros [_ H]; destruct (i - o)%nat; discriminate]|]. rewrite IH. split.
  - intros [E|[H1 H2]]; [injection E as <- <-; rewrite Nat.sub_diag; split; [lia|reflexivity]|]. split; [lia|]. replace (i - o)%nat with (S (i - S o)) by lia. exact H2.
  - intros [H1 H2]. destruct (Nat.eq_dec i o) as [->|N]; [left; rewrite Nat.sub_diag in H2; cbn in H2; injection H2 as ->; reflexivity|]. right. split; [lia|]. replace (i - o)%nat with (S (i - S o)) in H2 by lia. exact H2.
Qed.
Lemma total_seq_combine {X} (l : list X) (f : nat -> R) (g : nat * X -> R) : (forall i x, nth_error l i = Some x -> f i = g (i, x)) -> total (map f (seq 0 (length l))) = total (map g (combine (seq 0 (length l)) l)).
Proof.
  assert (G : forall l o, (forall i x, nth_error l i = Some x -> f (o + i)%nat = g ((o + i)%nat, x)) -> total (map f (seq o (length l))) = total (map g (combine (seq o (length l)) l))).
  { clear l. induction l as [|a l IH]; intros o H; [reflexivity|]. cbn [length seq combine map]. rewrite !total_cons. f_equal; [specialize (H 0%nat a eq_refl); rewrite Nat.add_0_r in H; exact H|]. apply IH.
    intros i x Hi. specialize (H (S i) x Hi). rewrite <- Nat.add_succ_comm in H. exact H. }
  intros H. apply (G l 0%nat). exact H.
Qed.

(** what a worker returns: the index, whether the proposal was accepted, the proposal, the number of simulations *)
Definition answer (i : nat) (b : bool) (x : Theta * num) : wres := mkw Theta (fst x) (if b then snd x else PInf) [] i b 1.
Lemma worker_tends pp w seed cur (g : wres -> Theta -> nat -> R) (G : nat -> bool -> Theta * num -> R) B :
  pp <> [] -> (forall x, In x pp -> proper x) -> perturbs (mkpop (map fst pp) w) -> chooses (length pp) -> (forall x c f, Rabs (g x c f) <= B) ->
  (forall i x b x', nth_error pp i = Some x -> In (fst x') Ts -> In (snd x') (map dist datas) -> Tends outs p (fun f _ => g (answer i b x') (fst x) f) (G i b x')) ->
  Tends outs p (fun f l => match accept (fun _ => l) (length pp) eps (Some (mkpop (map fst pp) w)) (Some all) (map (smooth all) (map snd pp)) f seed cur with Ok (x, c) => g x c f | Err _ => 0 end)
    (/ INR (length pp) * total (map (fun ix => attempt (snd ix) (G (fst ix))) (combine (seq 0 (length pp)) pp))).
Proof.
  intros Hne Hpp Hk Hc Hb Ht. set (q := mkpop (map fst pp) w) in *.
  assert (B0 : 0 <= B) by (destruct pp as [|x0 pp']; [congruence|]; apply Rle_trans with (Rabs (g (answer 0 true x0) (fst x0) 0%nat)); [apply Rabs_pos|apply Hb]).
  set (k := fun i f l => match nth_error pp i with
    | None => 0
    | Some x => after (propose1 A Theta (pop Theta) setp pdfv kupd q i cur) (fun z => after (simulated (fst z)) (fun y f l =>
        if nlt (snd (rand l)) (nmul (ndiv (Fin (pi (snd z))) (Fin (pi (fst x)))) (nexp (ndiv (nsub (smooth all (snd x)) (smooth all (dist y))) eps))) then g (answer i true (snd z, dist y)) (fst x) f else g (answer i false (snd z, dist y)) (fst x) f)) f l
    end).
  apply (Tends_ext _ outs p (after (fun _ l => choiceU (length pp) l) k)).
  { intros f l _. unfold sa_accept, after at 1. destruct (choiceU (length pp) l) as [[r0 i]|]; [|reflexivity]. unfold k. change (p_rows q) with (map fst pp). rewrite !nth_error_map. destruct (nth_error pp i) as [x|]; [|reflexivity]. cbn [option_map].
    unfold after at 1, propose1. destruct (propose _ _ _ _ _ _ _ _ _ _ _) as [[[c1 r1] th']|]; [|reflexivity]. cbn [fst snd]. unfold after, simulated. destruct (simc c1 r1) as [r2 [y|]]; [|reflexivity]. destruct all as [|a0 all'] eqn:Ea; [congruence|].
    unfold pdf_of_prior. rewrite !set_all, !density. cbn [snd]. destruct (rand r2) as [r3 u]. cbn [snd]. destruct (nlt u _); reflexivity. }
  assert (Bk : forall i f l, Rabs (k i f l) <= B).
  { intros i f l. unfold k. destruct (nth_error pp i); [|rewrite Rabs_R0; exact B0]. apply after_bound; [exact B0|]. intros z f2 l2. apply after_bound; [exact B0|]. intros y f3 l3. destruct (nlt _ _); apply Hb. }
  refine (Hc k (fun i => match nth_error pp i with Some x => attempt x (G i) | None => 0 end) B _ Bk _ _).
  - intros i [Hi _]. apply in_seq in Hi. unfold k. destruct (nth_error pp i) as [x|] eqn:Ex; [|apply nth_error_None in Ex; lia].
    destruct (Hpp x (nth_error_In _ _ Ex)) as (P1 & P2 & P3). pose proof (Hk i (fst x) ltac:(cbn [q p_rows]; rewrite nth_error_map, Ex; reflexivity)) as Hkx.
    refine (propose_gives A Theta (pop Theta) outs p dlaw setp pdfv kupd q i pi pts (fun z => Q2R (kern (fst x) z)) (kern_law (fst x)) set_all density Hkx _ cur _
      (fun z => total (map (fun y => lik (snd z) y * (keep x (snd z, dist y) * G i true (snd z, dist y) + (1 - keep x (snd z, dist y)) * G i false (snd z, dist y))) datas)) B _ _ _ _).
    + rewrite inner_within. exact P2.
    + intros z f l. apply after_bound; [exact B0|]. intros y f3 l3. destruct (nlt _ _); apply Hb.
    + intros [c th'] (Ec & H' & _). cbn [fst snd] in *. subst c.
      refine (sim_law th' H' _ (fun y => keep x (th', dist y) * G i true (th', dist y) + (1 - keep x (th', dist y)) * G i false (th', dist y)) B _ _ _ eq_refl); [intros y f3 l3; destruct (nlt _ _); apply Hb|].
      intros y [Hy _]. pose proof (in_map dist _ _ Hy) as Hd. destruct (keep_value x (th', dist y) P1 H' P3 Hd) as (v & Ev & Hv & V0). cbn [fst snd] in Ev. rewrite Ev.
      assert (T : Tends outs p (fun f l => if nlt (snd (rand l)) (Fin v) then g (answer i true (th', dist y)) (fst x) f else g (answer i false (th', dist y)) (fst x) f)
        (keep x (th', dist y) * G i true (th', dist y) + (1 - keep x (th', dist y)) * G i false (th', dist y))); [|exact T].
      rewrite <- Hv. apply (Tends_test A outs p dlaw (fun l => nlt (snd (rand l)) (Fin v)) _ (fun f => g (answer i true (th', dist y)) (fst x) f) (fun f => g (answer i false (th', dist y)) (fst x) f) _ _ B).
      * rewrite Hv. apply keep_range; assumption.
      * apply rand_law, V0.
      * intros; apply Hb.
      * intros; apply Hb.
      * apply Ht; assumption.
      * apply Ht; assumption.
    + rewrite inner_within. reflexivity.
  - rewrite <- total_scale. symmetry. apply (total_seq_combine pp). intros i x Hi. cbn beta. rewrite Hi. reflexivity.
Qed.

(** * batches of workers *)
Definition put (now : list (Theta * num)) (x : wres) : list (Theta * num) := if w_acc x then lset now (w_i x) (w_th x, w_d x) else now.
Section Batch.
Variable pp : list (Theta * num).
Variable w : list num.
Hypothesis pp_some : pp <> [].
Hypothesis pp_proper : forall x, In x pp -> proper x.
Hypothesis pp_kernel : perturbs (mkpop (map fst pp) w).
Hypothesis pp_choice : chooses (length pp).
Notation work f := (fun l cur => accept (fun _ => l) (length pp) eps (Some (mkpop (map fst pp) w)) (Some all) (map (smooth all) (map snd pp)) f 0%Z cur).
Lemma workers_tend F B : (forall l, Rabs (F l) <= B) -> forall m now cur e, 0 < e -> exists K, forall k, (K <= k)%nat ->
  Rabs (gens outs p m k (fun ls => match mapT (work (S k)) ls cur with Ok (xs, _) => F (fold_left put xs now) | Err _ => 0 end) - batch pp m F now) < e.
Proof.
  intros HF. assert (B0 : 0 <= B) by (apply Rle_trans with (Rabs (F [])); [apply Rabs_pos|apply HF]).
  induction m as [|m IH]; intros now cur e He.
  - exists 0%nat. intros k _. cbn [gens mapT S_Anneal.batch fold_left]. rewrite Rminus_diag_eq by reflexivity. rewrite Rabs_R0. exact He.
  - set (g := fun (x : wres) (c : Theta) (f : nat) => gens outs p m (pred f) (fun ls => match mapT (work f) ls c with Ok (xs, _) => F (fold_left put xs (put now x)) | Err _ => 0 end)).
    pose proof (worker_tends pp w 0%Z cur g (fun i b x' => batch pp m F (if b then lset now i x' else now)) B pp_some pp_proper pp_kernel pp_choice) as T.
    destruct T with (e := e) as (K & HK).
    + intros x c f. unfold g. apply gens_bound; [exact dlaw|]. intros ls. destruct (mapT _ ls c) as [[xs ?]|]; [apply HF|rewrite Rabs_R0; exact B0].
    + intros i x b x' Hi H1 H2. apply (Tends_later A outs p dlaw (fun f => g (answer i b x') (fst x) f)). intros e2 He2.
      assert (E : put now (answer i b x') = if b then lset now i x' else now) by (unfold put, answer; cbn; destruct b; [destruct x'|]; reflexivity).
      destruct (IH (if b then lset now i x' else now) (fst x) e2 He2) as (K & HK). exists K. intros k Hk. unfold g. cbn [pred]. rewrite E. apply HK, Hk.
    + exact He.
    + exists K. intros k Hk. specialize (HK k (S k) ltac:(lia)). cbn [gens S_Anneal.batch].
      match goal with |- Rabs (?a - _) < _ => match type of HK with Rabs (?b - _) < _ => replace a with b; [exact HK|] end end.
      apply mean_ext. intros l _. cbn [mapT]. destruct (accept (fun _ => l) _ _ _ _ _ _ _ _) as [[x c]|] eqn:Ea.
      * unfold g. cbn [pred]. apply gens_ext. intros ls _. cbn beta iota. destruct (mapT _ ls c) as [[xs ?]|]; reflexivity.
      * clear - dlaw. induction m as [|m IH]; [reflexivity|]. cbn [gens]. rewrite <- IH. symmetry. apply mean_const, dlaw.
Qed.
End Batch.

(** * iterations *)
Variables delta cutoff : num.
Variable resamp : list num -> res (list nat).
Notation step mk := (sa_step Theta (list A) Y setp pdfv kupd prior simc dist mk (fun l => l) choiceU bern rand nexp fsolve).
Notation astate := (astate Theta).
Definition seen (F : list (Theta * num) -> R) (r : res astate) : R :=
  match r with Ok s => match a_rows Theta s with Some rows => F (combine rows (a_ds Theta s)) | None => 0 end | Err _ => 0 end.
Lemma place_fold (xs : list wres) : forall pp, Forall (fun x => (w_i x < length pp)%nat) xs ->
  let taken := filter (fun ix : nat * wres => w_acc (snd ix)) (combine (map w_i xs) xs) in
  place (map fst pp) (map (fun ix => (fst ix, w_th (snd ix))) taken) = Ok (map fst (fold_left put xs pp)) /\ place (map snd pp) (map (fun ix => (fst ix, w_d (snd ix))) taken) = Ok (map snd (fold_left put xs pp)).
Proof.
  induction xs as [|x xs IH]; intros pp H; cbn [map combine filter fold_left]; [split; reflexivity|]. inversion H as [|? ? H1 H2]; subst. cbn [snd]. unfold put at 2 4. destruct (w_acc x); [|apply IH, H2].
  cbn [map place fst snd]. rewrite !map_length. apply Nat.ltb_lt in H1 as ->. apply Nat.ltb_lt in H1 || idtac.
  assert (E : forall {X} (f : Theta * num -> X) l i y, lset (map f l) i (f y) = map f (lset l i y)).
  { clear. intros X f l i y. unfold lset. rewrite map_app, firstn_map, skipn_map. destruct (skipn i l); reflexivity. }
  pose proof (E _ fst pp (w_i x) (w_th x, w_d x)) as E1. pose proof (E _ snd pp (w_i x) (w_th x, w_d x)) as E2. cbn [fst snd] in E1, E2. rewrite E1, E2. apply IH. rewrite lset_length. exact H2.
Qed.
Lemma accept_index mk pp w fuel seed cur x c : accept mk (length pp) eps (Some (mkpop (map fst pp) w)) (Some all) (map (smooth all) (map snd pp)) fuel seed cur = Ok (x, c) -> (w_i x < length pp)%nat.
Proof.
  unfold sa_accept. intros H. destruct (choiceU _ _) as [[r0 i]|]; [|discriminate]. cbn [p_rows] in H. rewrite !nth_error_map in H. destruct (nth_error pp i) as [y0|] eqn:E; [|discriminate]. cbn [option_map] in H.
  destruct (propose _ _ _ _ _ _ _ _ _ _ _) as [[[c1 r1] th']|]; [|discriminate]. destruct (simc c1 r1) as [r2 [y|]]; [|discriminate]. destruct all as [|a0 all'] eqn:Ea; [discriminate|].
  destruct (pdf_of_prior _ _ _ _ _) as [? ?]. destruct (pdf_of_prior _ _ _ _ _) as [? ?]. destruct (rand r2) as [? ?]. apply nth_error_Some_lt in E || (assert (E' : nth_error pp i <> None) by congruence; apply nth_error_Some in E').
  destruct (nlt _ _); injection H as <- _; exact E'.
Qed.
Lemma picks_ok {X} (l : list X) idx : Forall (fun i => (i < length l)%nat) idx -> exists xs, picks l idx = Ok xs /\ length xs = length idx.
Proof.
  induction 1 as [|i idx Hi _ (xs & IH & L)]; [exists []; split; reflexivity|]. cbn [picks]. destruct (nth_error l i) as [x|] eqn:E; [|apply nth_error_None in E; lia]. rewrite IH. exists (x :: xs). cbn. split; [reflexivity|lia].
Qed.
Lemma place_ok {X} (us : list (nat * X)) : forall l, Forall (fun u => (fst u < length l)%nat) us -> exists l', place l us = Ok l'.
Proof.
  induction us as [|[i x] us IH]; intros l H; [exists l; reflexivity|]. inversion H as [|? ? H1 H2]; subst. cbn [fst] in H1. cbn [place]. apply Nat.ltb_lt in H1. rewrite H1. apply IH. rewrite lset_length. exact H2.
Qed.
Definition state (pp : list (Theta * num)) (w : list num) (bds : option (list num)) (acc until count : nat) (cur : Theta) (hist recs : list (rec Theta)) (nsims : list nat) (epss : list num) (stop : bool) : astate :=
  mkast Theta (Some (map fst pp)) (map snd pp) (map (smooth all) (map snd pp)) w (Some all) bds (Some (mkpop (map fst pp) w)) eps acc until count cur hist recs nsims epss stop.
Lemma step_seen mk pp w bds acc until count cur hist recs nsims epss stop m resample full fuel t seed F : (0 < m)%nat -> (acc + m < resample)%nat ->
  seen F (step mk (length pp) m resample delta cutoff full fuel (S t) seed resamp (state pp w bds acc until count cur hist recs nsims epss stop)) =
  match mapT (accept mk (length pp) eps (Some (mkpop (map fst pp) w)) (Some all) (map (smooth all) (map snd pp)) fuel) (seeds_of seed m) cur with Ok (xs, _) => F (fold_left put xs pp) | Err _ => 0 end.
Proof.
  intros Hm Hr. unfold sa_step, state. cbn [a_all a_bds a_mgr a_eps a_sm a_cur a_count a_rows a_ds a_acc a_until a_w a_hist a_recs a_nsims a_epss].
  destruct (mapT _ (seeds_of seed m) cur) as [[xs c]|] eqn:Em; [|reflexivity]. pose proof (mapT_ok _ _ _ _ _ Em) as HF.
  assert (L : length xs = m) by (apply F2_len in HF; unfold seeds_of in HF; rewrite map_length, seq_length in HF; congruence).
  assert (HI : Forall (fun x => (w_i x < length pp)%nat) xs).
  { revert HF. clear Em. generalize (seeds_of seed m). intros sl HF. clear L. induction HF as [|z x zs xs (c0 & c1 & H) _ IH]; [apply Forall_nil|]. apply Forall_cons; [apply (accept_index mk pp w fuel z c0 x c1 H)|exact IH]. }
  destruct xs as [|x0 xs'] eqn:Exs; [cbn in L; lia|]. rewrite <- Exs in *. clear Exs x0 xs'.
  destruct (place_fold xs pp HI) as [P1 P2]. set (taken := filter (fun ix : nat * wres => w_acc (snd ix)) (combine (map w_i xs) xs)) in *. cbv zeta. fold taken. rewrite P1, P2.
  assert (HT : Forall (fun i => (i < length pp)%nat) (map fst taken)).
  { apply Forall_forall. intros i Hi. apply in_map_iff in Hi. destruct Hi as ([j x] & <- & Hj). apply filter_In in Hj. destruct Hj as [Hj _]. apply in_combine_l in Hj. apply in_map_iff in Hj. destruct Hj as (z & <- & Hz). rewrite Forall_forall in HI. exact (HI z Hz). }
  assert (LF : length (fold_left put xs pp) = length pp).
  { clear. revert pp. induction xs as [|x xs IH]; intros pp; [reflexivity|]. cbn [fold_left]. rewrite IH. unfold put. destruct (w_acc x); [apply lset_length|reflexivity]. }
  destruct (picks_ok (map snd (fold_left put xs pp)) (map fst taken)) as (dts & -> & Ld); [rewrite map_length, LF; exact HT|].
  assert (HS : exists sms, smoother dts all = Ok sms) by (unfold smoother; destruct dts; [eexists; reflexivity|]; destruct all; [congruence|]; eexists; reflexivity). destruct HS as (sms & ->).
  destruct (place_ok (combine (map fst taken) sms) (map (smooth all) (map snd pp))) as (sm & ->).
  { apply Forall_forall. intros [i y] Hi. apply in_combine_l in Hi. rewrite !map_length. rewrite Forall_forall in HT. exact (HT i Hi). }
  destruct (nlt _ cutoff); [unfold seen; cbn [a_rows a_ds]|].
  - f_equal. clear. induction (fold_left put xs pp) as [|[a b] l IH]; cbn; congruence.
  - assert (C : (length (filter w_acc xs) <= m)%nat) by (rewrite <- L; clear; induction xs as [|x xs IH]; cbn; [lia|]; destruct (w_acc x); cbn; lia).
    replace (resample <=? acc + length (filter w_acc xs))%nat with false by (symmetry; apply Nat.leb_gt; lia). cbn [andb]. unfold seen. cbn [a_rows a_ds].
    f_equal. clear. induction (fold_left put xs pp) as [|[a b] l IH]; cbn; congruence.
Qed.
Lemma mapT_map {X X' B C} (h : X' -> X) (f : X -> C -> res (B * C)) l : forall c, mapT f (map h l) c = mapT (fun x => f (h x)) l c.
Proof. induction l as [|x l IH]; intros c; [reflexivity|]. cbn [map mapT]. destruct (f (h x) c) as [[y c']|]; [|reflexivity]. rewrite IH. reflexivity. Qed.
Lemma seeds_gens (ls : list (list A)) : map (fun z => nth (Z.to_nat z) ls []) (seeds_of Z.of_nat (length ls)) = ls.
Proof.
  unfold seeds_of. rewrite map_map. rewrite (map_ext _ (fun i => nth i ls [])) by (intros i; rewrite Nat2Z.id; reflexivity).
  clear. induction ls as [|x ls IH]; [reflexivity|]. cbn [length seq map nth]. rewrite <- seq_shift, map_map. cbn [nth]. rewrite IH at 1. reflexivity.
Qed.
Lemma batch_law pp w bds acc until count cur hist recs nsims epss stop m resample full t F B : pp <> [] -> (forall x, In x pp -> proper x) -> perturbs (mkpop (map fst pp) w) -> chooses (length pp) ->
  (0 < m)%nat -> (acc + m < resample)%nat -> (forall l, Rabs (F l) <= B) -> forall e, 0 < e -> exists K, forall k, (K <= k)%nat ->
  Rabs (gens outs p m k (fun ls => seen F (step (fun z => nth (Z.to_nat z) ls []) (length pp) m resample delta cutoff full (S k) (S t) Z.of_nat resamp (state pp w bds acc until count cur hist recs nsims epss stop))) - batch pp m F pp) < e.
Proof.
  intros H1 H2 H3 H4 Hm Hr HF e He. destruct (workers_tend pp w H1 H2 H3 H4 F B HF m pp cur e He) as (K & HK). exists K. intros k Hk. specialize (HK k Hk).
  match goal with |- Rabs (?a - _) < _ => match type of HK with Rabs (?b - _) < _ => replace a with b; [exact HK|] end end.
  apply gens_ext. intros ls Hl. rewrite (step_seen _ pp w bds acc until count cur hist recs nsims epss stop m resample full (S k) t Z.of_nat F Hm Hr). rewrite <- Hl, <- (seeds_gens ls) at 1. rewrite mapT_map. reflexivity.
Qed.

(** * one member of the population *)
Lemma attempt_ext x G G' : (forall b x', In (fst x') Ts -> In (snd x') (map dist datas) -> G b x' = G' b x') -> attempt x G = attempt x G'.
Proof. intros H. apply total_ext. intros th' Ht. f_equal. apply total_ext. intros y Hy. rewrite (H true (th', dist y)), (H false (th', dist y)) by first [exact Ht|exact (in_map dist _ _ Hy)]. reflexivity. Qed.
Lemma attempt_const x c : 0 < inner (fst x) -> attempt x (fun _ _ => c) = c.
Proof.
  intros Hi. unfold S_Anneal.attempt. rewrite (total_ext _ (fun th' => c * (Q2R (kern (fst x) th') / inner (fst x)))).
  - rewrite total_scale, inner_sum by exact Hi. ring.
  - intros th' _. transitivity (Q2R (kern (fst x) th') / inner (fst x) * expect datas (lik th') (fun _ => c)); [|rewrite (expect_const _ _ _ _ (data_law th')); ring]. f_equal. apply total_ext. intros y _. ring.
Qed.
Lemma one_of {X} (l : list X) (a c : R) : forall o i, (o <= i < o + length l)%nat -> total (map (fun jx => if (fst jx =? i)%nat then a else c) (combine (seq o (length l)) l)) = a + (INR (length l) - 1) * c.
Proof.
  assert (N : forall (l : list X) o i, (i < o)%nat -> total (map (fun jx => if (fst jx =? i)%nat then a else c) (combine (seq o (length l)) l)) = INR (length l) * c).
  { clear. induction l as [|x l IH]; intros o i H; [unfold total; cbn; ring|]. cbn [length seq combine map]. rewrite total_cons, IH by lia. cbn [fst]. replace (o =? i)%nat with false by (symmetry; apply Nat.eqb_neq; lia). rewrite S_INR. ring. }
  induction l as [|x l IH]; intros o i H; [cbn in H; lia|]. cbn [length] in *. cbn [seq combine map]. rewrite total_cons. cbn [fst]. rewrite S_INR. destruct (Nat.eqb_spec o i) as [->|E]; [rewrite N by lia; ring|]. rewrite IH by lia. ring.
Qed.
Lemma lset_nth_d {X} (l : list X) i x j z : (i < length l)%nat -> nth j (lset l i x) z = if (i =? j)%nat then x else nth j l z.
Proof. intros H. pose proof (lset_nth l i x j H) as E. destruct (Nat.eqb_spec i j) as [->|N]; [apply nth_error_nth, E|]. destruct (nth_error l j) as [y|] eqn:Ey; [rewrite (nth_error_nth _ _ z E), (nth_error_nth _ _ z Ey); reflexivity|].
  rewrite !nth_overflow; [reflexivity| |]; apply nth_error_None; assumption. Qed.
Lemma batch_member pp i x f z : (forall x, In x pp -> proper x) -> nth_error pp i = Some x -> forall m now, length now = length pp -> batch pp m (fun q => f (nth i q z)) now = member (length pp) m f x (nth i now z).
Proof.
  intros Hp Hi. assert (Li : (i < length pp)%nat) by (apply nth_error_Some; congruence).
  induction m as [|m IH]; intros now Hn; [reflexivity|]. cbn [S_Anneal.batch S_Anneal.member]. set (c := member (length pp) m f x (nth i now z)).
  set (a := attempt x (fun b x' => member (length pp) m f x (if b then x' else nth i now z))).
  rewrite (total_ext _ (fun jx => if (fst jx =? i)%nat then a else c)).
  - rewrite (one_of pp a c 0 i) by lia. assert (0 < INR (length pp)) by (apply lt_0_INR; lia). field. lra.
  - intros [j y] Hj. apply (nth_combine_seq pp) in Hj. destruct Hj as [_ Hj]. rewrite Nat.sub_0_r in Hj. cbn [fst snd]. assert (Lj : (j < length pp)%nat) by (apply nth_error_Some; congruence). destruct (Nat.eqb_spec j i) as [->|N].
    + assert (y = x) as -> by congruence. apply attempt_ext. intros b x' _ _. rewrite IH by (destruct b; [rewrite lset_length|]; exact Hn). f_equal. destruct b; [|reflexivity]. rewrite lset_nth_d by lia. rewrite Nat.eqb_refl. reflexivity.
    + rewrite (attempt_ext y _ (fun _ _ => c)); [apply attempt_const, Hp, (nth_error_In _ _ Hj)|]. intros b x' _ _. rewrite IH by (destruct b; [rewrite lset_length|]; exact Hn). unfold c. f_equal. destruct b; [|reflexivity].
      rewrite lset_nth_d by lia. apply Nat.eqb_neq in N. rewrite N. reflexivity.
Qed.

(** * what one move leaves invariant *)
Hypothesis inner_pos : forall th, In th Ts -> 0 < inner th.
Lemma keep_flow x x' : In (fst x) Ts -> In (fst x') Ts -> In (snd x) (map dist datas) -> In (snd x') (map dist datas) -> Q2R (pi (fst x)) * W (snd x) * keep x x' = Q2R (pi (fst x')) * W (snd x') * keep x' x.
Proof.
  intros H H' D D'. pose proof (prior_pos _ H) as P1. pose proof (prior_pos _ H') as P2. pose proof (W_pos _ D) as K1. pose proof (W_pos _ D') as K2. unfold S_Anneal.keep.
  set (u := Q2R (pi (fst x))) in *. set (u' := Q2R (pi (fst x'))) in *. set (k := W (snd x)) in *. set (k' := W (snd x')) in *.
  rewrite !Rmin_scale by (apply Rmult_le_pos; lra). rewrite Rmin_comm. f_equal; field; lra.
Qed.
Lemma move_kept (c : Theta -> R) n f : (0 < n)%nat -> (forall th th', In th Ts -> In th' Ts -> c th * (Q2R (kern th th') / inner th) = c th' * (Q2R (kern th' th) / inner th')) ->
  weigh c (fun x => member n 1 f x x) = weigh c f.
Proof.
  intros Hn Hc. apply Rminus_diag_uniq.
  set (D := fun s s' : Theta * Y => / INR n * (Q2R (pi (fst s)) * lik (fst s) (snd s) * W (dist (snd s)) * c (fst s) * (Q2R (kern (fst s) (fst s')) / inner (fst s)) * lik (fst s') (snd s') * keep (fst s, dist (snd s)) (fst s', dist (snd s')))).
  rewrite <- (balanced (list_prod Ts datas) D (fun s => f (fst s, dist (snd s)))).
  - rewrite total_prod. unfold S_Anneal.weigh. match goal with |- total (map ?s Ts) - total (map ?t Ts) = _ => transitivity (total (map (fun th => s th + -1 * t th) Ts)); [rewrite total_plus, total_scale; ring|] end.
    apply total_ext. intros th H. match goal with |- total (map ?s datas) + -1 * total (map ?t datas) = _ => transitivity (total (map (fun y => s y + -1 * t y) datas)); [rewrite total_plus, total_scale; ring|] end.
    apply total_ext. intros y Hy. cbn [S_Anneal.member]. set (x := (th, dist y)).
    assert (E : attempt x (fun b x' => f (if b then x' else x)) = f x + total (map (fun s' => Q2R (kern th (fst s')) / inner th * lik (fst s') (snd s') * keep x (fst s', dist (snd s')) * (f (fst s', dist (snd s')) - f x)) (list_prod Ts datas))).
    { rewrite total_prod. cbn [fst snd]. transitivity (f x * total (map (fun th' => Q2R (kern th th') / inner th) Ts) + total (map (fun th' => total (map (fun b => Q2R (kern th th') / inner th * lik th' b * keep x (th', dist b) * (f (th', dist b) - f x)) datas)) Ts)); [|rewrite inner_sum by (apply inner_pos, H); ring].
      rewrite <- total_scale, <- total_plus. unfold S_Anneal.attempt. apply total_ext. intros th' _. cbn [fst]. fold x.
      transitivity (Q2R (kern th th') / inner th * (total (map (fun y' => lik th' y' * keep x (th', dist y') * (f (th', dist y') - f x)) datas) + expect datas (lik th') (fun _ => f x))).
      - f_equal. unfold expect. rewrite <- total_plus. apply total_ext. intros; ring.
      - rewrite (expect_const _ _ _ _ (data_law th')). rewrite Rmult_plus_distr_l, <- total_scale. rewrite Rplus_comm. f_equal; [ring|]. apply total_ext. intros; ring. }
    rewrite E. rewrite (total_ext (fun s' => D (th, y) s' * _) (fun s' => / INR n * (Q2R (pi th) * lik th y * W (dist y) * c th) * (Q2R (kern th (fst s')) / inner th * lik (fst s') (snd s') * keep x (fst s', dist (snd s')) * (f (fst s', dist (snd s')) - f x)))).
    + rewrite total_scale. ring.
    + intros s' _. unfold D. cbn [fst snd]. fold x. ring.
  - intros [th y] [th' y'] H H'. apply in_prod_iff in H, H'. destruct H as [H Hy], H' as [H' Hy']. unfold D. cbn [fst snd]. f_equal.
    pose proof (keep_flow (th, dist y) (th', dist y') H H' (in_map dist _ _ Hy) (in_map dist _ _ Hy')) as E. cbn [fst snd] in E. specialize (Hc th th' H H').
    transitivity (lik th y * lik th' y' * (c th * (Q2R (kern th th') / inner th)) * (Q2R (pi th) * W (dist y) * keep (th, dist y) (th', dist y'))); [ring|]. rewrite E, Hc. ring.
Qed.
Lemma symmetric_kept n f : (0 < n)%nat -> (forall th th', In th Ts -> In th' Ts -> (kern th th' == kern th' th)%Q) ->
  weigh inner (fun x => member n 1 f x x) = weigh inner f /\ (forall c, (forall th, In th Ts -> inner th = c) -> weigh (fun _ => 1) (fun x => member n 1 f x x) = weigh (fun _ => 1) f).
Proof.
  intros Hn Hs. split; [|intros c Hc]; apply move_kept; try exact Hn; intros th th' H H'; rewrite (Qeq_eqR _ _ (Hs th th' H H')); pose proof (inner_pos th H); pose proof (inner_pos th' H').
  - field. lra.
  - rewrite (Hc th H), (Hc th' H'). reflexivity.
Qed.
End Workers.

(** * the first population *)
Section First.
Variables A Theta Y : Type.
Variable outs : list A.
Variable p : A -> R.
Hypothesis dlaw : Law outs p.
Variable setp : Theta -> Theta -> bool * Theta.
Variable pdfv : Theta -> Theta -> num.
Variable kupd : pop Theta -> nat -> list A -> list A * Theta.
Variable prior : list A -> list A * Theta.
Variable simc : Theta -> list A -> list A * option Y.
Variable dist : Y -> num.
Variable choiceU : nat -> list A -> res (list A * nat).
Variable bern : num -> list A -> res (list A * bool).
Variable rand : list A -> list A * num.
Variable nexp : num -> num.
Variable eps : num.
Variable pr : Theta -> R.
Variable pts : list Theta.
Variable datas : list Y.
Variable lik : Theta -> Y -> R.
Variable ac : Y -> Q.
Hypothesis prior_law : Law pts pr /\ Produces outs p (fun _ l => Ok (prior l)) pts pr.
Hypothesis data_law : forall th, Law datas (lik th).
Hypothesis sim_law : forall th, In th pts -> Produces outs p (simulated A Theta Y simc th) datas (lik th).
Hypothesis exp_law : forall y, In y datas -> nexp (ndiv (nopp (dist y)) eps) = Fin (ac y) /\ (0 <= ac y <= 1)%Q.
Hypothesis coin : forall v, (0 <= v <= 1)%Q -> Produces outs p (fun _ l => bern (Fin v) l) [true; false] (fun b => if b then Q2R v else 1 - Q2R v).
Notation mass := (mass Theta Y pr lik ac dist pts datas).
Hypothesis mass_pos : 0 < mass (fun _ => 1).
Notation wres := (wres Theta).
Definition fstep (F : nat) (tried : list num) (l : list A) : res (list A * (list num + wres * Theta)) :=
  let '(r1, th) := prior l in
  match simulated A Theta Y simc th F r1 with Err e => Err e | Ok (r2, y) =>
  match bern (nexp (ndiv (nopp (dist y)) eps)) r2 with
  | Err e => Err e
  | Ok (r3, true) => Ok (r3, inr (mkw Theta th (dist y) (tried ++ [dist y]) 0 true (S (length tried)), th))
  | Ok (r3, false) => Ok (r3, inl (tried ++ [dist y])) end end.
Lemma prior_loop F j : forall l tried, match sa_prior Theta (list A) Y prior simc dist bern nexp eps j l tried with Ok x => Ok x | Err e => Err e end =
  match loop A (list num) (wres * Theta) fstep F j tried l with Ok (_, x) => Ok x | Err e => Err e end.
Proof.
  induction j as [|j IH]; intros l tried; cbn [sa_prior loop]; [reflexivity|]. unfold fstep at 1, simulated. destruct (prior l) as [r1 th]. destruct (simc th r1) as [r2 [y|]]; [|reflexivity].
  destruct (bern _ r2) as [[r3 [|]]|]; [reflexivity|apply IH|reflexivity].
Qed.
Lemma first_law n all sm seed cur F B : (forall x, Rabs (F x) <= B) ->
  Tends outs p (fun f l => match sa_accept Theta (list A) Y setp pdfv kupd prior simc dist (fun _ => l) (fun l => l) choiceU bern rand nexp n eps None all sm f seed cur with
     | Ok (x, _) => F (w_th Theta x, w_d Theta x) | Err _ => 0 end) (mass F / mass (fun _ => 1)).
Proof.
  intros HF. destruct prior_law as [PL PP].
  set (E := fun (tried : list num) (G : list num + wres * Theta -> R) => expect pts pr (fun th => expect datas (lik th) (fun y =>
     Q2R (ac y) * G (inr (mkw Theta th (dist y) (tried ++ [dist y]) 0 true (S (length tried)), th)) + (1 - Q2R (ac y)) * G (inl (tried ++ [dist y]))))).
  assert (HL : forall s, True -> Gives outs p (fun f l => fstep f s l) (fine (list num) (wres * Theta) (fun _ => True) (fun _ => True)) (fun G v => v = E s G)).
  { intros s _ g G Bd v Hb Ht Hv.
    set (tl := fun th y (b : bool) => if b then g (inr (mkw Theta th (dist y) (s ++ [dist y]) 0 true (S (length s)), th)) else g (inl (s ++ [dist y]))).
    assert (B0 : 0 <= Bd) by (apply Rle_trans with (Rabs (g (inl []) 0%nat [])); [apply Rabs_pos|apply Hb]).
    apply (Tends_ext _ outs p (after (fun _ l => Ok (prior l)) (fun th => after (simulated A Theta Y simc th) (fun y => after (fun _ l => bern (nexp (ndiv (nopp (dist y)) eps)) l) (tl th y))))).
    { intros f l _. unfold after, fstep. destruct (prior l) as [r1 th]. destruct (simulated _ _ _ _ _ _ _) as [[r2 y]|]; [|reflexivity]. destruct (bern _ r2) as [[r3 [|]]|]; reflexivity. }
    assert (Bt : forall th y b f l, Rabs (tl th y b f l) <= Bd) by (intros th y [|] f l; unfold tl; apply Hb).
    refine (PP _ (fun th => expect datas (lik th) (fun y => Q2R (ac y) * G (inr (mkw Theta th (dist y) (s ++ [dist y]) 0 true (S (length s)), th)) + (1 - Q2R (ac y)) * G (inl (s ++ [dist y])))) Bd v _ _ Hv).
    - intros th f l. apply after_bound; [exact B0|]. intros y f2 l2. apply after_bound; [exact B0|]. intros; apply Bt.
    - intros th [Hth _]. refine (sim_law th Hth _ (fun y => Q2R (ac y) * G (inr (mkw Theta th (dist y) (s ++ [dist y]) 0 true (S (length s)), th)) + (1 - Q2R (ac y)) * G (inl (s ++ [dist y]))) Bd _ _ _ eq_refl).
      + intros y f2 l2. apply after_bound; [exact B0|]. intros; apply Bt.
      + intros y [Hy _]. destruct (exp_law y Hy) as [-> V01].
        refine (coin (ac y) V01 _ (fun b => if b then G (inr (mkw Theta th (dist y) (s ++ [dist y]) 0 true (S (length s)), th)) else G (inl (s ++ [dist y]))) Bd _ _ _ _).
        * intros; apply Bt.
        * intros [|] _; unfold tl; apply Ht; exact I.
        * cbn [map]. rewrite !total_cons. change (total []) with 0. ring. }
  set (G := fun x : wres * Theta => F (w_th Theta (fst x), w_d Theta (fst x))).
  apply (Tends_ext _ outs p (after (fun f l => loop A _ _ fstep f f [] l) (fun x _ _ => G x))).
  { intros f l _. unfold after, sa_accept. pose proof (prior_loop f f l []) as P. destruct (loop _ _ _ _ _ _ _ _) as [[l' x]|]; destruct (sa_prior _ _ _ _ _ _ _ _ _ _ _ _) as [[x' c]|]; try discriminate; [|reflexivity]. injection P as <-. reflexivity. }
  set (Zc := mass (fun _ => 1)) in *. set (v := mass F / Zc).
  (* one iteration *)
  assert (HE : forall s (a : R) (H : R), E s (fun z => match z with inl _ => a | inr x => H * G x end) = H * mass F + (1 - Zc) * a).
  { intros s a H. unfold E. transitivity (expect pts pr (fun th => H * total (map (fun y => lik th y * Q2R (ac y) * F (th, dist y)) datas) + (a + - a * total (map (fun y => lik th y * Q2R (ac y)) datas)))).
    - apply expect_ext. intros th _. unfold G. cbn [fst w_th w_d]. rewrite <- total_scale. rewrite <- (total_scale _ (- a)). transitivity (expect datas (lik th) (fun _ => a) + (total (map (fun y => H * (lik th y * Q2R (ac y) * F (th, dist y))) datas) + total (map (fun y => - a * (lik th y * Q2R (ac y))) datas))).
      + unfold expect. rewrite <- !total_plus. apply total_ext. intros y _. ring.
      + rewrite (expect_const _ _ _ _ (data_law th)). ring.
    - rewrite expect_plus, expect_scale, expect_plus, (expect_const _ _ _ _ PL), expect_scale.
      assert (M : forall F, mass F = expect pts pr (fun th => total (map (fun y => lik th y * Q2R (ac y) * F (th, dist y)) datas))).
      { intros F0. unfold S_Anneal.mass, expect. apply total_ext. intros th _. rewrite <- total_scale. apply total_ext. intros; ring. }
      unfold Zc. rewrite !M. rewrite (expect_ext _ pts pr (fun th => total (map (fun y => lik th y * Q2R (ac y) * 1) datas)) (fun th => total (map (fun y => lik th y * Q2R (ac y)) datas))) by (intros th _; apply total_ext; intros; ring). ring. }
  assert (Z1 : Zc <= 1).
  { unfold Zc, S_Anneal.mass. apply Rle_trans with (expect pts pr (fun _ => 1)); [|rewrite (expect_const _ _ _ _ PL); lra]. unfold expect. apply total_le. intros th Hth. destruct PL as [P0 _]. specialize (P0 th Hth).
    apply Rle_trans with (pr th * expect datas (lik th) (fun _ => 1)); [|rewrite (expect_const _ _ _ _ (data_law th)); lra]. unfold expect. rewrite <- total_scale. apply total_le. intros y Hy. destruct (data_law th) as [L0 _]. specialize (L0 y Hy).
    destruct (exp_law y Hy) as [_ [_ V1]]. apply Qle_Rle in V1. replace (Q2R 1) with 1 in V1 by (unfold Q2R; cbn; lra). rewrite !Rmult_1_r. apply Rle_trans with (pr th * lik th y * 1); [apply Rmult_le_compat_l; [apply Rmult_le_pos; assumption|exact V1]|lra]. }
  assert (HB : forall N s, beyond _ _ E N s = (1 - Zc) ^ N).
  { induction N as [|N IH]; intros s; [reflexivity|]. cbn [beyond pow]. transitivity (E s (fun z => match z with inl _ => (1 - Zc) ^ N | inr x => 0 * G x end)); [|rewrite HE; ring].
    unfold E. apply expect_ext. intros th _. apply expect_ext. intros y _. rewrite IH. ring. }
  assert (HU : forall N s, upto _ _ E G N s = v + (1 - Zc) ^ N * - v).
  { induction N as [|N IH]; intros s; [cbn; ring|]. cbn [upto pow]. transitivity (E s (fun z => match z with inl _ => v + (1 - Zc) ^ N * - v | inr x => 1 * G x end)); [|rewrite HE; unfold v; field; lra].
    unfold E. apply expect_ext. intros th _. apply expect_ext. intros y _. rewrite IH. ring. }
  assert (HR : 0 <= 1 - Zc < 1) by lra.
  apply (loop_gives A outs p dlaw _ _ fstep (fun _ => True) (fun _ => True) E HL [] I) with (G := G) (B := B).
  - apply (cv_ext (fun N => (1 - Zc) ^ N)); [intros; symmetry; apply HB|apply pow_cv, HR].
  - intros x f l. apply HF.
  - intros x _. apply Tends_const, dlaw.
  - apply (cv_ext (fun N => v + (1 - Zc) ^ N * - v)); [intros; symmetry; apply HU|]. replace v with (v + 0 * - v) at 1 by ring. apply CV_plus; [apply cv_const|]. apply CV_mult; [apply pow_cv, HR|apply cv_const].
Qed.
End First.

(** * numbers in [0, 1) made of all remaining draws *)
Section Uniform.
Variable A : Type.
Variable outs : list A.
Variable p : A -> R.
Hypothesis law : Law outs p.
Variable bit : A -> bool.
Hypothesis fair : chance outs p bit = 1 / 2.
Fixpoint frac (l : list A) : Q := match l with [] => 0%Q | a :: l' => (((if bit a then 1 else 0) + frac l') / 2)%Q end.
Definition clamp (x : R) : R := Rmax 0 (Rmin 1 x).
Lemma clamp_low x : x <= 0 -> clamp x = 0.
Proof. intros H. unfold clamp. rewrite (Rmin_right 1 x) by lra. apply Rmax_left, H. Qed.
Lemma clamp_mid x : 0 <= x <= 1 -> clamp x = x.
Proof. intros H. unfold clamp. rewrite (Rmin_right 1 x) by lra. apply Rmax_right. lra. Qed.
Lemma clamp_high x : 1 <= x -> clamp x = 1.
Proof. intros H. unfold clamp. rewrite (Rmin_left 1 x) by lra. apply Rmax_right. lra. Qed.
Lemma clamp_half x : clamp x = 1 / 2 * clamp (2 * x) + 1 / 2 * clamp (2 * x - 1).
Proof.
  destruct (Rle_dec x 0) as [H|H]; [rewrite !clamp_low by lra; lra|]. destruct (Rle_dec x (1 / 2)); [rewrite (clamp_mid x), (clamp_mid (2 * x)), (clamp_low (2 * x - 1)) by lra; lra|].
  destruct (Rle_dec x 1); [rewrite (clamp_mid x), (clamp_high (2 * x)), (clamp_mid (2 * x - 1)) by lra; lra|]. rewrite !clamp_high by lra. lra.
Qed.
Lemma clamp_range x : 0 <= clamp x <= 1.
Proof. split; [apply Rmax_l|]. apply Rmax_lub; [lra|apply Rmin_l]. Qed.
Lemma frac_range l : 0 <= Q2R (frac l) < 1.
Proof.
  assert (O2 : Q2R (/ 2) = 1 / 2) by (rewrite Q2R_inv by discriminate; unfold Q2R; cbn; lra).
  induction l as [|a l IH]; cbn [frac]; [unfold Q2R; cbn; lra|]. unfold Qdiv. rewrite Q2R_mult, Q2R_plus, O2.
  destruct (bit a); [replace (Q2R 1) with 1 by (unfold Q2R; cbn; lra); lra|]. replace (Q2R 0) with 0 by (unfold Q2R; cbn; lra). lra.
Qed.
Lemma frac_out k v : Q2R v <= 0 \/ 1 <= Q2R v -> mean outs p k (fun l => if nlt (Fin (frac l)) (Fin v) then 1 else 0) = clamp (Q2R v).
Proof.
  intros [H|H].
  - rewrite clamp_low by exact H. rewrite (mean_ext _ outs p k _ (fun _ => 0)); [apply mean_const, law|]. intros l _. pose proof (frac_range l). cbn [nlt]. replace (Qle_bool v (frac l)) with true; [reflexivity|]. symmetry. apply Qle_bool_iff, Rle_Qle. lra.
  - rewrite clamp_high by exact H. rewrite (mean_ext _ outs p k _ (fun _ => 1)); [apply mean_const, law|]. intros l _. pose proof (frac_range l). cbn [nlt]. destruct (Qle_bool v (frac l)) eqn:E; [apply Qle_bool_iff, Qle_Rle in E; lra|reflexivity].
Qed.
Lemma frac_near k : forall v, Rabs (mean outs p k (fun l => if nlt (Fin (frac l)) (Fin v) then 1 else 0) - clamp (Q2R v)) <= (1 / 2) ^ k.
Proof.
  assert (O1 : Q2R 1 = 1) by (unfold Q2R; cbn; lra). assert (O2 : Q2R 2 = 2) by (unfold Q2R; cbn; lra). assert (OH : Q2R (/ 2) = 1 / 2) by (rewrite Q2R_inv by discriminate; unfold Q2R; cbn; lra).
  induction k as [|k IH]; intros v.
  - cbn [mean frac pow nlt]. pose proof (clamp_range (Q2R v)) as C.
    destruct (negb _); apply Rabs_le; lra.
  - cbn [mean]. rewrite (expect_ext _ _ _ _ (fun a => if Bool.eqb (bit a) true then mean outs p k (fun l => if nlt (Fin (frac l)) (Fin (2 * v - 1)) then 1 else 0) else mean outs p k (fun l => if nlt (Fin (frac l)) (Fin (2 * v)) then 1 else 0))).
    + rewrite (half A outs p law bit fair), clamp_half. pose proof (IH (2 * v - 1)%Q) as I1. pose proof (IH (2 * v)%Q) as I2. rewrite Q2R_minus, Q2R_mult, O1, O2 in I1. rewrite Q2R_mult, O2 in I2.
      set (a := mean outs p k (fun l => if nlt (Fin (frac l)) (Fin (2 * v - 1)) then 1 else 0)) in *. set (b := mean outs p k (fun l => if nlt (Fin (frac l)) (Fin (2 * v)) then 1 else 0)) in *.
      replace (1 / 2 * a + 1 / 2 * b - (1 / 2 * clamp (2 * Q2R v) + 1 / 2 * clamp (2 * Q2R v - 1))) with (1 / 2 * (a - clamp (2 * Q2R v - 1)) + 1 / 2 * (b - clamp (2 * Q2R v))) by ring.
      assert (X : a - clamp (2 * Q2R v - 1) = 0 \/ b - clamp (2 * Q2R v) = 0).
      { destruct (Rle_dec (1 / 2) (Q2R v)) as [H|H]; [right|left]; [pose proof (frac_out k (2 * v)%Q) as O|pose proof (frac_out k (2 * v - 1)%Q) as O]; rewrite ?Q2R_minus, ?Q2R_mult, ?O1, ?O2 in O; apply Rminus_diag_eq, O; lra. }
      change ((1 / 2) ^ S k) with (1 / 2 * (1 / 2) ^ k). destruct X as [X|X]; rewrite X; rewrite ?Rmult_0_r, ?Rplus_0_l, ?Rplus_0_r, Rabs_mult, (Rabs_right (1 / 2)) by lra; apply Rmult_le_compat_l; (lra || assumption).
    + intros a _. assert (E : forall x y z : Q, nlt (Fin ((x + y) / 2)) (Fin z) = nlt (Fin y) (Fin (2 * z - x))).
      { intros x y z. cbn [nlt]. f_equal. apply Bool.eq_iff_eq_true. rewrite !Qle_bool_iff. split; intros H; apply Rle_Qle; apply Qle_Rle in H; rewrite ?Q2R_minus, ?Q2R_mult, ?Q2R_plus, ?O2 in *; unfold Qdiv in *; rewrite ?Q2R_mult, ?Q2R_plus in *; rewrite OH in *; lra. }
      cbn [frac]. destruct (bit a); cbn [Bool.eqb]; apply mean_ext; intros l _; rewrite E; [reflexivity|]. cbn [nlt]. replace (Qle_bool (2 * v - 0) (frac l)) with (Qle_bool (2 * v) (frac l)); [reflexivity|].
      apply Bool.eq_iff_eq_true. rewrite !Qle_bool_iff. assert (Z : (2 * v - 0 == 2 * v)%Q) by ring. rewrite Z. reflexivity.
Qed.
Lemma uniform_law v : (0 <= v)%Q -> Tends outs p (fun _ l => if nlt (snd (@nil A, Fin (frac l))) (Fin v) then 1 else 0) (Rmin 1 (Q2R v)).
Proof.
  intros Hv e He. destruct (pow_cv (1 / 2) ltac:(lra) e He) as (N & HN). exists N. intros k f Hk. specialize (HN k ltac:(lia)). unfold R_dist in HN. rewrite Rminus_0_r, Rabs_right in HN by (apply Rle_ge, pow_le; lra).
  eapply Rle_lt_trans; [|exact HN]. cbn [snd]. replace (Rmin 1 (Q2R v)) with (clamp (Q2R v)); [apply frac_near|]. unfold clamp. apply Rmax_right. apply Rmin_glb; [lra|]. apply Qle_Rle in Hv. replace (Q2R 0) with 0 in Hv by (unfold Q2R; cbn; lra). exact Hv.
Qed.
End Uniform.
