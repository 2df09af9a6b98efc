(** C86 for PMCABC: averages with the weights of the last population approach an expectation, that under the ABC posterior if no kernel loses more to the outside of the prior than another. *)
From Coq Require Import Reals Lra Lia Qreals.
From Verif Require Import M_Base M_Num L_Num M_Infer L_Infer M_PMCABC M_XReal M_Stats L_PMC S_Stats L_Stats L_Distance L_PosDef L_Histogram S_Law P_Law L_Law P_Law3 P_Law4 L_Gen L_Series S_Consist L_LLN L_Workers.
Open Scope R_scope.

(** the real number in a float *)
Definition real (x : num) : R := match x with Fin v => Q2R v | _ => 0 end.
Lemma total_cv {B} (l : list B) (u : nat -> B -> R) (v : B -> R) : (forall b, In b l -> Un_cv (fun k => u k b) (v b)) -> Un_cv (fun k => total (map (u k) l)) (total (map v l)).
Proof.
  induction l as [|b l IH]; intros H; [exact (cv_const (total []))|]. apply (cv_ext (fun k => u k b + total (map (u k) l))); [intros; cbn [map]; rewrite total_cons; reflexivity|]. cbn [map]. rewrite total_cons.
  apply CV_plus; [apply H; left; reflexivity|]. apply IH. intros c Hc. apply H. right. exact Hc.
Qed.
Lemma mean_total {A B} (outs : list A) (p : A -> R) (law : Law outs p) (l : list B) k (F : B -> list A -> R) : mean outs p k (fun x => total (map (fun b => F b x) l)) = total (map (fun b => mean outs p k (F b)) l).
Proof. induction l as [|b l IH]; [exact (mean_const _ outs p law k (total []))|]. rewrite (mean_ext _ _ _ k _ (fun x => F b x + total (map (fun b => F b x) l))) by (intros; cbn [map]; apply total_cons). rewrite (mean_plus _ outs p), IH. cbn [map]. rewrite total_cons. reflexivity. Qed.
Section Population.
Variables A Theta Y : Type.
Variable teq : forall x y : Theta, {x = y} + {x <> y}.
Variable outs : list A.
Variable p : A -> R.
Hypothesis law : Law outs p.
Notation pop := (pop Theta).
Variable setp : Theta -> Theta -> bool * Theta.
Variable pdfv : Theta -> Theta -> num.
Variable kupd : pop -> nat -> list A -> list A * Theta.
Variable kpdf : pop -> Theta -> Theta -> num.
Variable prior : list A -> list A * Theta.
Variable simc : Theta -> list A -> list A * option Y.
Variable dist : Y -> num.
Variable dist_max : num.
Variable choice : nat -> list num -> list A -> res (list A * nat).
(** as for C76 *)
Variable q : pop.
Variable n : nat.
Variable eps : num.
Variable row : nat -> Theta.
Variable w : nat -> Q.
Variable kern : nat -> Theta -> Q.
Variable pi : Theta -> Q.
Variable pick : A -> nat.
Variable prop : nat -> A -> Theta.
Variable dat : Theta -> A -> Y.
Variable Ts : list Theta.
Hypothesis set_all : forall th cur, setp th cur = (true, th).
Hypothesis density : forall th cur, pdfv th cur = Fin (pi th).
Hypothesis density_nonneg : forall th, (0 <= pi th)%Q.
Hypothesis enters : nlt eps dist_max = true.
Hypothesis choice_draw : forall a l, choice n (p_w q) (a :: l) = Ok (l, pick a).
Hypothesis choice_end : exists e, choice n (p_w q) [] = Err e.
Hypothesis kupd_draw : forall i a l, kupd q i (a :: l) = (l, prop i a).
Hypothesis kupd_end : forall i, exists th, kupd q i [] = ([], th) /\ pi th = 0%Q.
Hypothesis sim_draw : forall th a l, simc th (a :: l) = (l, Some (dat th a)).
Hypothesis sim_end : forall th, simc th [] = ([], None).
Hypothesis rows_ok : p_rows q = map row (seq 0 n).
Hypothesis weights_ok : p_w q = map (fun i => Fin (w i)) (seq 0 n).
Hypothesis kpdf_ok : forall i th, (i < n)%nat -> kpdf q (row i) th = Fin (kern i th).
Hypothesis pick_range : forall a, In a outs -> (pick a < n)%nat.
Hypothesis pick_law : forall i, (i < n)%nat -> chance outs p (fun a => if Nat.eq_dec (pick a) i then true else false) = Q2R (w i).
Hypothesis prop_law : forall i th, (i < n)%nat -> chance outs p (fun a => if teq (prop i a) th then true else false) = Q2R (kern i th).
Hypothesis Ts_distinct : NoDup Ts.
Hypothesis Ts_density : forall th, In th Ts <-> ~ (pi th == 0)%Q.
Notation mass := (mass Theta kern Ts).
Notation mixture := (mixture Theta n w kern).
Notation truncated := (truncated Theta n w kern Ts).
Notation within := (within A Theta Y outs p dist eps dat).
Notation proposals := (proposals A Theta Y outs p dist n eps w kern dat Ts).
Hypothesis mass_pos : forall i, (i < n)%nat -> 0 < mass i.
Hypothesis some_accepted : 0 < proposals.
Hypothesis mixture_pos : forall th, In th Ts -> 0 < mixture th.
(** law of one new sample, and its weight before normalisation *)
Definition mu (th : Theta) : R := truncated th * within th / proposals.
Definition u (th : Theta) : R := if in_dec teq th Ts then Q2R (pi th) / mixture th else 1.

Notation worker := (worker A Theta Y setp pdfv kupd prior simc dist dist_max choice q n eps).
Notation resample_loop := (resample_loop Theta (list A) Y setp pdfv kupd prior simc dist choice).
Definition W (k : nat) (l : list A) (c : Theta) : res (Theta * Theta) := match worker k l c with Ok (t, _, _, c') => Ok (t, c') | Err e => Err e end.
Lemma propose_same f i : forall cur l cur' r t, propose Theta (list A) pop setp kupd pdfv f q i cur l = Ok (cur', r, t) -> cur' = t /\ In t Ts.
Proof.
  induction f as [|f IH]; intros cur l cur' r t H; [discriminate|]. cbn [M_Infer.propose] in H. unfold perturb in H. change 100%nat with (S 99) in H. cbn [perturb_loop] in H. destruct (kupd q i l) as [r1 x]. rewrite set_all in H. cbn [Nat.eqb] in H.
  unfold pdf_of_prior in H. rewrite set_all, density in H. cbn [snd neqb] in H. destruct (Qeq_bool (pi x) 0) eqn:E; [exact (IH _ _ _ _ _ H)|]. injection H as <- _ <-. split; [reflexivity|]. apply Ts_density. intros X. apply Qeq_bool_iff in X. congruence.
Qed.
Lemma loop_same f : forall cur r th d c t d' c' cur', (nlt eps d = true \/ (cur = th /\ In th Ts)) -> resample_loop eps n (Some q) f cur r th d c = Ok (t, d', c', cur') -> cur' = t /\ In t Ts.
Proof.
  induction f as [|f IH]; intros cur r th d c t d' c' cur' H0 H; cbn [M_PMCABC.resample_loop] in H; destruct (nlt eps d) eqn:Ed; try discriminate.
  - injection H as <- _ _ <-. destruct H0 as [H0|H0]; [discriminate|exact H0].
  - destruct (choice n (p_w q) r) as [[r1 i]|]; [|discriminate]. destruct (propose _ _ _ _ _ _ _ _ _ _ _) as [[[c1 r2] th1]|] eqn:Ep; [|discriminate]. destruct (simc c1 r2) as [r3 [y|]]; [|discriminate]. apply propose_same in Ep. exact (IH _ _ _ _ _ _ _ _ _ (or_intror Ep) H).
  - injection H as <- _ _ <-. destruct H0 as [H0|H0]; [discriminate|exact H0].
Qed.
Lemma W_same k l c t c' : W k l c = Ok (t, c') -> c' = t /\ In t Ts.
Proof. unfold W, P_Law3.worker, resample_parameter. destruct (resample_loop _ _ _ _ _ _ _ _ _) as [[[[t0 d] m] c0]|] eqn:E; [|discriminate]. intros [= <- <-]. exact (loop_same _ _ _ _ _ _ _ _ _ _ (or_introl enters) E). Qed.
Definition is (th t : Theta) : R := if teq t th then 1 else 0.
Lemma pick_out t (g : Theta -> R) : In t Ts -> total (map (fun th => is th t * g th) Ts) = g t.
Proof.
  intros Ht. rewrite (total_ext _ (fun th => if (if teq t th then true else false) then g t else 0)).
  - apply (total_single Ts (fun th => if teq t th then true else false) t (g t) Ts_distinct Ht). intros th _. destruct (teq t th) as [E|E]; split; intros X; congruence.
  - intros th _. unfold is. destruct (teq t th) as [<-|]; ring.
Qed.
Lemma worker_law c : Worker A outs p Theta Theta Theta Ts mu (fun th => (th, th)) W c.
Proof.
  intros G G' Bd Hb Hc. unfold expect.
  apply (cv_ext (fun k => total (map (fun th => mean outs p k (fun l => match W k l c with Ok (t, _) => is th t | Err _ => 0 end) * G k (th, th)) Ts))).
  - intros k. rewrite (total_ext _ (fun th => mean outs p k (fun l => match W k l c with Ok (t, _) => is th t * G k (th, th) | Err _ => 0 end))).
    + rewrite <- (mean_total outs p law). apply mean_ext. intros l _. destruct (W k l c) as [[t c']|] eqn:E; [|rewrite total_const_map; ring]. destruct (W_same _ _ _ _ _ E) as [Ec Ht]. rewrite Ec. apply (pick_out t (fun th => G k (th, th)) Ht).
    + intros th _. rewrite Rmult_comm, <- (mean_scale _ outs p). apply mean_ext. intros l _. destruct (W k l c) as [[t c']|]; ring.
  - apply total_cv. intros th Hth. apply CV_mult; [|apply Hc, Hth].
    pose proof (C76_law A Theta Y teq outs p law setp pdfv kupd prior simc dist dist_max choice q n eps w kern pi pick prop dat Ts set_all density enters choice_draw choice_end kupd_draw kupd_end sim_draw sim_end pick_range pick_law prop_law Ts_distinct Ts_density mass_pos some_accepted (is th) c ltac:(intros t; unfold is; destruct (teq t th); lra)) as L.
    rewrite (total_ext _ (fun t => is t th * (truncated t * within t))) in L by (intros t _; unfold is; destruct (teq t th) as [E1|E1]; destruct (teq th t) as [E2|E2]; try congruence; ring). rewrite (pick_out th (fun t => truncated t * within t) Hth) in L. fold (mu th) in L.
    eapply cv_ext; [|exact L]. intros k. apply mean_ext. intros l _. unfold W. destruct (worker k l c) as [[[[t d] m] c']|]; reflexivity.
Qed.
Lemma mu_law : Law Ts mu.
Proof.
  split.
  - intros th Hth. unfold mu. apply Rmult_le_pos; [apply Rmult_le_pos|apply Rlt_le, Rinv_0_lt_compat, some_accepted].
    + unfold P_Law3.truncated. apply total_nonneg, Forall_forall. intros x Hx. apply in_map_iff in Hx. destruct Hx as (i & <- & Hi). apply in_seq in Hi. rewrite <- pick_law, <- (prop_law i th) by lia.
      apply Rmult_le_pos; [apply chance_range, law|]. apply Rmult_le_pos; [apply chance_range, law|]. apply Rlt_le, Rinv_0_lt_compat, mass_pos. lia.
    + apply chance_range, law.
  - unfold mu, Rdiv. rewrite (total_ext _ (fun th => / proposals * (truncated th * within th))) by (intros; ring). rewrite total_scale. fold proposals. field. lra.
Qed.
Definition wq (th : Theta) : Q := match calculate_weight Theta setp pdfv kpdf n (Some q) th th with Ok (Fin v, _) => v | _ => 0%Q end.
Lemma weight_fin th cur : In th Ts -> exists c', calculate_weight Theta setp pdfv kpdf n (Some q) th cur = Ok (Fin (wq th), c').
Proof.
  intros Hth. unfold wq, calculate_weight, pdf_of_prior. rewrite !set_all, !density. cbn [snd].
  assert (L1 : length (p_rows q) = n) by (rewrite rows_ok, map_length, seq_length; reflexivity). assert (L2 : length (p_w q) = n) by (rewrite weights_ok, map_length, seq_length; reflexivity).
  rewrite L1, L2, Nat.ltb_irrefl, Nat.eqb_refl. cbn [negb]. destruct (denominator Theta kpdf q n row w kern rows_ok weights_ok kpdf_ok th) as (s & -> & Hs). cbn [nmul ndiv]. destruct (Qeq_bool s 0) eqn:E; [|eexists; reflexivity].
  exfalso. apply Qeq_bool_iff in E. apply Qeq_eqR in E. specialize (mixture_pos th Hth). rewrite <- Hs, E in mixture_pos. unfold Q2R in mixture_pos. cbn in mixture_pos. lra.
Qed.
Lemma wq_value th : In th Ts -> Q2R (wq th) = u th.
Proof.
  intros Hth. pose proof (weight_value Theta setp pdfv kpdf q n row w kern pi set_all density rows_ok weights_ok kpdf_ok th th) as V. unfold weight_of in V. destruct (weight_fin th th Hth) as (c' & E). rewrite E in V.
  specialize (mixture_pos th Hth). destruct (Req_EM_T (mixture th) 0); [lra|]. unfold u. destruct (in_dec teq th Ts); [exact V|contradiction].
Qed.
Lemma u_pos th : 0 < u th.
Proof.
  unfold u. destruct (in_dec teq th Ts) as [Hth|]; [|lra]. apply Rdiv_lt_0_compat; [|apply mixture_pos, Hth]. apply Ts_density in Hth. specialize (density_nonneg th). replace 0 with (Q2R 0) by (unfold Q2R; cbn; lra). apply Qlt_Rlt. apply Qle_lteq in density_nonneg. destruct density_nonneg as [H|H]; [exact H|]. symmetry in H. contradiction.
Qed.
Lemma weights_all rows : Forall (fun th => In th Ts) rows -> forall cur, exists c', mapT (calculate_weight Theta setp pdfv kpdf n (Some q)) rows cur = Ok (map (fun th => Fin (wq th)) rows, c').
Proof.
  induction 1 as [|th rows Hth _ IH]; intros cur; [eexists; reflexivity|]. cbn [mapT]. destruct (weight_fin th cur Hth) as (c1 & ->). destruct (IH c1) as (c2 & ->). eexists. reflexivity.
Qed.
Lemma normalised rows : rows <> [] -> Forall (fun th => In th Ts) rows -> exists s, 0 < s /\ map real (normalise (map (fun th => Fin (wq th)) rows)) = map (fun th => u th / s) rows.
Proof.
  intros Hne HT. unfold normalise. rewrite <- (map_map wq Fin). destruct (nsum_fin (map wq rows)) as (s & -> & Hs).
  assert (E : Q2R s = total (map u rows)).
  { rewrite (Qeq_eqR _ _ Hs). clear - HT mixture_pos set_all density rows_ok weights_ok kpdf_ok. induction HT as [|th rows Hth _ IH]; [unfold Q2R, total; cbn; lra|]. cbn [map fold_right]. rewrite total_cons, Q2R_plus, IH, (wq_value th Hth). reflexivity. }
  assert (P : 0 < Q2R s).
  { rewrite E. destruct HT as [|th rows Hth HT]; [contradiction|]. cbn [map]. rewrite total_cons. assert (0 <= total (map u rows)) by (apply total_nonneg, Forall_forall; intros x Hx; apply in_map_iff in Hx; destruct Hx as (t & <- & Ht); rewrite Forall_forall in HT; apply Rlt_le, u_pos). pose proof (u_pos th). lra. }
  exists (Q2R s). split; [exact P|]. rewrite !map_map. apply map_ext_in. intros th Hth. rewrite Forall_forall in HT. cbn [ndiv]. destruct (Qeq_bool s 0) eqn:Es; [exfalso; apply Qeq_bool_iff in Es; rewrite (Qeq_eqR _ _ Es) in P; unfold Q2R in P; cbn in P; lra|].
  cbn [real]. rewrite Q2R_div, (wq_value th (HT th Hth)); [reflexivity|]. intros X. apply Qeq_bool_iff in X. congruence.
Qed.
Lemma weighted_scale (f : Theta -> R) rows s : 0 < s -> total (map u rows) <> 0 -> weighted f rows (map (fun th => u th / s) rows) = total (map (fun th => u th * f th) rows) / total (map u rows).
Proof.
  intros Hs Hu. unfold weighted. replace (total (map (fun th => u th / s) rows)) with (total (map u rows) / s) by (unfold Rdiv; rewrite Rmult_comm, <- total_scale; apply total_ext; intros; ring).
  replace (total (map (fun rw => snd rw * f (fst rw)) (combine rows (map (fun th => u th / s) rows)))) with (total (map (fun th => u th * f th) rows) / s); [field; split; [exact Hu|lra]|].
  clear Hu. induction rows as [|th rows IH]; [unfold total; cbn; field; lra|]. cbn [map combine]. rewrite !total_cons, <- IH. cbn [fst snd]. field. lra.
Qed.

Notation state := (state Theta).
(** the last iteration, starting from the population q with threshold eps, worker i having its own k draws *)
Definition last_step (steps full : nat) (a : Q) (restarted : bool) (s : state) (k : nat) (l : list A) : res state :=
  step Theta (list A) Y setp pdfv kupd kpdf prior simc dist dist_max (fun z => chunk k (Z.to_nat z) l) (fun r => r) choice n steps a full restarted (S k) (steps - 1) (map Z.of_nat (seq 0 n)) s.
(** the average of f over the last record of the journal *)
Definition recorded (f : Theta -> R) (s : state) : option R := match rev (s_recs Theta s) with r :: _ => Some (weighted f (r_rows r) (map real (r_w r))) | [] => None end.
Lemma mapT_proj {U V V' T} (g : U -> T -> res (V * T)) (h : V -> V') l : forall c, match mapT g l c with Ok (ys, c') => Ok (map h ys, c') | Err e => Err e end = mapT (fun x c => match g x c with Ok (v, c') => Ok (h v, c') | Err e => Err e end) l c.
Proof. induction l as [|x l IH]; intros c; [reflexivity|]. cbn [mapT]. destruct (g x c) as [[v c']|]; [|reflexivity]. rewrite <- IH. destruct (mapT g l c') as [[ys c'']|]; reflexivity. Qed.
Lemma mapT_W k l : forall is_ c ys c', mapT (fun i c => W k (chunk k i l) c) is_ c = Ok (ys, c') -> Forall (fun th => In th Ts) ys /\ length ys = length is_.
Proof.
  induction is_ as [|i is_ IH]; intros c ys c' H; cbn [mapT] in H; [injection H as <- _; split; [constructor|reflexivity]|]. destruct (W k (chunk k i l) c) as [[t c1]|] eqn:E; [|discriminate]. destruct (mapT _ is_ c1) as [[zs c2]|] eqn:E2; [|discriminate]. injection H as <- _.
  destruct (IH _ _ _ E2) as [F Hl]. split; [constructor; [apply (W_same _ _ _ _ _ E)|exact F]|cbn; rewrite Hl; reflexivity].
Qed.
Lemma step_value steps full a restarted s k l (F : option R -> R) (f : Theta -> R) : (0 < n)%nat -> (0 < steps)%nat -> full = 0%nat \/ full = 1%nat ->
  nth_error (s_eps Theta s) (steps - 1) = Some (Some eps) -> s_acc Theta s = Some q ->
  match last_step steps full a restarted s k l with Ok s' => F (recorded f s') | Err _ => 0 end =
  match mapT (fun i c => W k (chunk k i l) c) (seq 0 n) (s_cur Theta s) with Ok (ys, _) => F (Some (total (map (fun th => u th * f th) ys) / total (map u ys))) | Err _ => 0 end.
Proof.
  intros Hn Hst Hf He Ha. unfold last_step, step. rewrite He, Ha.
  match goal with |- context [mapT ?g (map Z.of_nat (seq 0 n)) (s_cur Theta s)] => pose proof (mapT_proj g (fun x => fst (fst x)) (map Z.of_nat (seq 0 n)) (s_cur Theta s)) as M; destruct (mapT g (map Z.of_nat (seq 0 n)) (s_cur Theta s)) as [[rs cur1]|e0] end.
  all: rewrite (mapT_map Z.of_nat) in M; rewrite (mapT_ext _ (fun i c => W k (chunk k i l) c)) in M.
  2,4: intros i c _; unfold W, P_Law3.worker, resample_parameter; rewrite Nat2Z.id; destruct (resample_loop _ _ _ _ _ _ _ _ _) as [[[[t d] m] c0]|]; reflexivity.
  2:{ rewrite <- M. reflexivity. }
  rewrite <- M. pose proof (mapT_W _ _ _ _ _ _ (eq_sym M)) as [HT Hl]. rewrite map_length, seq_length in Hl. destruct rs as [|r0 rs]; [cbn in Hl; lia|]. set (rr := r0 :: rs) in *. set (rows := map (fun x => fst (fst x)) rr) in *.
  rewrite Nat.ltb_irrefl. destruct (weights_all rows HT cur1) as (c2 & ->).
  destruct (normalised rows ltac:(unfold rows, rr; discriminate) HT) as (z & Hz & Ez).
  assert (Hu : total (map u rows) <> 0).
  { unfold rows, rr in *. cbn [map] in *. rewrite total_cons. inversion HT as [|? ? H1 H2]; subst. assert (0 <= total (map u (map (fun x => fst (fst x)) rs))) by (apply total_nonneg, Forall_forall; intros x Hx; apply in_map_iff in Hx; destruct Hx as (t & <- & Ht); rewrite Forall_forall in H2; apply Rlt_le, u_pos). pose proof (u_pos (fst (fst r0))). lra. }
  assert (Hrec : ((full =? 1)%nat && (steps - 1 <=? steps - 1)%nat || (full =? 0)%nat && (steps - 1 =? steps - 1)%nat)%bool = true) by (rewrite Nat.leb_refl, Nat.eqb_refl; destruct Hf as [-> | ->]; reflexivity).
  rewrite Hrec. destruct (if restarted then _ else _) as [e'' cf]. unfold recorded. cbn [s_recs]. rewrite rev_app_distr. cbn [rev app r_rows r_w]. rewrite Ez, (weighted_scale f rows z Hz Hu). reflexivity.
Qed.
(** what the weighted averages approach *)
Definition limit (f : Theta -> R) : R := total (map (fun th => Q2R (pi th) * within th * (truncated th / mixture th) * f th) Ts) / total (map (fun th => Q2R (pi th) * within th * (truncated th / mixture th)) Ts).
Lemma expect_u_pos : 0 < expect Ts mu u.
Proof.
  destruct mu_law as [M1 M2]. unfold expect. destruct (Rle_lt_dec (total (map (fun th => mu th * u th) Ts)) 0) as [Z|P]; [exfalso|exact P].
  assert (Z0 : forall l, incl l Ts -> total (map (fun th => mu th * u th) l) <= 0 -> total (map mu l) = 0).
  { induction l as [|th l IH]; intros Hi Hz; [reflexivity|]. cbn [map] in *. rewrite total_cons in *. assert (X : 0 <= total (map (fun th => mu th * u th) l)) by (apply total_nonneg, Forall_forall; intros x Hx; apply in_map_iff in Hx; destruct Hx as (t & <- & Ht); apply Rmult_le_pos; [apply M1, Hi; right; exact Ht|apply Rlt_le, u_pos]).
    pose proof (M1 th (Hi th (or_introl eq_refl))) as [Y0|Y0]; [pose proof (Rmult_lt_0_compat _ _ Y0 (u_pos th)); lra|]. rewrite <- Y0 in *. rewrite IH; [lra|intros t Ht; apply Hi; right; exact Ht|lra]. }
  rewrite (Z0 Ts (incl_refl _) Z) in M2. lra.
Qed.
Lemma scaled (g : Theta -> R) : total (map (fun th => mu th * (u th * g th)) Ts) = / proposals * total (map (fun th => Q2R (pi th) * within th * (truncated th / mixture th) * g th) Ts).
Proof. rewrite <- total_scale. apply total_ext. intros th Hth. unfold mu, u. destruct (in_dec teq th Ts); [|contradiction]. specialize (mixture_pos th Hth). field. split; lra. Qed.
Lemma limit_mu f : limit f = expect Ts mu (fun th => u th * f th) / expect Ts mu u.
Proof.
  pose proof expect_u_pos as P. unfold limit. assert (E1 : expect Ts mu u = / proposals * total (map (fun th => Q2R (pi th) * within th * (truncated th / mixture th)) Ts)).
  { rewrite (total_ext (fun th => Q2R (pi th) * within th * (truncated th / mixture th)) (fun th => Q2R (pi th) * within th * (truncated th / mixture th) * 1)) by (intros; ring). rewrite <- (scaled (fun _ => 1)). unfold expect. apply total_ext. intros; ring. }
  unfold expect at 1. rewrite (scaled f). rewrite E1 in *. field. split; [lra|]. intros X. rewrite X, Rmult_0_r in P. lra.
Qed.
(** C86 (PMCABC): given the population q, as every worker gets more draws, the probability that the last iteration records a population in which the weighted average of f is more
    than e away from its limit tends to a number of order 1/n; the probability that the iteration finishes tends to 1 *)
Theorem C86_pmcabc : forall steps full a restarted s (f : Theta -> R) e, (0 < n)%nat -> (0 < steps)%nat -> full = 0%nat \/ full = 1%nat ->
  nth_error (s_eps Theta s) (steps - 1) = Some (Some eps) -> s_acc Theta s = Some q -> 0 < e ->
  let m := limit f in
  (exists v, Un_cv (fun k => prob outs p (n * k) (fun l => match last_step steps full a restarted s k l with Ok s' => match recorded f s' with Some x => far e x m | None => true end | Err _ => false end)) v
     /\ v <= 4 * (variance Ts mu u + expect Ts mu (fun th => (u th * (f th - m)) ^ 2) / e ^ 2) / (INR n * expect Ts mu u ^ 2)) /\
  Un_cv (fun k => prob outs p (n * k) (fun l => match last_step steps full a restarted s k l with Ok _ => true | Err _ => false end)) 1.
Proof.
  intros steps full a restarted s f e Hn Hst Hf He Ha Hp m. set (c := s_cur Theta s). split.
  - pose (F := fun o : option R => if match o with Some x => far e x m | None => true end then 1 else 0). pose (H := fun ys : list Theta => F (Some (total (map (fun th => u th * f th) ys) / total (map u ys)))).
    exists (prob Ts mu n (fun ys => far e (total (map (fun th => u th * f th) ys) / total (map u ys)) m)). split; [|apply (weighted_law Theta Ts mu mu_law u f n e m Hn Hp u_pos expect_u_pos (limit_mu f))].
    rewrite (prob_mean Theta Ts mu). apply (cv_ext (fun k => all_workers A outs p Theta Theta W H n k c)).
    + intros k. rewrite (prob_mean A outs p). unfold all_workers. apply mean_ext. intros l _. unfold H, c. rewrite <- (step_value steps full a restarted s k l F f Hn Hst Hf He Ha). unfold F. destruct (last_step steps full a restarted s k l) as [s'|]; [destruct (recorded f s'); reflexivity|reflexivity].
    + eapply cv_limit; [|apply (workers_law A outs p law Theta Theta Theta Ts mu (fun th => (th, th)) W worker_law n H 1 c)].
      * apply mean_ext. intros l _. unfold H, F. cbn [fst]. rewrite map_id. reflexivity.
      * intros ys. unfold H, F. destruct (far _ _ _); [rewrite Rabs_R1|rewrite Rabs_R0]; lra.
  - apply (cv_ext (fun k => all_workers A outs p Theta Theta W (fun _ => 1) n k c)).
    + intros k. rewrite (prob_mean A outs p). unfold all_workers. apply mean_ext. intros l _. unfold c. rewrite <- (step_value steps full a restarted s k l (fun _ => 1) f Hn Hst Hf He Ha). destruct (last_step steps full a restarted s k l); reflexivity.
    + eapply cv_limit; [|apply (workers_law A outs p law Theta Theta Theta Ts mu (fun th => (th, th)) W worker_law n (fun _ => 1) 1 c); intros; rewrite Rabs_R1; lra]. apply (mean_const _ Ts mu mu_law).
Qed.
(** C86 (how many samples): if the bound is below d, then the journal's average is within e of its limit with probability more than 1 - d, as soon as every worker has enough draws *)
Theorem C86_pmcabc_enough : forall steps full a restarted s (f : Theta -> R) e d, (0 < n)%nat -> (0 < steps)%nat -> full = 0%nat \/ full = 1%nat ->
  nth_error (s_eps Theta s) (steps - 1) = Some (Some eps) -> s_acc Theta s = Some q -> 0 < e ->
  4 * (variance Ts mu u + expect Ts mu (fun th => (u th * (f th - limit f)) ^ 2) / e ^ 2) / (INR n * expect Ts mu u ^ 2) < d -> exists k0, forall k, (k0 <= k)%nat ->
  prob outs p (n * k) (fun l => match last_step steps full a restarted s k l with Ok s' => match recorded f s' with Some x => negb (far e x (limit f)) | None => false end | Err _ => false end) > 1 - d.
Proof.
  intros steps full a restarted s f e d Hn Hst Hf He Ha Hp HB. destruct (C86_pmcabc steps full a restarted s f e Hn Hst Hf He Ha Hp) as ((v & Hv & Hle) & H1). set (m := limit f) in *.
  set (g := (d - v) / 2). assert (G : 0 < g) by (unfold g; lra). destruct (Hv g G) as (k1 & K1). destruct (H1 g G) as (k2 & K2). exists (max k1 k2). intros k Hk. specialize (K1 k ltac:(lia)). specialize (K2 k ltac:(lia)). unfold R_dist in *.
  apply Rabs_def2 in K1, K2.
  match goal with |- prob _ _ _ ?F > _ => set (good := F) end. match type of K1 with prob _ _ _ ?F - _ < _ /\ _ => set (bad := F) in * end. match type of K2 with prob _ _ _ ?F - _ < _ /\ _ => set (fin := F) in * end.
  assert (X : prob outs p (n * k) fin <= prob outs p (n * k) good + prob outs p (n * k) bad).
  { eapply Rle_trans; [|apply (prob_or A outs p law)]. apply (prob_le A outs p law). intros l. unfold fin, good, bad. destruct (last_step steps full a restarted s k l) as [s'|]; [|discriminate]. destruct (recorded f s') as [x|]; [destruct (far e x m)|]; reflexivity. }
  unfold g in *. lra.
Qed.
(** C86 (the limit): if every kernel has the same mass on the prior's support, the limit is the expectation under the ABC posterior *)
Theorem C86_posterior : forall mass0 (f : Theta -> R), (forall i, (i < n)%nat -> mass i = mass0) -> (0 < n)%nat ->
  limit f = total (map (fun th => Q2R (pi th) * within th * f th) Ts) / total (map (fun th => Q2R (pi th) * within th) Ts).
Proof.
  intros m0 f Hm Hn. assert (P0 : 0 < m0) by (rewrite <- (Hm 0%nat Hn); apply mass_pos, Hn).
  assert (R0 : forall th, In th Ts -> truncated th / mixture th = / m0).
  { intros th Hth. specialize (mixture_pos th Hth). unfold P_Law3.truncated. rewrite (total_ext _ (fun i => / m0 * (Q2R (w i) * Q2R (kern i th)))) by (intros i Hi; apply in_seq in Hi; rewrite Hm by lia; field; lra). rewrite total_scale. fold (mixture th). field. lra. }
  assert (D : 0 < total (map (fun th => Q2R (pi th) * within th * (truncated th / mixture th)) Ts)).
  { pose proof expect_u_pos as P. unfold expect in P. rewrite (total_ext _ (fun th => mu th * (u th * 1))) in P by (intros; ring). rewrite (scaled (fun _ => 1)) in P. rewrite (total_ext _ (fun th => Q2R (pi th) * within th * (truncated th / mixture th) * 1)) by (intros; ring).
    apply Rmult_lt_reg_l with (/ proposals); [apply Rinv_0_lt_compat, some_accepted|]. rewrite Rmult_0_r. exact P. }
  unfold limit. rewrite (total_ext (fun th => Q2R (pi th) * within th * (truncated th / mixture th)) (fun th => / m0 * (Q2R (pi th) * within th))) in * by (intros th Hth; rewrite R0 by exact Hth; ring).
  rewrite (total_ext (fun th => Q2R (pi th) * within th * (truncated th / mixture th) * f th) (fun th => / m0 * (Q2R (pi th) * within th * f th))) by (intros th Hth; rewrite R0 by exact Hth; ring).
  rewrite !total_scale in *. field. split; [|lra]. intros X. rewrite X, Rmult_0_r in D. lra.
Qed.
End Population.
Print Assumptions C86_pmcabc.
Print Assumptions C86_posterior.
Print Assumptions C86_pmcabc_enough.

(** Case: as for C76, but with populations of any even size: the samples are alternately 0 and 1, a step of -1, 0, 0 or 1 is added, and the prior is uniform on 0, 1, 2.
    All data are accepted. *)
Module Walk.
Section N.
Variable h : nat.
Hypothesis hp : (0 < h)%nat.
Definition n : nat := (2 * h)%nat.
Local Notation A := (nat * Z)%type.
Definition outs : list A := list_prod (seq 0 n) [-1; 0; 0; 1]%Z.
Definition p : A -> R := fun _ => / (4 * INR n).
Definition row (i : nat) : Z := Z.of_nat (i mod 2).
Definition wq : Q := 1 # Pos.of_nat n.
Definition q : pop Z := mkpop (map row (seq 0 n)) (map (fun _ => Fin wq) (seq 0 n)).
Section Fold.
Variable fold : Z -> Z.
Definition prop (i : nat) (a : A) : Z := fold (row i + snd a)%Z.
Definition kupd (_ : pop Z) (i : nat) (l : list A) : list A * Z := match l with [] => ([], 99%Z) | a :: l' => (l', prop i a) end.
Definition kern (i : nat) (th : Z) : Q := Steps.kern_at fold (row i) th.
Definition start : state Z := mkst Z [None; Some (Fin 1)] (Some q) (Some q) 0%nat 0%Z NoConf [] [] [].
Definition run (k : nat) (l : list A) : res (state Z) :=
  last_step A Z Z Steps.setp (fun th _ => Fin (Steps.pi th)) kupd (Steps.kpdf fold) (fun l => (l, 0%Z)) Steps.simc Steps.dist PInf Steps.choice n 2 0 0 false start k l.
End Fold.
Lemma np : (0 < n)%nat. Proof. unfold n. lia. Qed.
Lemma nR : 0 < INR n. Proof. apply lt_0_INR, np. Qed.
Lemma Q2R_wq : Q2R wq = / INR n.
Proof. unfold wq, Q2R. cbn [Qnum Qden]. rewrite INR_IZR_INZ, Rmult_1_l. f_equal. f_equal. pose proof np. rewrite <- (positive_nat_Z (Pos.of_nat n)), Nat2Pos.id by lia. reflexivity. Qed.
Lemma alternate (F : nat -> R) : total (map (fun i => F (i mod 2)%nat) (seq 0 n)) = INR h * (F 0%nat + F 1%nat).
Proof.
  clear hp. unfold n. induction h as [|m IH]; [unfold total; cbn; ring|]. replace (2 * S m)%nat with (2 * m + 2)%nat by lia. rewrite seq_app, map_app, total_app, IH, S_INR. cbn [seq map Nat.add]. rewrite !total_cons. change (total []) with 0.
  replace ((2 * m) mod 2)%nat with 0%nat by (rewrite Nat.mul_comm, Nat.mod_mul; lia). replace (S (2 * m) mod 2)%nat with 1%nat; [ring|]. replace (S (2 * m))%nat with (1 + m * 2)%nat by lia. rewrite Nat.mod_add by lia. reflexivity.
Qed.
Lemma law : Law outs p.
Proof.
  pose proof nR. split; [intros; unfold p; apply Rlt_le, Rinv_0_lt_compat; lra|]. unfold outs. rewrite total_prod. rewrite (total_ext _ (fun _ => / INR n)).
  - rewrite total_const_map, seq_length. field. lra.
  - intros i _. unfold p. cbn [map]. rewrite !total_cons. change (total []) with 0. field. lra.
Qed.
Lemma pick_range : forall a, In a outs -> (fst a < n)%nat.
Proof. intros [i z] H. apply in_prod_iff in H. destruct H as [H _]. apply in_seq in H. cbn [fst]. lia. Qed.
Lemma pick_law : forall i, (i < n)%nat -> chance outs p (fun a => if Nat.eq_dec (fst a) i then true else false) = Q2R wq.
Proof.
  intros i Hi. pose proof nR. unfold chance, expect, outs. rewrite total_prod, Q2R_wq. rewrite (total_ext _ (fun j => if (if Nat.eq_dec j i then true else false) then / INR n else 0)).
  - apply (total_single (seq 0 n) (fun j => if Nat.eq_dec j i then true else false) i); [apply seq_NoDup|apply in_seq; lia|]. intros j _. destruct (Nat.eq_dec j i); split; congruence.
  - intros j _. unfold p. cbn [map fst]. rewrite !total_cons. change (total []) with 0. destruct (Nat.eq_dec j i); field; lra.
Qed.
Lemma prop_law fold : forall i th, (i < n)%nat -> chance outs p (fun a => if Z.eq_dec (prop fold i a) th then true else false) = Q2R (kern fold i th).
Proof.
  intros i th _. pose proof nR. unfold kern, Steps.kern_at. rewrite !Q2R_plus, !Q2R_mult. replace (Q2R (1 # 4)) with (1 / 4) by (unfold Q2R; cbn; lra). replace (Q2R (1 # 2)) with (1 / 2) by (unfold Q2R; cbn; lra).
  assert (I : forall x, Q2R (Steps.ind (x =? th)%Z) = if (if Z.eq_dec x th then true else false) then 1 else 0) by (intros x; destruct (Z.eq_dec x th) as [->|N]; [rewrite Z.eqb_refl|rewrite (proj2 (Z.eqb_neq _ _) N)]; unfold Q2R; cbn; lra).
  rewrite !I. unfold chance, expect, outs. rewrite total_prod. unfold p, prop. cbn [map snd]. rewrite (total_ext _ (fun _ => / INR n * (1 / 4 * (if if Z.eq_dec (fold (row i - 1)%Z) th then true else false then 1 else 0) + 1 / 2 * (if if Z.eq_dec (fold (row i)) th then true else false then 1 else 0) + 1 / 4 * (if if Z.eq_dec (fold (row i + 1)%Z) th then true else false then 1 else 0)))).
  - rewrite total_const_map, seq_length. field. lra.
  - intros j _. rewrite !total_cons. change (total []) with 0. rewrite !Z.add_0_r. replace (row i + -1)%Z with (row i - 1)%Z by lia. field. lra.
Qed.
Lemma hR : INR n = 2 * INR h. Proof. unfold n. rewrite mult_INR. reflexivity. Qed.
Lemma mass_eq fold i : mass Z (kern fold) [0; 1; 2]%Z i = Steps.mass_ fold (i mod 2).
Proof. unfold mass, Steps.mass_, mass, kern, row, Steps.row. reflexivity. Qed.
Lemma half : / INR n = / INR h * Q2R (1 # 2).
Proof. pose proof nR. rewrite hR in *. replace (Q2R (1 # 2)) with (1 / 2) by (unfold Q2R; cbn; lra). field. lra. Qed.
Lemma mix_eq fold th : mixture Z n (fun _ => wq) (kern fold) th = Steps.mix fold th.
Proof.
  pose proof nR as HR. rewrite hR in HR. unfold mixture. rewrite (total_ext _ (fun i => (fun j => / INR h * Q2R (1 # 2) * Q2R (Steps.kern_at fold (Z.of_nat j) th)) (i mod 2)%nat)) by (intros i _; rewrite Q2R_wq, half; reflexivity).
  rewrite (alternate (fun j => / INR h * Q2R (1 # 2) * Q2R (Steps.kern_at fold (Z.of_nat j) th))), Steps.mix_eq, Q2R_plus, !Q2R_mult. cbn [Z.of_nat Pos.of_succ_nat]. field. lra.
Qed.
Lemma trunc_eq fold th : Steps.mass_ fold 0 <> 0 -> Steps.mass_ fold 1 <> 0 -> truncated Z n (fun _ => wq) (kern fold) [0; 1; 2]%Z th = Steps.trunc fold th.
Proof.
  intros N0 N1. pose proof nR as HR. rewrite hR in HR. unfold truncated. rewrite (total_ext _ (fun i => (fun j => / INR h * Q2R (1 # 2) * (Q2R (Steps.kern_at fold (Z.of_nat j) th) / Steps.mass_ fold j)) (i mod 2)%nat)) by (intros i _; rewrite Q2R_wq, half, mass_eq; reflexivity).
  rewrite (alternate (fun j => / INR h * Q2R (1 # 2) * (Q2R (Steps.kern_at fold (Z.of_nat j) th) / Steps.mass_ fold j))), Steps.trunc_eq. cbn [Z.of_nat Pos.of_succ_nat]. field. split; [exact N1|]. split; [exact N0|lra].
Qed.
Lemma all_within th : within A Z Z outs p Steps.dist (Fin 1) (fun th _ => th) th = 1.
Proof. unfold within, chance. rewrite (expect_ext _ _ _ _ (fun _ => 1)) by reflexivity. apply expect_const, law. Qed.
Definition f (th : Z) : R := IZR th.
Definition lim fold := limit A Z Z outs p Steps.dist n (Fin 1) (fun _ => wq) (kern fold) Steps.pi (fun th _ => th) [0; 1; 2]%Z f.
Definition mu_ fold := mu A Z Z outs p Steps.dist n (Fin 1) (fun _ => wq) (kern fold) (fun th _ => th) [0; 1; 2]%Z.
Definition u_ fold := u Z Z.eq_dec n (fun _ => wq) (kern fold) Steps.pi [0; 1; 2]%Z.
Lemma enough fold : 0 < Steps.mass_ fold 0 -> 0 < Steps.mass_ fold 1 -> (forall th, In th [0; 1; 2]%Z -> 0 < Steps.mix fold th) -> 0 < Steps.trunc fold 0 + Steps.trunc fold 1 + Steps.trunc fold 2 ->
  forall e d, 0 < e -> 4 * (variance [0; 1; 2]%Z (mu_ fold) (u_ fold) + expect [0; 1; 2]%Z (mu_ fold) (fun th => (u_ fold th * (f th - lim fold)) ^ 2) / e ^ 2) / (INR n * expect [0; 1; 2]%Z (mu_ fold) (u_ fold) ^ 2) < d ->
  exists k0, forall k, (k0 <= k)%nat -> prob outs p (n * k) (fun l => match run fold k l with Ok s' => match recorded Z f s' with Some x => negb (far e x (lim fold)) | None => false end | Err _ => false end) > 1 - d.
Proof.
  intros M0 M1 MX TR e d He HB.
  apply (C86_pmcabc_enough A Z Z Z.eq_dec outs p law Steps.setp (fun th _ => Fin (Steps.pi th)) (kupd fold) (Steps.kpdf fold) (fun l => (l, 0%Z)) Steps.simc Steps.dist PInf Steps.choice q n (Fin 1) row (fun _ => wq) (kern fold) Steps.pi fst (prop fold) (fun th _ => th) [0; 1; 2]%Z); try assumption; try reflexivity.
  - intros th. unfold Steps.pi. destruct (_ && _); discriminate.
  - exists OutOfFuel. reflexivity.
  - intros i. exists 99%Z. split; reflexivity.
  - exact pick_range.
  - exact pick_law.
  - exact (prop_law fold).
  - repeat (constructor; [cbn; lia|]). constructor.
  - exact Steps.inside.
  - intros i Hi. rewrite mass_eq. pose proof (Nat.mod_upper_bound i 2 ltac:(lia)). destruct (i mod 2)%nat as [|[|j]]; [exact M0|exact M1|lia].
  - unfold proposals. rewrite (Steps.three _ tt), !all_within, !trunc_eq by lra. lra.
  - intros th Hth. rewrite mix_eq. apply MX, Hth.
  - exact np.
  - lia.
  - left. reflexivity.
Qed.
Lemma props fold : 0 < Steps.mass_ fold 0 -> 0 < Steps.mass_ fold 1 -> proposals A Z Z outs p Steps.dist n (Fin 1) (fun _ => wq) (kern fold) (fun th _ => th) [0; 1; 2]%Z = Steps.trunc fold 0 + Steps.trunc fold 1 + Steps.trunc fold 2.
Proof. intros. unfold proposals. rewrite (Steps.three _ tt), !all_within, !trunc_eq by lra. lra. Qed.
Lemma third th : In th [0; 1; 2]%Z -> Q2R (Steps.pi th) = 1 / 3.
Proof. intros [<-|[<-|[<-|[]]]]; rewrite (Steps.Q2R_eq 1 3) by reflexivity; reflexivity. Qed.
Lemma lim_eq fold : 0 < Steps.mass_ fold 0 -> 0 < Steps.mass_ fold 1 ->
  lim fold = (Steps.trunc fold 1 / Steps.mix fold 1 + 2 * (Steps.trunc fold 2 / Steps.mix fold 2)) / (Steps.trunc fold 0 / Steps.mix fold 0 + Steps.trunc fold 1 / Steps.mix fold 1 + Steps.trunc fold 2 / Steps.mix fold 2).
Proof.
  intros M0 M1. unfold lim, limit. rewrite !(Steps.three _ tt), !all_within, !third by (cbn; auto). rewrite !trunc_eq, !mix_eq by lra. unfold f.
  set (a := Steps.trunc fold 0 / Steps.mix fold 0). set (b := Steps.trunc fold 1 / Steps.mix fold 1). set (c := Steps.trunc fold 2 / Steps.mix fold 2).
  replace (1 / 3 * 1 * a * 0 + 1 / 3 * 1 * b * 1 + 1 / 3 * 1 * c * 2) with (1 / 3 * (b + 2 * c)) by lra. replace (1 / 3 * 1 * a + 1 / 3 * 1 * b + 1 / 3 * 1 * c) with (1 / 3 * (a + b + c)) by lra. unfold Rdiv.
  destruct (Req_dec (a + b + c) 0) as [E|E]; [rewrite E, Rmult_0_r, Rinv_0; ring|]. field. exact E.
Qed.
Lemma u_eq fold th : In th [0; 1; 2]%Z -> u_ fold th = 1 / 3 / Steps.mix fold th.
Proof. intros H. unfold u_, u. destruct (in_dec Z.eq_dec th [0; 1; 2]%Z); [|contradiction]. rewrite third, mix_eq by exact H. reflexivity. Qed.
Lemma mu_eq fold th : 0 < Steps.mass_ fold 0 -> 0 < Steps.mass_ fold 1 -> mu_ fold th = Steps.trunc fold th / (Steps.trunc fold 0 + Steps.trunc fold 1 + Steps.trunc fold 2).
Proof. intros. unfold mu_, mu. rewrite props, all_within, trunc_eq by lra. unfold Rdiv. ring. Qed.
(** without wrapping around *)
Lemma id_lim : lim (fun x => x) = 14 / 15.
Proof. rewrite lim_eq by (rewrite ?Steps.mass_id0, ?Steps.mass_id1; lra). destruct Steps.mix_id as (-> & -> & ->). destruct Steps.trunc_id as (-> & -> & ->). lra. Qed.
Lemma id_mu th : mu_ (fun x => x) th = Steps.trunc (fun x => x) th.
Proof. rewrite mu_eq by (rewrite ?Steps.mass_id0, ?Steps.mass_id1; lra). destruct Steps.trunc_id as (E0 & E1 & E2). rewrite E0, E1, E2. field. Qed.
Lemma id_expect g : expect [0; 1; 2]%Z (mu_ (fun x => x)) g = 11 / 24 * g 0%Z + 10 / 24 * g 1%Z + 1 / 8 * g 2%Z.
Proof. unfold expect. rewrite (Steps.three _ tt), !id_mu. destruct Steps.trunc_id as (-> & -> & ->). reflexivity. Qed.
Lemma id_u : u_ (fun x => x) 0 = 8 / 9 /\ u_ (fun x => x) 1 = 8 / 9 /\ u_ (fun x => x) 2 = 8 / 3.
Proof. rewrite !u_eq by (cbn; auto). destruct Steps.mix_id as (-> & -> & ->). split; [lra|]. split; lra. Qed.
Lemma id_bound : 4 * (variance [0; 1; 2]%Z (mu_ (fun x => x)) (u_ (fun x => x)) + expect [0; 1; 2]%Z (mu_ (fun x => x)) (fun th => (u_ (fun x => x) th * (f th - lim (fun x => x))) ^ 2) / (1 / 40) ^ 2) / (INR n * expect [0; 1; 2]%Z (mu_ (fun x => x)) (u_ (fun x => x)) ^ 2) <= 10000 / INR n.
Proof.
  unfold variance. rewrite !id_expect. destruct id_u as (-> & -> & ->). rewrite id_lim. unfold f. pose proof nR.
  assert (G : forall a b c, b <> 0 -> c <> 0 -> a / (b * c) = a / c * / b) by (intros; field; split; assumption).
  match goal with |- 4 * ?V / (INR n * ?U) <= _ => assert (HU : 0 < U) by (match goal with |- 0 < ?x ^ 2 => apply pow_lt; lra end); assert (HV : 4 * V / U <= 10000) by lra; replace (4 * V / (INR n * U)) with (4 * V / U * / INR n) by (symmetry; apply G; [lra|apply Rgt_not_eq, HU]) end.
  apply Rmult_le_compat_r; [apply Rlt_le, Rinv_0_lt_compat; exact H|exact HV].
Qed.
End N.
(** the probability that the recorded average is more than 1/30 away from the posterior mean 1 approaches 1 *)
Lemma away : forall d, 0 < d -> exists h0, forall h, (h0 <= h)%nat -> exists k0, forall k, (k0 <= k)%nat ->
  prob (outs h) (p h) (n h * k) (fun l => match run h (fun x => x) k l with Ok s' => match recorded Z f s' with Some x => far (1 / 30) x 1 | None => false end | Err _ => false end) > 1 - d.
Proof.
  intros d Hd. destruct (archimed (10000 / d)) as [Ha _]. set (z := Rdefinitions.up (10000 / d)) in *. exists (S (Z.to_nat z)). intros h Hh. assert (hp : (0 < h)%nat) by lia. pose proof (nR h hp) as HN.
  assert (HB : 10000 / INR (n h) < d).
  { assert (P : 0 < 10000 / d) by (apply Rdiv_lt_0_compat; lra). assert (X : 10000 / d < INR (n h)).
    { eapply Rlt_le_trans; [exact Ha|]. rewrite INR_IZR_INZ. apply IZR_le. assert (0 < z)%Z by (apply lt_IZR; lra). unfold n. lia. }
    apply Rmult_lt_reg_r with (INR (n h)); [exact HN|]. unfold Rdiv in *. rewrite Rmult_assoc, Rinv_l, Rmult_1_r by lra. apply Rmult_lt_compat_r with (r := d) in X; [|exact Hd]. rewrite Rmult_assoc, Rinv_l in X by lra. lra. }
  destruct Steps.mix_id as (X0 & X1 & X2). destruct Steps.trunc_id as (T0 & T1 & T2).
  destruct (enough h hp (fun x => x) ltac:(rewrite Steps.mass_id0; lra) ltac:(rewrite Steps.mass_id1; lra) ltac:(intros th [<-|[<-|[<-|[]]]]; lra) ltac:(lra) (1 / 40) d ltac:(lra)) as (k0 & K).
  { eapply Rle_lt_trans; [apply id_bound, hp|exact HB]. }
  exists k0. intros k Hk. specialize (K k Hk). eapply Rlt_le_trans; [exact K|]. apply (prob_le _ (outs h) (p h) (law h hp)). intros l. destruct (run h (fun x => x) k l) as [s'|]; [|discriminate]. destruct (recorded Z f s') as [x|]; [|discriminate].
  rewrite (id_lim h hp). unfold far. destruct (Rlt_dec (1 / 40) (Rabs (x - 14 / 15))) as [|N]; [discriminate|]. intros _. destruct (Rlt_dec (1 / 30) (Rabs (x - 1))) as [|N']; [reflexivity|]. exfalso. apply N'. apply Rnot_lt_le in N.
  assert (x - 14 / 15 <= 1 / 40) by (eapply Rle_trans; [apply Rle_abs|exact N]). rewrite Rabs_left by lra. lra.
Qed.
(** when positions wrap around, the average approaches the posterior mean: here within 1/10 *)
Lemma clamp_mass : Steps.mass_ Steps.clamp 0 = 1 /\ Steps.mass_ Steps.clamp 1 = 1.
Proof. rewrite !Steps.mass_eq. split; rewrite (Steps.Q2R_eq 1 1) by reflexivity; lra. Qed.
Lemma clamp_mix : Steps.mix Steps.clamp 0 = 3 / 8 /\ Steps.mix Steps.clamp 1 = 3 / 8 /\ Steps.mix Steps.clamp 2 = 1 / 4.
Proof. rewrite !Steps.mix_eq. split; [apply (Steps.Q2R_eq 3 8); reflexivity|]. split; [apply (Steps.Q2R_eq 3 8); reflexivity|apply (Steps.Q2R_eq 1 4); reflexivity]. Qed.
Lemma clamp_trunc th : Steps.trunc Steps.clamp th = Steps.mix Steps.clamp th.
Proof. destruct clamp_mass as [M0 M1]. rewrite Steps.mix_eq, Steps.trunc_eq, M0, M1, Q2R_plus, !Q2R_mult. lra. Qed.
Lemma clamp_lim h : (0 < h)%nat -> lim h Steps.clamp = 1.
Proof. intros hp. destruct clamp_mass as [M0 M1]. rewrite lim_eq, !clamp_trunc by (assumption || lra). destruct clamp_mix as (-> & -> & ->). lra. Qed.
Lemma clamp_bound h : (0 < h)%nat -> 4 * (variance [0; 1; 2]%Z (mu_ h Steps.clamp) (u_ h Steps.clamp) + expect [0; 1; 2]%Z (mu_ h Steps.clamp) (fun th => (u_ h Steps.clamp th * (f th - lim h Steps.clamp)) ^ 2) / (1 / 10) ^ 2) / (INR (n h) * expect [0; 1; 2]%Z (mu_ h Steps.clamp) (u_ h Steps.clamp) ^ 2) <= 1000 / INR (n h).
Proof.
  intros hp. destruct clamp_mass as [M0 M1]. pose proof (nR h hp). rewrite clamp_lim by exact hp. destruct clamp_mix as (X0 & X1 & X2).
  assert (E : forall g, expect [0; 1; 2]%Z (mu_ h Steps.clamp) g = 3 / 8 * g 0%Z + 3 / 8 * g 1%Z + 1 / 4 * g 2%Z) by (intros g; unfold expect; rewrite (Steps.three _ tt), !mu_eq, !clamp_trunc, X0, X1, X2 by (assumption || lra); field).
  unfold variance. rewrite !E, !u_eq, X0, X1, X2 by (assumption || (cbn; auto)). unfold f.
  assert (G : forall a b c, b <> 0 -> c <> 0 -> a / (b * c) = a / c * / b) by (intros; field; split; assumption).
  match goal with |- 4 * ?V / (INR (n h) * ?U) <= _ => assert (HU : 0 < U) by (match goal with |- 0 < ?x ^ 2 => apply pow_lt; lra end); assert (HV : 4 * V / U <= 1000) by lra; rewrite (G (4 * V) (INR (n h)) U) by (lra || apply Rgt_not_eq, HU) end.
  apply Rmult_le_compat_r; [apply Rlt_le, Rinv_0_lt_compat; assumption|exact HV].
Qed.
Example C86_pmcabc_case : exists k0, forall k, (k0 <= k)%nat ->
  prob (outs 3000) (p 3000) (n 3000 * k) (fun l => match run 3000 Steps.clamp k l with Ok s' => match recorded Z f s' with Some x => negb (far (1 / 10) x 1) | None => false end | Err _ => false end) > 1 - 1 / 5.
Proof.
  assert (hp : (0 < 3000)%nat) by (apply Nat.ltb_lt; reflexivity). destruct clamp_mass as [M0 M1]. destruct clamp_mix as (X0 & X1 & X2).
  destruct (enough 3000 hp Steps.clamp ltac:(lra) ltac:(lra) ltac:(intros th [<-|[<-|[<-|[]]]]; lra) ltac:(rewrite !clamp_trunc; lra) (1 / 10) (1 / 5) ltac:(lra)) as (k0 & K).
  - eapply Rle_lt_trans; [apply clamp_bound, hp|]. unfold n. rewrite mult_INR. replace (INR 3000) with 3000 by (rewrite INR_IZR_INZ; reflexivity). cbn [INR]. lra.
  - exists k0. intros k Hk. specialize (K k Hk). rewrite (clamp_lim 3000 hp) in K. exact K.
Qed.
End Walk.
(** C86 for PMCABC in general: the weighted average does not approach the posterior mean.  In the example the posterior is uniform on 0, 1, 2, but the probability that the recorded average
    is more than 1/30 away from its mean 1 approaches 1 with the number of samples. *)
Theorem C86_pmcabc_refuted :
  (forall h, (0 < h)%nat -> let post th := Q2R (Steps.pi th) * within (nat * Z) Z Z (Walk.outs h) (Walk.p h) Steps.dist (Fin 1) (fun th _ => th) th in
     total (map (fun th => post th * IZR th) [0; 1; 2]%Z) / total (map post [0; 1; 2]%Z) = 1) /\
  forall d, 0 < d -> exists h0, forall h, (h0 <= h)%nat -> exists k0, forall k, (k0 <= k)%nat ->
  prob (Walk.outs h) (Walk.p h) (Walk.n h * k) (fun l => match Walk.run h (fun x => x) k l with Ok s' => match recorded Z IZR s' with Some x => far (1 / 30) x 1 | None => false end | Err _ => false end) > 1 - d.
Proof. split; [|exact Walk.away]. intros h hp post. unfold post. rewrite !(Steps.three _ tt), !Walk.all_within, !Walk.third by (assumption || (cbn; auto)). lra. Qed.
Print Assumptions C86_pmcabc_refuted.
