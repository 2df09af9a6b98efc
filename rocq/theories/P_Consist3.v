(** C87: the law of an iteration of PMC, and what averages with its weights approach. *)
From Coq Require Import Reals Lra Lia Qreals.
From Verif Require Import M_Base M_Num L_Num M_Infer L_Infer M_PMCABC M_RSMCABC M_XReal M_PMC M_Stats L_PMC S_Stats L_Stats L_Distance L_PosDef L_Histogram S_Law P_Law L_Law P_Law3 P_Law4 S_Gen L_Gen L_Hits L_Series S_Consist L_LLN L_Workers P_Consist2.
Open Scope R_scope.

(** the real number in a float *)
Definition xreal (x : xr) : R := match x with XR v => v | _ => 0 end.
Section PMC.
Variables A Theta Y : Type.
Variable teq : forall x y : Theta, {x = y} + {x <> y}.
Variable outs : list A.
Variable p : A -> R.
Hypothesis law : Law outs p.
Notation wpop := (wpop Theta).
Variable setp : Theta -> Theta -> bool * Theta.
Variable pdfv : Theta -> Theta -> num.
Variable kupd : wpop -> nat -> list A -> list A * Theta.
Variable kpdf : wpop -> Theta -> Theta -> xr.
Variable simc : Theta -> list A -> list A * option Y.
Variable loglik : Y -> xr.
Variable choiceN : nat -> nat -> list xr -> list A -> res (list A * list nat).
(** the population before (sample i and its weight), the densities, and what a draw gives: an index, a perturbation of sample i, data for the parameters th *)
Variable q : wpop.
Variable n : nat.
Variable row : nat -> Theta.
Variable w : nat -> R.
Variable kern : nat -> Theta -> R.
Variable pi : Theta -> Q.
Variable L : Y -> R.
Variable pick : A -> nat.
Variable prop : nat -> A -> Theta.
Variable dat : Theta -> A -> Y.
Variable Ts : list Theta.
Hypothesis set_all : forall th cur, setp th cur = (true, th).
Hypothesis density : forall th cur, pdfv th cur = Fin (pi th).
Hypothesis density_nonneg : forall th, (0 <= pi th)%Q.
Hypothesis loglik_fin : forall y, loglik y = XR (L y).
(** n indices use n draws, every other operation uses one *)
Hypothesis choice_draw : forall l1 l2, length l1 = n -> choiceN n n (wp_w q) (l1 ++ l2) = Ok (l2, map pick l1).
Hypothesis choice_end : forall l, (length l < n)%nat -> exists e, choiceN n n (wp_w q) l = Err e.
Hypothesis kupd_draw : forall i a l, kupd q i (a :: l) = (l, prop i a).
Hypothesis sim_draw : forall th a l, simc th (a :: l) = (l, Some (dat th a)).
Hypothesis rows_ok : wp_rows q = map row (seq 0 n).
Hypothesis weights_ok : wp_w q = map (fun i => XR (w i)) (seq 0 n).
Hypothesis kpdf_ok : forall i th, (i < n)%nat -> kpdf q (row i) th = XR (kern i th).
Hypothesis pick_range : forall a, In a outs -> (pick a < n)%nat.
Hypothesis pick_law : forall i, (i < n)%nat -> chance outs p (fun a => if Nat.eq_dec (pick a) i then true else false) = w i.
Hypothesis prop_law : forall i th, (i < n)%nat -> chance outs p (fun a => if teq (prop i a) th then true else false) = kern i th.
Hypothesis Ts_distinct : NoDup Ts.
Hypothesis Ts_density : forall th, In th Ts <-> ~ (pi th == 0)%Q.
(** chance that a perturbation of sample i is inside the prior; density of the mixture of kernels; law of the perturbation after repetition; mean of the approximate likelihood *)
Definition mass (i : nat) : R := total (map (kern i) Ts).
Definition mixture (th : Theta) : R := total (map (fun i => w i * kern i th) (seq 0 n)).
Definition truncated (th : Theta) : R := total (map (fun i => w i * (kern i th / mass i)) (seq 0 n)).
Definition lik (th : Theta) : R := expect outs p (fun a => exp (L (dat th a))).
Hypothesis mass_pos : forall i, (i < n)%nat -> 0 < mass i.
Hypothesis mixture_pos : forall th, In th Ts -> 0 < mixture th.

(** choosing the indices *)
Fixpoint take (j : nat) (l : list A) : res (list A * list nat) :=
  match j, l with
  | O, _ => Ok (l, [])
  | S j', a :: l' => match take j' l' with Ok (r, idx) => Ok (r, pick a :: idx) | Err e => Err e end
  | S _, [] => Err OutOfFuel
  end.
Lemma take_all j : forall l, (j <= length l)%nat -> take j l = Ok (skipn j l, map pick (firstn j l)).
Proof. induction j as [|j IH]; intros [|a l] H; try (cbn in H; lia); [reflexivity|reflexivity|]. cbn [take]. rewrite IH by (cbn in H; lia). reflexivity. Qed.
Lemma take_few j : forall l, (length l < j)%nat -> take j l = Err OutOfFuel.
Proof. induction j as [|j IH]; intros [|a l] H; try (cbn in H; lia); [reflexivity|]. cbn [take]. rewrite IH by (cbn in H; lia). reflexivity. Qed.
Lemma take_tends j : forall (g : list nat -> nat -> list A -> R) (G : list nat -> R) B, (forall x f l, Rabs (g x f l) <= B) -> (forall idx, Forall (fun i => (i < n)%nat) idx -> Tends outs p (g idx) (G idx)) ->
  Tends outs p (after (fun _ l => take j l) g) (mean outs p j (fun as_ => G (map pick as_))).
Proof.
  induction j as [|j IH]; intros g G B Hb Ht.
  - apply (Tends_ext _ outs p (g [])); [intros; reflexivity|]. apply Ht. constructor.
  - cbn [mean]. pose (P := fun (_ : nat) (l : list A) => match l with [] => Err OutOfFuel | a :: l' => Ok (l', a) end : res (list A * A)).
    apply (Tends_ext _ outs p (after P (fun a => after (fun _ l => take j l) (fun idx => g (pick a :: idx))))).
    { intros f l _. unfold after, P. destruct l as [|a l]; [reflexivity|]. cbn [take]. destruct (take j l) as [[r idx]|]; reflexivity. }
    assert (B0 : 0 <= B) by (eapply Rle_trans; [apply Rabs_pos|apply (Hb [] 0%nat [])]).
    apply (one_draw A outs p law P (fun a => a) (fun a => In a outs) (fun _ _ _ => eq_refl) (fun a Ha _ => Ha) _ (fun a => mean outs p j (fun as_ => G (pick a :: map pick as_))) B).
    + intros a f l. apply after_bound; [exact B0|]. intros. apply Hb.
    + intros a Ha. apply (IH (fun idx => g (pick a :: idx)) (fun idx => G (pick a :: idx)) B); [intros; apply Hb|]. intros idx Hi. apply Ht. constructor; [apply pick_range, Ha|exact Hi].
    + reflexivity.
Qed.
(** one perturbation *)
Definition pts (i : nat) : list Theta := nodup teq (map (prop i) outs).
Lemma by_point i (G : Theta -> R) : (i < n)%nat -> expect outs p (fun a => G (prop i a)) = total (map (fun th => kern i th * G th) (pts i)).
Proof.
  intros Hi. rewrite (group outs p teq (pts i) (prop i) G); [|apply NoDup_nodup|intros a Ha; left; apply nodup_In, in_map, Ha]. apply total_ext. intros th _. rewrite prop_law by exact Hi. reflexivity.
Qed.
Lemma points_law i : (i < n)%nat -> Law (pts i) (kern i).
Proof.
  intros Hi. split; [intros th _; rewrite <- prop_law by exact Hi; apply chance_range, law|]. pose proof (by_point i (fun _ => 1) Hi) as E. cbv beta in E. rewrite (expect_const _ _ _ 1 law) in E. rewrite E. apply total_ext. intros. ring.
Qed.
Notation inside := (inside Theta pi).
Lemma inside_in th : inside th = true <-> In th Ts.
Proof. rewrite Ts_density. unfold L_Hits.inside. destruct (Qeq_bool (pi th) 0) eqn:E; cbn [negb]; [apply Qeq_bool_iff in E|apply Qeq_bool_neq in E]; split; intros X; try discriminate; try contradiction; auto. Qed.
Lemma total_filter {B} (P : B -> bool) (g : B -> R) l : total (map g (filter P l)) = total (map (fun x => if P x then g x else 0) l).
Proof. induction l as [|x l IH]; [reflexivity|]. cbn [filter map]. rewrite total_cons, <- IH. destruct (P x); cbn [map]; [apply total_cons|ring]. Qed.
Lemma by_support i (g : Theta -> R) : (i < n)%nat -> total (map (fun th => kern i th * g th) (filter inside (pts i))) = total (map (fun th => kern i th * g th) Ts).
Proof.
  intros Hi. rewrite total_filter. transitivity (expect outs p (fun a => if inside (prop i a) then g (prop i a) else 0)).
  - rewrite (by_point i (fun th => if inside th then g th else 0) Hi). apply total_ext. intros th _. destruct (inside th); ring.
  - rewrite (group outs p teq Ts (prop i) (fun th => if inside th then g th else 0) Ts_distinct).
    + apply total_ext. intros th Hth. apply inside_in in Hth. rewrite Hth, prop_law by exact Hi. reflexivity.
    + intros a _. destruct (inside (prop i a)) eqn:E; [left; apply inside_in, E|right; reflexivity].
Qed.
Lemma within_mass i : (i < n)%nat -> L_Hits.within Theta pi (pts i) (kern i) = mass i.
Proof.
  intros Hi. unfold L_Hits.within, chance, expect, mass. rewrite (total_ext _ (fun th => if inside th then kern i th * 1 else 0)) by (intros th _; destruct (inside th); ring). rewrite <- (total_filter inside (fun th => kern i th * 1)), (by_support i (fun _ => 1) Hi). apply total_ext. intros; ring.
Qed.
Lemma produces i : (i < n)%nat -> Produces outs p (fun _ l => Ok (kupd q i l)) (pts i) (kern i).
Proof.
  intros Hi. unfold Produces. eapply (Gives_weak A outs p); [| |apply (one_draw A outs p law _ (prop i) (fun x => In x (pts i) /\ kern i x <> 0))].
  - intros x Hx. exact Hx.
  - intros G v ->. symmetry. apply by_point, Hi.
  - intros f a l. rewrite kupd_draw. reflexivity.
  - intros a Ha Hp. split; [apply nodup_In, in_map, Ha|]. rewrite <- prop_law by exact Hi. destruct law as [H1 _]. unfold chance, expect.
    assert (X : 0 < total (map (fun b => p b * (if if teq (prop i b) (prop i a) then true else false then 1 else 0)) outs)); [|lra].
    specialize (H1 a Ha) as H2. clear - H1 H2 Hp Ha. induction outs as [|b l IH]; [destruct Ha|]. cbn [map]. rewrite total_cons.
    assert (Y0 : 0 <= total (map (fun b => p b * (if if teq (prop i b) (prop i a) then true else false then 1 else 0)) l)).
    { apply total_nonneg, Forall_forall. intros x Hx. apply in_map_iff in Hx. destruct Hx as (c & <- & Hc). apply Rmult_le_pos; [apply H1; right; exact Hc|]. destruct (teq _ _); lra. }
    destruct Ha as [->|Ha]; [destruct (teq (prop i a) (prop i a)); [lra|congruence]|]. assert (0 <= p b * (if if teq (prop i b) (prop i a) then true else false then 1 else 0)) by (apply Rmult_le_pos; [apply H1; left; reflexivity|destruct (teq _ _); lra]).
    assert (0 < total (map (fun b => p b * (if if teq (prop i b) (prop i a) then true else false then 1 else 0)) l)) by (apply IH; [exact Ha|intros c Hc; apply H1; right; exact Hc]). lra.
Qed.
(** perturbations of the chosen samples, one after the other *)
Definition moves (f : nat) (idx : list nat) (c : Theta) (l : list A) : res (list Theta * (Theta * list A)) :=
  mapT (fun i cr => match propose Theta (list A) wpop setp kupd pdfv f q i (fst cr) (snd cr) with Err e => Err e | Ok (c, r, th) => Ok (th, (c, r)) end) idx (c, l).
Fixpoint moved (idx : list nat) (H : list Theta -> R) : R :=
  match idx with
  | [] => H []
  | i :: idx' => total (map (fun th => kern i th / mass i * moved idx' (fun rows => H (th :: rows))) Ts)
  end.
Lemma moves_tend idx : Forall (fun i => (i < n)%nat) idx -> forall (H : list Theta -> R) B c, (forall rows, Rabs (H rows) <= B) ->
  Tends outs p (fun f l => match moves f idx c l with Ok (rows, _) => H rows | Err _ => 0 end) (moved idx H).
Proof.
  induction 1 as [|i idx Hi _ IH]; intros H B c Hb; [apply (Tends_const A outs p law (H []))|].
  assert (B0 : 0 <= B) by (eapply Rle_trans; [apply Rabs_pos|apply (Hb [])]).
  apply (Tends_ext _ outs p (after (propose1 A Theta wpop setp pdfv kupd q i c) (fun z f l => match moves f idx (fst z) l with Ok (rows, _) => H (snd z :: rows) | Err _ => 0 end))).
  { intros f l _. unfold after, propose1, moves. cbn [mapT fst snd]. destruct (propose _ _ _ _ _ _ _ _ _ _ _) as [[[c' r] th]|]; [|reflexivity]. cbn [fst snd]. destruct (mapT _ idx (c', r)) as [[rows cr]|]; reflexivity. }
  apply (propose_gives A Theta wpop outs p law setp pdfv kupd q i pi (pts i) (kern i) (points_law i Hi) set_all density (produces i Hi) ltac:(rewrite within_mass by exact Hi; apply mass_pos, Hi) c) with (G := fun z => moved idx (fun rows => H (snd z :: rows))) (B := B).
  - intros z f l. destruct (moves f idx (fst z) l) as [[rows cr]|]; [apply Hb|rewrite Rabs_R0; exact B0].
  - intros z _. apply (IH (fun rows => H (snd z :: rows)) B). intros; apply Hb.
  - cbn [moved snd]. rewrite within_mass by exact Hi. rewrite (total_ext (fun th => kern i th / mass i * moved idx (fun rows => H (th :: rows))) (fun th => kern i th * (/ mass i * moved idx (fun rows => H (th :: rows))))) by (intros; unfold Rdiv; ring).
    rewrite <- (by_support i _ Hi). apply total_ext. intros; unfold Rdiv; ring.
Qed.
Lemma by_index (phi : nat -> R) : expect outs p (fun a => phi (pick a)) = total (map (fun i => w i * phi i) (seq 0 n)).
Proof.
  rewrite (group outs p Nat.eq_dec (seq 0 n) pick phi (seq_NoDup n 0)); [|intros a Ha; left; apply in_seq; specialize (pick_range a Ha); lia]. apply total_ext. intros i Hi. apply in_seq in Hi. rewrite pick_law by lia. reflexivity.
Qed.
(** together: independent draws from the truncated mixture *)
Lemma moved_iid j : forall H, mean outs p j (fun as_ => moved (map pick as_) H) = mean Ts truncated j H.
Proof.
  induction j as [|j IH]; intros H; [reflexivity|]. cbn [mean map moved].
  rewrite (expect_ext _ _ _ _ (fun a => total (map (fun th => kern (pick a) th / mass (pick a) * mean Ts truncated j (fun rows => H (th :: rows))) Ts))).
  - rewrite (by_index (fun i => total (map (fun th => kern i th / mass i * mean Ts truncated j (fun rows => H (th :: rows))) Ts))).
    rewrite (total_ext _ (fun i => total (map (fun th => w i * (kern i th / mass i) * mean Ts truncated j (fun rows => H (th :: rows))) Ts))) by (intros i _; rewrite <- total_scale; apply total_ext; intros; ring).
    rewrite total_swap. unfold expect. apply total_ext. intros th _. unfold truncated at 2. rewrite Rmult_comm, <- total_scale. apply total_ext. intros; ring.
  - intros a _. transitivity (mean outs p j (fun l => total (map (fun th => kern (pick a) th / mass (pick a) * moved (map pick l) (fun rows => H (th :: rows))) Ts))); [reflexivity|].
    rewrite (mean_total outs p law Ts j (fun th l => kern (pick a) th / mass (pick a) * moved (map pick l) (fun rows => H (th :: rows)))). apply total_ext. intros th _. rewrite (mean_scale _ outs p), IH. reflexivity.
Qed.
Lemma truncated_law : Law Ts truncated.
Proof.
  split.
  - intros th _. apply total_nonneg, Forall_forall. intros x Hx. apply in_map_iff in Hx. destruct Hx as (i & <- & Hi). apply in_seq in Hi. rewrite <- pick_law, <- (prop_law i th) by lia. apply Rmult_le_pos; [apply chance_range, law|]. apply Rmult_le_pos; [apply chance_range, law|apply Rlt_le, Rinv_0_lt_compat, mass_pos; lia].
  - unfold truncated. rewrite <- total_swap. rewrite (total_ext _ (fun i => w i * 1)); [rewrite <- by_index; apply expect_const, law|]. intros i Hi. apply in_seq in Hi. rewrite total_scale. f_equal. rewrite (total_ext _ (fun th => / mass i * kern i th)) by (intros; unfold Rdiv; ring). rewrite total_scale. fold (mass i). specialize (mass_pos i ltac:(lia)). field. lra.
Qed.
(** a new sample with the draw that gives its data *)
Definition joint (x : Theta * A) : R := truncated (fst x) * p (snd x).
Definition U (x : Theta * A) : R := if in_dec teq (fst x) Ts then Q2R (pi (fst x)) * Q2R (pi (fst x)) * exp (L (dat (fst x) (snd x))) / mixture (fst x) else 1.
Lemma joint_law : Law (list_prod Ts outs) joint.
Proof.
  destruct truncated_law as [T1 T2]. destruct law as [P1 P2]. split.
  - intros [th a] H. apply in_prod_iff in H. apply Rmult_le_pos; [apply T1, H|apply P1, H].
  - rewrite total_prod. unfold joint. cbn [fst snd]. rewrite (total_ext _ truncated); [exact T2|]. intros th _. rewrite total_scale, P2. ring.
Qed.
Lemma pi_pos th : In th Ts -> 0 < Q2R (pi th).
Proof.
  intros Hth. apply Ts_density in Hth. specialize (density_nonneg th). replace 0 with (Q2R 0) by (unfold Q2R; cbn; lra). apply Qlt_Rlt. apply Qle_lteq in density_nonneg. destruct density_nonneg as [H|H]; [exact H|]. symmetry in H. contradiction.
Qed.
Lemma U_pos x : 0 < U x.
Proof. unfold U. destruct (in_dec teq (fst x) Ts) as [H|]; [|lra]. pose proof (pi_pos _ H). apply Rdiv_lt_0_compat; [|apply mixture_pos, H]. apply Rmult_lt_0_compat; [apply Rmult_lt_0_compat; assumption|apply exp_pos]. Qed.
Lemma mean_cv j : forall (F : nat -> list A -> R) F', (forall l, Un_cv (fun k => F k l) (F' l)) -> Un_cv (fun k => mean outs p j (F k)) (mean outs p j F').
Proof. induction j as [|j IH]; intros F F' H; cbn [mean]; [apply H|]. apply (expect_cv _ outs p (fun k a => mean outs p j (fun l => F k (a :: l)))). intros a _. apply (IH (fun k l => F k (a :: l))). intros; apply H. Qed.
Lemma zip j : forall K : list (Theta * A) -> R, mean outs p j (fun lw => mean Ts truncated j (fun rows => K (combine rows lw))) = mean (list_prod Ts outs) joint j K.
Proof.
  induction j as [|j IH]; intros K; [reflexivity|]. cbn [mean].
  transitivity (expect outs p (fun a => expect Ts truncated (fun th => mean (list_prod Ts outs) joint j (fun l => K ((th, a) :: l))))).
  - apply expect_ext. intros a _. unfold expect. rewrite (mean_total outs p law Ts j (fun th lw => truncated th * mean Ts truncated j (fun rows => K (combine (th :: rows) (a :: lw))))). apply total_ext. intros th _. rewrite (mean_scale _ outs p). f_equal. apply (IH (fun l => K ((th, a) :: l))).
  - unfold expect. rewrite total_prod. rewrite (total_ext (fun a => p a * total (map (fun th => truncated th * mean (list_prod Ts outs) joint j (fun l => K ((th, a) :: l))) Ts)) (fun a => total (map (fun th => joint (th, a) * mean (list_prod Ts outs) joint j (fun l => K ((th, a) :: l))) Ts))) by (intros a _; rewrite <- total_scale; apply total_ext; intros; unfold joint; cbn [fst snd]; ring).
    rewrite total_swap. reflexivity.
Qed.

(** the last iteration: worker j has draw j, the main generator the k others *)
Definition last_pm (per steps full : nat) (s : mstate Theta) (k : nat) (l : list A) : res (mstate Theta) :=
  pm_step Theta (list A) Y setp pdfv kupd kpdf simc loglik (fun z => chunk 1 (Z.to_nat z) l) choiceN n per steps full (S k) (steps - 1) (skipn n l) Z.of_nat s.
(** the samples and weights recorded last *)
Definition latest (s : mstate Theta) : option (list Theta * list R) := match rev (m_recs Theta s) with r :: _ => Some (wr_rows r, map xreal (wr_w r)) | [] => None end.
Lemma propose_same f i : forall cur l cur' r t, propose Theta (list A) wpop setp kupd pdfv f q i cur l = Ok (cur', r, t) -> In t Ts.
Proof.
  induction f as [|f IH]; intros cur l cur' r t H; [discriminate|]. cbn [M_Infer.propose] in H. unfold perturb in H. change 100%nat with (S 99) in H. cbn [perturb_loop] in H. destruct (kupd q i l) as [r1 x]. rewrite set_all in H. cbn [Nat.eqb] in H.
  unfold pdf_of_prior in H. rewrite set_all, density in H. cbn [snd neqb] in H. destruct (Qeq_bool (pi x) 0) eqn:E; [exact (IH _ _ _ _ _ H)|]. injection H as _ _ <-. apply Ts_density. intros X. apply Qeq_bool_iff in X. congruence.
Qed.
Lemma moves_in f idx : forall c l rows cr, moves f idx c l = Ok (rows, cr) -> Forall (fun th => In th Ts) rows /\ length rows = length idx.
Proof.
  unfold moves. induction idx as [|i idx IH]; intros c l rows cr H; cbn [mapT] in H; [injection H as <- _; split; [constructor|reflexivity]|]. cbn [fst snd] in H. destruct (propose _ _ _ _ _ _ _ _ _ _ _) as [[[c' r] th]|] eqn:E; [|discriminate].
  destruct (mapT _ idx (c', r)) as [[rows' cr']|] eqn:E2; [|discriminate]. injection H as <- _. destruct (IH _ _ _ _ E2) as [H1 H2]. split; [constructor; [exact (propose_same _ _ _ _ _ _ _ E)|exact H1]|cbn; rewrite H2; reflexivity].
Qed.
Definition ll (x : Theta * A) : R := ln (Q2R (pi (fst x))) + L (dat (fst x) (snd x)).
Lemma logs rows : Forall (fun th => In th Ts) rows -> forall l0 lw lm cur, length lw = length rows -> exists c',
  mapT (fun ts => log_lik Theta (list A) Y setp pdfv simc loglik (fun z => chunk 1 (Z.to_nat z) (l0 ++ lw ++ lm)) (fst ts) (snd ts)) (combine rows (map Z.of_nat (seq (length l0) (length rows)))) cur = Ok (map (fun x => XR (ll x)) (combine rows lw), c').
Proof.
  induction 1 as [|th rows Hth _ IH]; intros l0 lw lm cur Hl; [eexists; reflexivity|]. destruct lw as [|a lw]; [discriminate|]. cbn [length seq map combine mapT fst snd].
  assert (E : chunk 1 (Z.to_nat (Z.of_nat (length l0))) (l0 ++ (a :: lw) ++ lm) = [a]) by (unfold chunk; rewrite Nat2Z.id, Nat.mul_1_r, skipn_app, skipn_all, Nat.sub_diag; reflexivity).
  unfold log_lik at 1. rewrite E, set_all. cbn [snd]. rewrite sim_draw. unfold pdf_of_prior. rewrite set_all, density, loglik_fin. cbn [snd toX]. unfold xlog. rewrite (rsign_pos _ (pi_pos th Hth)). cbn [xadd].
  specialize (IH (l0 ++ [a]) lw lm th ltac:(cbn in Hl; lia)). rewrite app_length in IH. cbn [length] in IH. replace (length l0 + 1)%nat with (S (length l0)) in IH by lia. rewrite <- app_assoc in IH. cbn [app] in IH. cbn [app] . destruct IH as (c' & ->). eexists. reflexivity.
Qed.
Lemma weigh th cur : In th Ts -> pm_weight Theta setp pdfv kpdf n q th cur = Ok (XR (Q2R (pi th) / mixture th), th).
Proof.
  intros Hth. unfold pm_weight, pdf_of_prior. rewrite set_all, density. cbn [snd]. assert (L1 : length (wp_rows q) = n) by (rewrite rows_ok, map_length, seq_length; reflexivity). assert (L2 : length (wp_w q) = n) by (rewrite weights_ok, map_length, seq_length; reflexivity).
  rewrite L1, L2, Nat.ltb_irrefl, Nat.eqb_refl. cbn [negb]. rewrite <- L1 at 1. rewrite firstn_all, rows_ok, weights_ok.
  assert (E : map (fun wr => xmul (fst wr) (kpdf q (snd wr) th)) (combine (map (fun i => XR (w i)) (seq 0 n)) (map row (seq 0 n))) = map XR (map (fun i => w i * kern i th) (seq 0 n))).
  { assert (Hr : forall i, In i (seq 0 n) -> (i < n)%nat) by (intros i Hi; apply in_seq in Hi; lia). revert Hr. generalize (seq 0 n). induction l as [|i l IH]; intros Hr; [reflexivity|]. cbn [map combine fst snd]. rewrite IH by (intros j Hj; apply Hr; right; exact Hj). rewrite kpdf_ok by (apply Hr; left; reflexivity). reflexivity. }
  rewrite E, xsum_fin. cbn [toX xmul]. change (rsum (map (fun i => w i * kern i th) (seq 0 n))) with (mixture th). specialize (mixture_pos th Hth). rewrite xdiv_fin by lra. rewrite Rmult_1_l. reflexivity.
Qed.
Lemma weigh_all rows : Forall (fun th => In th Ts) rows -> forall cur, exists c', mapT (pm_weight Theta setp pdfv kpdf n q) rows cur = Ok (map (fun th => XR (Q2R (pi th) / mixture th)) rows, c').
Proof. induction 1 as [|th rows Hth _ IH]; intros cur; [eexists; reflexivity|]. cbn [mapT]. rewrite (weigh th cur Hth). destruct (IH th) as (c' & ->). eexists. reflexivity. Qed.
Definition lg (x : Theta * A) : R := ln (Q2R (pi (fst x)) / mixture (fst x)) + ll x.
Lemma exp_lg x : In (fst x) Ts -> exp (lg x) = U x.
Proof.
  intros H. unfold lg, ll, U. destruct (in_dec teq (fst x) Ts); [|contradiction]. pose proof (pi_pos _ H). specialize (mixture_pos _ H). rewrite !exp_plus, !exp_ln; [field; lra|assumption|apply Rdiv_lt_0_compat; assumption].
Qed.
(** weights of the samples: proportional to U *)
Definition shares (xs : list (Theta * A)) : list R := map (fun x => U x / total (map U xs)) xs.
Lemma step_value per steps full s k lw lm (F : option (list Theta * list R) -> R) : (0 < n)%nat -> (0 < steps)%nat -> full = 0%nat \/ full = 1%nat -> m_pop Theta s = q -> length lw = n -> length lm = k ->
  match last_pm per steps full s k (lw ++ lm) with Ok s' => F (latest s') | Err _ => 0 end =
  after (fun _ l => take n l) (fun idx f l => match moves f idx (m_cur Theta s) l with Ok (rows, _) => F (Some (rows, shares (combine rows lw))) | Err _ => 0 end) (S k) lm.
Proof.
  intros Hn Hst Hf Hq Hlw Hlm. unfold last_pm, pm_step, after. rewrite Hq. assert (L1 : length (wp_rows q) = n) by (rewrite rows_ok, map_length, seq_length; reflexivity). rewrite L1. rewrite skipn_app, <- Hlw, skipn_all, Nat.sub_diag, Hlw. cbn [skipn app].
  destruct (le_lt_dec n (length lm)) as [Hk|Hk].
  2:{ destruct (choice_end lm Hk) as (e & ->). rewrite take_few by exact Hk. reflexivity. }
  rewrite take_all by exact Hk. rewrite <- (firstn_skipn n lm) at 1. rewrite choice_draw by (apply firstn_length_le, Hk).
  assert (Hi : length (map pick (firstn n lm)) = n) by (rewrite map_length; apply firstn_length_le, Hk). rewrite Hi, Nat.ltb_irrefl. rewrite <- Hi at 1. rewrite firstn_all. fold (moves (S k) (map pick (firstn n lm)) (m_cur Theta s) (skipn n lm)).
  destruct (moves (S k) (map pick (firstn n lm)) (m_cur Theta s) (skipn n lm)) as [[rows [cur1 r1]]|] eqn:Em; [|reflexivity]. destruct (moves_in _ _ _ _ _ _ Em) as [HT Hl]. rewrite Hi in Hl.
  destruct (logs rows HT [] lw lm cur1 ltac:(congruence)) as (c2 & El). cbn [app length] in El. unfold seeds_of. rewrite <- Hl at 1. rewrite El.
  assert (Hne : combine rows lw <> []) by (intros X; apply (f_equal (@length _)) in X; rewrite combine_length in X; cbn in X; lia).
  destruct (map (fun x => XR (ll x)) (combine rows lw)) as [|v0 vs] eqn:Ev; [destruct (combine rows lw); [congruence|discriminate]|]. rewrite <- Ev. clear Ev v0 vs El.
  destruct (weigh_all rows HT c2) as (c3 & ->).
  assert (E : map (fun vl => xadd (xlog (fst vl)) (snd vl)) (combine (map (fun th => XR (Q2R (pi th) / mixture th)) rows) (map (fun x => XR (ll x)) (combine rows lw))) = map XR (map lg (combine rows lw))).
  { assert (Hl2 : length lw = length rows) by congruence. clear - HT Hl2 mixture_pos density_nonneg Ts_density. revert lw Hl2. induction HT as [|th rows Hth _ IH]; intros [|a lw] Hl2; try discriminate; [reflexivity|]. cbn [map combine fst snd]. rewrite IH by (cbn in Hl2; lia). f_equal.
    unfold xlog. rewrite rsign_pos by (apply Rdiv_lt_0_compat; [apply pi_pos, Hth|apply mixture_pos, Hth]). reflexivity. }
  rewrite E, from_logs_fin by (destruct (combine rows lw); [congruence|discriminate]).
  assert (Hrec : ((full =? 1)%nat && (steps - 1 <=? steps - 1)%nat || (full =? 0)%nat && (steps - 1 =? steps - 1)%nat)%bool = true) by (rewrite Nat.leb_refl, Nat.eqb_refl; destruct Hf as [-> | ->]; reflexivity).
  rewrite Hrec. unfold latest. cbn [m_recs]. rewrite rev_app_distr. cbn [rev app wr_rows wr_w]. f_equal. f_equal. f_equal.
  assert (EU : map exp (map lg (combine rows lw)) = map U (combine rows lw)).
  { rewrite map_map. apply map_ext_in. intros [th a] Hin. apply exp_lg. cbn [fst]. apply in_combine_l in Hin. rewrite Forall_forall in HT. apply HT, Hin. }
  rewrite EU. unfold shares. rewrite !map_map. change (rsum (map U (combine rows lw))) with (total (map U (combine rows lw))). apply map_ext_in. intros [th a] Hin. cbn [xreal]. rewrite exp_lg; [reflexivity|]. cbn [fst]. apply in_combine_l in Hin. rewrite Forall_forall in HT. apply HT, Hin.
Qed.
Lemma tends_cv (v : nat -> list A -> R) x : Tends outs p v x -> Un_cv (fun k => mean outs p k (v (S k))) x.
Proof. intros H e He. destruct (H e He) as (K & HK). exists K. intros k Hk. apply HK. lia. Qed.
(** C87 (law): as the main generator gets more draws, the recorded samples and weights behave as n independent pairs of a draw from the truncated mixture and a data set for it, with
    weights proportional to prior density squared times approximate likelihood over mixture density *)
Theorem C87_law : forall per steps full s (P : list Theta -> list R -> bool), (0 < n)%nat -> (0 < steps)%nat -> full = 0%nat \/ full = 1%nat -> m_pop Theta s = q ->
  Un_cv (fun k => prob outs p (n + k) (fun l => match last_pm per steps full s k l with Ok s' => match latest s' with Some (rows, ws) => P rows ws | None => false end | Err _ => false end))
    (prob (list_prod Ts outs) joint n (fun xs => P (map fst xs) (shares xs))).
Proof.
  intros per steps full s P Hn Hst Hf Hq. set (F := fun o : option (list Theta * list R) => if match o with Some (rows, ws) => P rows ws | None => false end then 1 else 0).
  set (g := fun lw idx (f : nat) l => match moves f idx (m_cur Theta s) l with Ok (rows, _) => F (Some (rows, shares (combine rows lw))) | Err _ => 0 end).
  apply (cv_ext (fun k => mean outs p n (fun lw => mean outs p k (after (fun _ l => take n l) (g lw) (S k))))).
  { intros k. rewrite (prob_mean A outs p), (mean_app A outs p). apply mean_ext. intros lw Hlw. apply mean_ext. intros lm Hlm. unfold g. rewrite <- (step_value per steps full s k lw lm F Hn Hst Hf Hq Hlw Hlm). unfold F. destruct (last_pm per steps full s k (lw ++ lm)); reflexivity. }
  eapply cv_limit; [|apply (mean_cv n (fun k lw => mean outs p k (after (fun _ l => take n l) (g lw) (S k))) (fun lw => mean Ts truncated n (fun rows => F (Some (rows, shares (combine rows lw))))))].
  - rewrite (prob_mean (Theta * A) (list_prod Ts outs) joint), <- zip. apply mean_ext. intros lw Hlw. apply mean_ext. intros rows Hr. unfold F.
    replace (map fst (combine rows lw)) with rows; [reflexivity|]. assert (Hl : length lw = length rows) by congruence. clear - Hl. revert lw Hl. induction rows as [|th rows IH]; intros [|a lw] Hl; try discriminate; [reflexivity|]. cbn [combine map fst]. rewrite <- IH by (cbn in Hl; lia). reflexivity.
  - intros lw. apply tends_cv. rewrite <- moved_iid. assert (HB : forall o, Rabs (F o) <= 1) by (intros o; unfold F; destruct (match o with Some (rows, ws) => P rows ws | None => false end); [rewrite Rabs_R1|rewrite Rabs_R0]; lra).
    apply (take_tends n (g lw) (fun idx => moved idx (fun rows => F (Some (rows, shares (combine rows lw))))) 1).
    + intros idx f l. unfold g. destruct (moves f idx (m_cur Theta s) l) as [[rows cr]|]; [apply HB|rewrite Rabs_R0; lra].
    + intros idx Hidx. apply (moves_tend idx Hidx (fun rows => F (Some (rows, shares (combine rows lw)))) 1). intros; apply HB.
Qed.
(** what the weighted averages approach *)
Definition limit (f : Theta -> R) : R :=
  total (map (fun th => Q2R (pi th) * Q2R (pi th) * lik th * (truncated th / mixture th) * f th) Ts) / total (map (fun th => Q2R (pi th) * Q2R (pi th) * lik th * (truncated th / mixture th)) Ts).
Lemma scaled (g : Theta -> R) : expect (list_prod Ts outs) joint (fun x => U x * g (fst x)) = total (map (fun th => Q2R (pi th) * Q2R (pi th) * lik th * (truncated th / mixture th) * g th) Ts).
Proof.
  unfold expect. rewrite total_prod. apply total_ext. intros th Hth. specialize (mixture_pos th Hth). unfold lik, joint, U. cbn [fst snd]. destruct (in_dec teq th Ts); [|contradiction].
  transitivity (Q2R (pi th) * Q2R (pi th) * (truncated th / mixture th) * g th * expect outs p (fun a => exp (L (dat th a)))); [|ring]. unfold expect. rewrite <- total_scale. apply total_ext. intros a _. field. lra.
Qed.
Lemma expect_pos {B} (xs : list B) (nu v : B -> R) : Law xs nu -> (forall b, 0 < v b) -> 0 < expect xs nu v.
Proof.
  intros [M1 M2] Hv. unfold expect. destruct (Rle_lt_dec (total (map (fun b => nu b * v b) xs)) 0) as [Z|P]; [exfalso|exact P].
  assert (Z0 : forall l, incl l xs -> total (map (fun b => nu b * v b) l) <= 0 -> total (map nu l) = 0).
  { induction l as [|b l IH]; intros Hi Hz; [reflexivity|]. cbn [map] in *. rewrite total_cons in *. assert (X : 0 <= total (map (fun b => nu b * v b) l)) by (apply total_nonneg, Forall_forall; intros x Hx; apply in_map_iff in Hx; destruct Hx as (t & <- & Ht); apply Rmult_le_pos; [apply M1, Hi; right; exact Ht|apply Rlt_le, Hv]).
    pose proof (M1 b (Hi b (or_introl eq_refl))) as [Y0|Y0]; [pose proof (Rmult_lt_0_compat _ _ Y0 (Hv b)); lra|]. rewrite <- Y0 in *. rewrite IH; [lra|intros t Ht; apply Hi; right; exact Ht|lra]. }
  rewrite (Z0 xs (incl_refl _) Z) in M2. lra.
Qed.
Lemma limit_U f : limit f = expect (list_prod Ts outs) joint (fun x => U x * f (fst x)) / expect (list_prod Ts outs) joint U.
Proof.
  unfold limit. rewrite scaled. f_equal. f_equal. rewrite (expect_ext _ _ _ U (fun x => U x * (fun _ => 1) (fst x))) by (intros; ring). rewrite (scaled (fun _ => 1)). apply total_ext. intros; ring.
Qed.
Lemma weighted_shares (f : Theta -> R) xs : xs <> [] -> weighted f (map fst xs) (shares xs) = total (map (fun x => U x * f (fst x)) xs) / total (map U xs).
Proof.
  intros Hne. assert (Hs : 0 < total (map U xs)).
  { destruct xs as [|x xs]; [congruence|]. cbn [map]. rewrite total_cons. assert (0 <= total (map U xs)) by (apply total_nonneg, Forall_forall; intros y Hy; apply in_map_iff in Hy; destruct Hy as (z & <- & _); apply Rlt_le, U_pos). pose proof (U_pos x). lra. }
  unfold weighted, shares. set (s := total (map U xs)) in *. replace (total (map (fun x => U x / s) xs)) with 1 by (rewrite (total_ext _ (fun x => / s * U x)) by (intros; unfold Rdiv; ring); rewrite total_scale; fold s; field; lra).
  assert (E : total (map (fun rw => snd rw * f (fst rw)) (combine (map fst xs) (map (fun x => U x / s) xs))) = total (map (fun x => U x * f (fst x)) xs) / s); [|rewrite E; field; lra].
  clearbody s. clear Hne. induction xs as [|x xs IH]; [unfold total; cbn; field; lra|]. cbn [map combine fst snd]. rewrite !total_cons, IH. cbn [fst snd]. field. lra.
Qed.
(** C87 (average): the probability that the recorded weighted average is more than e away from its limit tends to a number of order 1/n; the probability that the iteration ends tends to 1 *)
Theorem C87_average : forall per steps full s (f : Theta -> R) e, (0 < n)%nat -> (0 < steps)%nat -> full = 0%nat \/ full = 1%nat -> m_pop Theta s = q -> 0 < e ->
  let m := limit f in let xs := list_prod Ts outs in
  (exists v, Un_cv (fun k => prob outs p (n + k) (fun l => match last_pm per steps full s k l with Ok s' => match latest s' with Some (rows, ws) => far e (weighted f rows ws) m | None => false end | Err _ => false end)) v
     /\ v <= 4 * (variance xs joint U + expect xs joint (fun x => (U x * (f (fst x) - m)) ^ 2) / e ^ 2) / (INR n * expect xs joint U ^ 2)) /\
  Un_cv (fun k => prob outs p (n + k) (fun l => match last_pm per steps full s k l with Ok s' => match latest s' with Some _ => true | None => false end | Err _ => false end)) 1.
Proof.
  intros per steps full s f e Hn Hst Hf Hq He m xs. split.
  - eexists. split; [apply (C87_law per steps full s (fun rows ws => far e (weighted f rows ws) m) Hn Hst Hf Hq)|]. cbv beta.
    eapply Rle_trans; [|apply (weighted_law _ xs joint joint_law U (fun x => f (fst x)) n e m Hn He U_pos (expect_pos _ _ _ joint_law U_pos) (limit_U f))]. right. fold xs. rewrite !(prob_mean (Theta * A) xs joint). apply mean_ext. intros l Hl. rewrite weighted_shares; [reflexivity|]. intros ->. cbn in Hl. lia.
  - pose proof (C87_law per steps full s (fun _ _ => true) Hn Hst Hf Hq) as C. eapply cv_limit; [|eapply cv_ext; [|exact C]].
    + rewrite (prob_mean (Theta * A) (list_prod Ts outs) joint). apply (mean_const _ _ joint joint_law).
    + intros k. rewrite !(prob_mean A outs p). apply mean_ext. intros l _. destruct (last_pm per steps full s k l) as [s'|]; [|reflexivity]. destruct (latest s') as [[rows ws]|]; reflexivity.
Qed.
(** C87 (how many samples) *)
Theorem C87_enough : forall per steps full s (f : Theta -> R) e d, (0 < n)%nat -> (0 < steps)%nat -> full = 0%nat \/ full = 1%nat -> m_pop Theta s = q -> 0 < e ->
  let xs := list_prod Ts outs in
  4 * (variance xs joint U + expect xs joint (fun x => (U x * (f (fst x) - limit f)) ^ 2) / e ^ 2) / (INR n * expect xs joint U ^ 2) < d -> exists k0, forall k, (k0 <= k)%nat ->
  prob outs p (n + k) (fun l => match last_pm per steps full s k l with Ok s' => match latest s' with Some (rows, ws) => negb (far e (weighted f rows ws) (limit f)) | None => false end | Err _ => false end) > 1 - d.
Proof.
  intros per steps full s f e d Hn Hst Hf Hq He xs HB. destruct (C87_average per steps full s f e Hn Hst Hf Hq He) as ((v & Hv & Hle) & H1). fold xs in Hle. set (m := limit f) in *.
  set (g := (d - v) / 2). assert (G : 0 < g) by (unfold g; lra). destruct (Hv g G) as (k1 & K1). destruct (H1 g G) as (k2 & K2). exists (max k1 k2). intros k Hk. specialize (K1 k ltac:(lia)). specialize (K2 k ltac:(lia)). unfold R_dist in *.
  apply Rabs_def2 in K1, K2.
  match goal with |- prob _ _ _ ?F > _ => set (good := F) end. match type of K1 with prob _ _ _ ?F - _ < _ /\ _ => set (bad := F) in * end. match type of K2 with prob _ _ _ ?F - _ < _ /\ _ => set (fin := F) in * end.
  assert (X : prob outs p (n + k) fin <= prob outs p (n + k) good + prob outs p (n + k) bad).
  { eapply Rle_trans; [|apply (prob_or A outs p law)]. apply (prob_le A outs p law). intros l. unfold fin, good, bad. destruct (last_pm per steps full s k l) as [s'|]; [|discriminate]. destruct (latest s') as [[rows ws]|]; [destruct (far e (weighted f rows ws) m)|]; auto. }
  unfold g in *. lra.
Qed.
(** C87 (the limit): if every kernel has the same mass on the support of the prior, it is the expectation under prior squared times approximate likelihood, ... *)
Lemma ratio mass0 th : (forall i, (i < n)%nat -> mass i = mass0) -> (0 < n)%nat -> In th Ts -> truncated th / mixture th = / mass0.
Proof.
  intros Hm Hn Hth. assert (P0 : 0 < mass0) by (rewrite <- (Hm 0%nat Hn); apply mass_pos, Hn). specialize (mixture_pos th Hth). unfold truncated. rewrite (total_ext _ (fun i => / mass0 * (w i * kern i th))) by (intros i Hi; apply in_seq in Hi; rewrite Hm by lia; field; lra). rewrite total_scale. fold (mixture th). field. lra.
Qed.
Lemma quotient {B} (c : R) (u v : B -> R) (l : list B) : c <> 0 -> total (map (fun b => c * u b) l) / total (map (fun b => c * v b) l) = total (map u l) / total (map v l).
Proof. intros Hc. rewrite !total_scale. destruct (Req_dec (total (map v l)) 0) as [E|E]; [rewrite E, Rmult_0_r; unfold Rdiv; rewrite Rinv_0; ring|]. field. split; assumption. Qed.
Theorem C87_target : forall mass0 (f : Theta -> R), (forall i, (i < n)%nat -> mass i = mass0) -> (0 < n)%nat ->
  limit f = total (map (fun th => Q2R (pi th) * Q2R (pi th) * lik th * f th) Ts) / total (map (fun th => Q2R (pi th) * Q2R (pi th) * lik th) Ts).
Proof.
  intros m0 f Hm Hn. assert (P0 : 0 < m0) by (rewrite <- (Hm 0%nat Hn); apply mass_pos, Hn).
  rewrite <- (quotient (/ m0) (fun th => Q2R (pi th) * Q2R (pi th) * lik th * f th) (fun th => Q2R (pi th) * Q2R (pi th) * lik th) Ts) by (apply Rinv_neq_0_compat; lra). unfold limit. f_equal; apply total_ext; intros th Hth; rewrite (ratio m0 th Hm Hn Hth); ring.
Qed.
(** ... which is the posterior with that likelihood if the prior is uniform on its support *)
Theorem C87_uniform : forall mass0 c (f : Theta -> R), (forall i, (i < n)%nat -> mass i = mass0) -> (0 < n)%nat -> 0 < c -> (forall th, In th Ts -> Q2R (pi th) = c) ->
  limit f = total (map (fun th => Q2R (pi th) * lik th * f th) Ts) / total (map (fun th => Q2R (pi th) * lik th) Ts).
Proof.
  intros m0 c f Hm Hn Hc Hu. rewrite (C87_target m0 f Hm Hn). rewrite <- (quotient c (fun th => Q2R (pi th) * lik th * f th) (fun th => Q2R (pi th) * lik th) Ts) by lra. f_equal; apply total_ext; intros th Hth; rewrite Hu by exact Hth; ring.
Qed.
End PMC.
Print Assumptions C87_law.
Print Assumptions C87_average.
Print Assumptions C87_enough.
Print Assumptions C87_target.
Print Assumptions C87_uniform.

(** Cases: two parameters; proposals are fair coins; the data are the parameter, with a likelihood of lt for true and 1 for false. *)
Module Coin.
Local Notation A := (nat * bool)%type.
Section N.
Variable n : nat.
Hypothesis np : (0 < n)%nat.
Variable pi : bool -> Q.
Hypothesis pi_pos : forall b, (0 < pi b)%Q.
Variable lt : R.
Hypothesis lt_pos : 0 < lt.
Definition outs : list A := list_prod (seq 0 n) [true; false].
Definition p : A -> R := fun _ => / (2 * INR n).
Definition q : wpop bool := mkwp (map (fun _ => false) (seq 0 n)) (map (fun _ => XR (/ INR n)) (seq 0 n)).
Definition kupd (_ : wpop bool) (i : nat) (l : list A) : list A * bool := match l with [] => ([], false) | a :: l' => (l', snd a) end.
Definition choiceN (_ m : nat) (_ : list xr) (l : list A) : res (list A * list nat) := if (length l <? m)%nat then Err OutOfFuel else Ok (skipn m l, map fst (firstn m l)).
Definition simc (th : bool) (l : list A) : list A * option bool := match l with [] => ([], None) | _ :: l' => (l', Some th) end.
Definition L (y : bool) : R := if y then ln lt else 0.
Definition run (k : nat) (l : list A) : res (mstate bool) :=
  last_pm A bool bool (fun th _ => (true, th)) (fun th _ => Fin (pi th)) kupd (fun _ _ _ => XR (1 / 2)) simc (fun y => XR (L y)) choiceN n 1 1 0 (mkms bool q 0 false [] []) k l.
Lemma nR : 0 < INR n. Proof. apply lt_0_INR, np. Qed.
Lemma law : Law outs p.
Proof.
  pose proof nR. split; [intros; unfold p; apply Rlt_le, Rinv_0_lt_compat; lra|]. unfold outs. rewrite total_prod. rewrite (total_ext _ (fun _ => / INR n)).
  - rewrite total_const_map, seq_length. field. lra.
  - intros i _. unfold p. cbn [map]. rewrite !total_cons. change (total []) with 0. field. lra.
Qed.
Lemma pick_law : forall i, (i < n)%nat -> chance outs p (fun a => if Nat.eq_dec (fst a) i then true else false) = / INR n.
Proof.
  intros i Hi. pose proof nR. unfold chance, expect, outs. rewrite total_prod. rewrite (total_ext _ (fun j => if (if Nat.eq_dec j i then true else false) then / INR n else 0)).
  - apply (total_single (seq 0 n) (fun j => if Nat.eq_dec j i then true else false) i); [apply seq_NoDup|apply in_seq; lia|]. intros j _. destruct (Nat.eq_dec j i); split; congruence.
  - intros j _. unfold p. cbn [map fst]. rewrite !total_cons. change (total []) with 0. destruct (Nat.eq_dec j i); field; lra.
Qed.
Lemma prop_law (i : nat) : forall th, (i < n)%nat -> chance outs p (fun a => if Bool.bool_dec (snd a) th then true else false) = 1 / 2.
Proof.
  intros th _. pose proof nR. unfold chance, expect, outs. rewrite total_prod. rewrite (total_ext _ (fun _ => / (2 * INR n))).
  - rewrite total_const_map, seq_length. field. lra.
  - intros j _. unfold p. cbn [map snd]. rewrite !total_cons. change (total []) with 0. destruct th; cbn; field; lra.
Qed.
Definition Ts : list bool := [true; false].
Definition w (i : nat) : R := / INR n.
Definition kern (i : nat) (th : bool) : R := 1 / 2.
Definition prop (i : nat) (a : A) : bool := snd a.
Definition dat (th : bool) (a : A) : bool := th.
Lemma two (f : bool -> R) : total (map f Ts) = f true + f false.
Proof. unfold Ts. cbn [map]. rewrite !total_cons. change (total []) with 0. ring. Qed.
Lemma mass_eq i : mass bool kern Ts i = 1. Proof. unfold mass. rewrite two. unfold kern. lra. Qed.
Lemma mix_eq th : mixture bool n w kern th = 1 / 2.
Proof. pose proof nR. unfold mixture, w, kern. rewrite total_const_map, seq_length. field. lra. Qed.
Lemma trunc_eq th : truncated bool n w kern Ts th = 1 / 2.
Proof. pose proof nR. unfold truncated. rewrite (total_ext _ (fun _ => / INR n * (1 / 2))) by (intros i _; rewrite mass_eq; unfold w, kern; field; lra). rewrite total_const_map, seq_length. field. lra. Qed.
Definition f (th : bool) : R := if th then 1 else 0.
Notation lim := (limit A bool bool outs p n w kern pi L dat Ts f).
Notation jnt := (joint A bool p n w kern Ts).
Notation UU := (U A bool bool Bool.bool_dec n w kern pi L dat Ts).
Lemma lik_eq th : lik A bool bool outs p L dat th = if th then lt else 1.
Proof. unfold lik. rewrite (expect_ext _ _ _ _ (fun _ => if th then lt else 1)); [apply expect_const, law|]. intros a _. unfold dat, L. destruct th; [apply exp_ln, lt_pos|apply exp_0]. Qed.
Lemma lim_eq : lim = Q2R (pi true) ^ 2 * lt / (Q2R (pi true) ^ 2 * lt + Q2R (pi false) ^ 2).
Proof.
  assert (H : forall b, 0 < Q2R (pi b)) by (intros b; replace 0 with (Q2R 0) by (unfold Q2R; cbn; lra); apply Qlt_Rlt, pi_pos).
  unfold limit. rewrite !two, !trunc_eq, !mix_eq, !lik_eq. unfold f. field. pose proof (Rmult_lt_0_compat _ _ (pow_lt _ 2 (H true)) lt_pos). pose proof (pow_lt _ 2 (H false)). lra.
Qed.
Lemma jnt_expect g : expect (list_prod Ts outs) jnt (fun x => g (fst x)) = (g true + g false) / 2.
Proof.
  unfold expect. rewrite total_prod, two. unfold joint. cbn [fst snd]. destruct law as [_ HL].
  rewrite (total_ext (fun a => truncated bool n w kern Ts true * p a * g true) (fun a => (1 / 2 * g true) * p a)), (total_ext (fun a => truncated bool n w kern Ts false * p a * g false) (fun a => (1 / 2 * g false) * p a)) by (intros; rewrite trunc_eq; ring). rewrite !total_scale, HL. field.
Qed.
Definition V (th : bool) : R := if th then 2 * Q2R (pi true) ^ 2 * lt else 2 * Q2R (pi false) ^ 2.
Lemma U_eq x : UU x = V (fst x).
Proof. unfold U. rewrite mix_eq. destruct x as [[] a]; cbn [fst snd dat L]; unfold dat, L, V; cbn [in_dec Ts]; (destruct (in_dec _ _ _) as [|X]; [|exfalso; apply X; cbn; auto]); [rewrite exp_ln by exact lt_pos; field|rewrite exp_0; field]. Qed.
Lemma inside : forall th, In th Ts <-> ~ (pi th == 0)%Q.
Proof. intros th. split; [intros _ X; specialize (pi_pos th); rewrite X in pi_pos; discriminate|]. intros _. destruct th; cbn; auto. Qed.
Lemma enough e d m : 0 < e -> m = lim -> let EV := (V true + V false) / 2 in
  4 * (((V true - EV) ^ 2 + (V false - EV) ^ 2) / 2 + ((V true * (1 - m)) ^ 2 + (V false * (0 - m)) ^ 2) / 2 / e ^ 2) / (INR n * EV ^ 2) < d -> exists k0, forall k, (k0 <= k)%nat ->
  prob outs p (n + k) (fun l => match run k l with Ok s' => match latest bool s' with Some (rows, ws) => negb (far e (weighted f rows ws) m) | None => false end | Err _ => false end) > 1 - d.
Proof.
  intros He -> EV HB. assert (X1 : expect (list_prod Ts outs) jnt UU = EV) by (rewrite (expect_ext _ _ _ _ (fun x => V (fst x))) by (intros; apply U_eq); apply jnt_expect).
  apply (C87_enough A bool bool Bool.bool_dec outs p law (fun th _ => (true, th)) (fun th _ => Fin (pi th)) kupd (fun _ _ _ => XR (1 / 2)) simc (fun y => XR (L y)) choiceN q n (fun _ => false) w kern pi L fst prop dat Ts); try assumption; try reflexivity.
  - intros th. apply Qlt_le_weak, pi_pos.
  - intros l1 l2 Hl. unfold choiceN. destruct (Nat.ltb_spec (length (l1 ++ l2)) n) as [X|_]; [rewrite app_length in X; lia|]. rewrite skipn_app, firstn_app, <- Hl, skipn_all, firstn_all, Nat.sub_diag. cbn [skipn firstn app]. rewrite app_nil_r. reflexivity.
  - intros l Hl. exists OutOfFuel. unfold choiceN. destruct (Nat.ltb_spec (length l) n); [reflexivity|lia].
  - intros a Ha. apply in_prod_iff with (x := fst a) (y := snd a) in Ha || (destruct a; apply in_prod_iff in Ha). destruct Ha as [Ha _]. apply in_seq in Ha. cbn [fst] in *. lia.
  - exact pick_law.
  - intros i th Hi. apply (prop_law i th Hi).
  - repeat constructor; cbn; intuition discriminate.
  - exact inside.
  - intros i _. rewrite mass_eq. lra.
  - intros th _. rewrite mix_eq. lra.
  - lia.
  - left. reflexivity.
  - rewrite X1. unfold variance. rewrite X1. rewrite (expect_ext _ _ _ (fun a => (UU a - EV) ^ 2) (fun x => (fun th => (V th - EV) ^ 2) (fst x))) by (intros; rewrite U_eq; reflexivity). rewrite (jnt_expect (fun th => (V th - EV) ^ 2)).
    rewrite (expect_ext _ _ _ (fun x => (UU x * (f (fst x) - lim)) ^ 2) (fun x => (fun th => (V th * (f th - lim)) ^ 2) (fst x))) by (intros; rewrite U_eq; reflexivity). rewrite (jnt_expect (fun th => (V th * (f th - lim)) ^ 2)). exact HB.
Qed.
End N.
(** a uniform prior and a likelihood of 3: the posterior mean is 3/4; a thousand samples *)
Definition flat (_ : bool) : Q := 1 # 2.
Example C87_case : exists k0, forall k, (k0 <= k)%nat ->
  prob (outs 1000) (p 1000) (1000 + k) (fun l => match run 1000 flat 3 k l with Ok s' => match latest bool s' with Some (rows, ws) => negb (far (1 / 10) (weighted f rows ws) (3 / 4)) | None => false end | Err _ => false end) > 1 - 1 / 10.
Proof.
  assert (np : (0 < 1000)%nat) by (apply Nat.ltb_lt; reflexivity). assert (F : Q2R (flat true) = 1 / 2) by (unfold flat, Q2R; cbn; lra).
  apply (enough 1000 np flat (fun _ => eq_refl) 3 ltac:(lra)); [lra|rewrite lim_eq by (assumption || lra || reflexivity); change (flat false) with (flat true); rewrite F; lra|].
  unfold V. change (flat false) with (flat true). rewrite F. replace (INR 1000) with 1000 by (rewrite INR_IZR_INZ; reflexivity). lra.
Qed.
Definition skew (b : bool) : Q := if b then 3 # 4 else 1 # 4.
Lemma away : forall d, 0 < d -> exists n0, forall n, (n0 <= n)%nat -> exists k0, forall k, (k0 <= k)%nat ->
  prob (outs n) (p n) (n + k) (fun l => match run n skew 1 k l with Ok s' => match latest bool s' with Some (rows, ws) => far (1 / 12) (weighted f rows ws) (3 / 4) | None => false end | Err _ => false end) > 1 - d.
Proof.
  intros d Hd. destruct (archimed (100 / d)) as [Ha _]. set (z := Rdefinitions.up (100 / d)) in *. exists (S (Z.to_nat z)). intros n Hn. assert (np : (0 < n)%nat) by lia. pose proof (nR n np) as HN.
  assert (HB : 100 / INR n < d).
  { assert (P : 0 < 100 / d) by (apply Rdiv_lt_0_compat; lra). assert (X : 100 / d < INR n).
    { eapply Rlt_le_trans; [exact Ha|]. rewrite INR_IZR_INZ. apply IZR_le. assert (0 < z)%Z by (apply lt_IZR; lra). lia. }
    apply Rmult_lt_reg_r with (INR n); [exact HN|]. unfold Rdiv in *. rewrite Rmult_assoc, Rinv_l, Rmult_1_r by lra. apply Rmult_lt_compat_r with (r := d) in X; [|exact Hd]. rewrite Rmult_assoc, Rinv_l in X by lra. lra. }
  assert (F1 : Q2R (skew true) = 3 / 4) by (unfold skew, Q2R; cbn; lra). assert (F0 : Q2R (skew false) = 1 / 4) by (unfold skew, Q2R; cbn; lra).
  assert (SP : forall b, (0 < skew b)%Q) by (intros []; reflexivity).
  destruct (enough n np skew SP 1 ltac:(lra) (1 / 20) d (9 / 10) ltac:(lra) ltac:(rewrite lim_eq, F1, F0 by (assumption || lra); lra)) as (k0 & K).
  { eapply Rle_lt_trans; [|exact HB]. unfold V. rewrite F1, F0. assert (G : forall a b c, b <> 0 -> c <> 0 -> a / (b * c) = a / c * / b) by (intros; field; split; assumption).
    match goal with |- 4 * ?V / (INR n * ?W) <= _ => assert (HU : 0 < W) by (match goal with |- 0 < ?x ^ 2 => apply pow_lt; lra end); assert (HV : 4 * V / W <= 100) by lra; rewrite (G (4 * V) (INR n) W) by (lra || apply Rgt_not_eq, HU) end.
    apply Rmult_le_compat_r; [apply Rlt_le, Rinv_0_lt_compat; assumption|exact HV]. }
  exists k0. intros k Hk. specialize (K k Hk). eapply Rlt_le_trans; [exact K|]. apply (prob_le _ (outs n) (p n) (law n np)). intros l. destruct (run n skew 1 k l) as [s'|]; [|discriminate]. destruct (latest bool s') as [[rows ws]|]; [|discriminate]. set (x := weighted f rows ws).
  unfold far. destruct (Rlt_dec (1 / 20) (Rabs (x - 9 / 10))) as [|N]; [discriminate|]. intros _. destruct (Rlt_dec (1 / 12) (Rabs (x - 3 / 4))) as [|N']; [reflexivity|]. exfalso. apply N'. apply Rnot_lt_le in N.
  assert (- (1 / 20) <= x - 9 / 10) by (pose proof (Rle_abs (- (x - 9 / 10))) as Y0; rewrite Rabs_Ropp in Y0; lra). rewrite Rabs_right by lra. lra.
Qed.
End Coin.
(** C87 in general: the averages do not approach the posterior mean.  Prior 3/4 and 1/4, constant likelihood: the posterior mean is 3/4, but the probability that the recorded average is more
    than 1/12 away from it approaches 1 with the number of samples. *)
Theorem C87_prior_refuted :
  (forall n, (0 < n)%nat -> let post th := Q2R (Coin.skew th) * lik (nat * bool) bool bool (Coin.outs n) (Coin.p n) (Coin.L 1) Coin.dat th in
     total (map (fun th => post th * (if th then 1 else 0)) [true; false]) / total (map post [true; false]) = 3 / 4) /\
  forall d, 0 < d -> exists n0, forall n, (n0 <= n)%nat -> exists k0, forall k, (k0 <= k)%nat ->
  prob (Coin.outs n) (Coin.p n) (n + k) (fun l => match Coin.run n Coin.skew 1 k l with
    Ok s' => match latest bool s' with Some (rows, ws) => far (1 / 12) (weighted (fun th : bool => if th then 1 else 0) rows ws) (3 / 4) | None => false end | Err _ => false end) > 1 - d.
Proof.
  split; [|exact Coin.away]. intros n np post. unfold post. rewrite !Coin.two, !(Coin.lik_eq n np 1 Rlt_0_1). unfold Coin.skew, Q2R. cbn. lra.
Qed.
Print Assumptions C87_prior_refuted.
