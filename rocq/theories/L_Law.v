(** Lemmas for C76: the resampling loop of PMCABC as a finite Markov chain, and its limit. *)
From Coq Require Import Reals Lra Lia.
From Verif Require Import M_Base M_Num L_Num M_Infer M_PMCABC M_XReal M_Stats L_PMC S_Stats L_Stats L_Distance L_PosDef S_Law P_Law.
Open Scope R_scope.

Lemma cv_ext (u v : nat -> R) l : (forall n, u n = v n) -> Un_cv u l -> Un_cv v l.
Proof. intros H C e He. destruct (C e He) as (N & HN). exists N. intros n Hn. rewrite <- H. apply HN, Hn. Qed.
Lemma cv_shift1 (u : nat -> R) l : Un_cv u l -> Un_cv (fun n => u (S n)) l.
Proof. intros C e He. destruct (C e He) as (N & HN). exists N. intros n Hn. apply HN. lia. Qed.
Lemma cv_unshift (u : nat -> R) l : Un_cv (fun n => u (S n)) l -> Un_cv u l.
Proof. intros C e He. destruct (C e He) as (N & HN). exists (S N). intros n Hn. destruct n as [|n]; [lia|]. apply HN. lia. Qed.
Lemma upper_bound {A} (l : list A) (f : A -> R) : exists M, 0 <= M /\ forall a, In a l -> f a <= M.
Proof.
  induction l as [|x l (M & H0 & HM)]; [exists 0; split; [lra|intros a []]|]. exists (Rmax M (f x)). split; [apply Rle_trans with M; [exact H0|apply Rmax_l]|].
  intros a [<-|Ha]; [apply Rmax_r|]. apply Rle_trans with M; [apply HM, Ha|apply Rmax_l].
Qed.
Section Mean.
Variable A : Type.
Variable outs : list A.
Variable p : A -> R.
Hypothesis law : Law outs p.
Lemma expect_le f g : (forall a, In a outs -> f a <= g a) -> expect outs p f <= expect outs p g.
Proof. intros H. unfold expect. apply total_le. intros a Ha. apply Rmult_le_compat_l; [apply (proj1 law), Ha|apply H, Ha]. Qed.
Lemma expect_nonneg f : (forall a, In a outs -> 0 <= f a) -> 0 <= expect outs p f.
Proof. intros H. rewrite <- (expect_const _ outs p 0 law). apply expect_le, H. Qed.
Lemma expect_upper f M : (forall a, In a outs -> f a <= M) -> expect outs p f <= M.
Proof. intros H. rewrite <- (expect_const _ outs p M law). apply expect_le, H. Qed.
Lemma expect_cv f g : (forall a, In a outs -> Un_cv (fun n => f n a) (g a)) -> Un_cv (fun n => expect outs p (f n)) (expect outs p g).
Proof. intros H. unfold expect. apply (total_cv (fun n a => p a * f n a) (fun a => p a * g a)). intros a Ha. apply CV_mult; [apply cv_const|apply H, Ha]. Qed.
Lemma mean_ext k F G : (forall l, length l = k -> F l = G l) -> mean outs p k F = mean outs p k G.
Proof. revert F G. induction k as [|k IH]; intros F G H; cbn [mean]; [apply H; reflexivity|]. apply expect_ext. intros a _. apply IH. intros l Hl. apply H. cbn. lia. Qed.
Lemma mean_const k x : mean outs p k (fun _ => x) = x.
Proof. induction k as [|k IH]; cbn [mean]; [reflexivity|]. rewrite (expect_ext _ _ _ _ (fun _ => x)) by (intros; exact IH). apply expect_const, law. Qed.
End Mean.

Section Loop.
Variables A Theta Y : Type.
Variable outs : list A.
Variable p : A -> R.
Hypothesis law : Law outs p.
Notation pop := (pop Theta).
Variable setp : Theta -> Theta -> bool * Theta.
Variable pdfv : Theta -> Theta -> num.
Variable kupd : pop -> nat -> list A -> list A * Theta.
Variable prior : list A -> list A * Theta.
Variable simc : Theta -> list A -> list A * option Y.
Variable dist : Y -> num.
Variable choice : nat -> list num -> list A -> res (list A * nat).
Variable q : pop.
Variable n : nat.
Variable eps : num.
Variable pi : Theta -> Q.
Variable pick : A -> nat.
Variable prop : nat -> A -> Theta.
Variable dat : Theta -> A -> Y.
Hypothesis set_all : forall th cur, setp th cur = (true, th).
Hypothesis density : forall th cur, pdfv th cur = Fin (pi th).
Hypothesis choice_draw : forall a l, choice n (p_w q) (a :: l) = Ok (l, pick a).
Hypothesis choice_end : exists e, choice n (p_w q) [] = Err e.
Hypothesis kupd_draw : forall i a l, kupd q i (a :: l) = (l, prop i a).
Hypothesis kupd_end : forall i, exists th, kupd q i [] = ([], th) /\ pi th = 0%Q.
Hypothesis sim_draw : forall th a l, simc th (a :: l) = (l, Some (dat th a)).
Hypothesis sim_end : forall th, simc th [] = ([], None).
Notation loop := (resample_loop Theta (list A) Y setp pdfv kupd prior simc dist choice eps n (Some q)).
Notation propose := (propose Theta (list A) pop setp kupd pdfv).
Variable g : Theta -> num -> R.
Definition reward (r : res (Theta * num * nat * Theta)) : R := match r with Ok (th, d, _, _) => g th d | Err _ => 0 end.
Definition zero (th : Theta) : bool := Qeq_bool (pi th) 0.

(** expected reward within k draws: about to choose an index, to perturb sample i, to simulate from th *)
Fixpoint val (k : nat) : R * (nat -> R) * (Theta -> R) :=
  match k with
  | O => (0, fun _ => 0, fun _ => 0)
  | S k' => let '(c, pr, s) := val k' in
      (expect outs p (fun a => pr (pick a)), fun i => expect outs p (fun a => if zero (prop i a) then pr i else s (prop i a)),
       fun th => expect outs p (fun a => if nlt eps (dist (dat th a)) then c else g th (dist (dat th a))))
  end.
Definition vC k := fst (fst (val k)).
Definition vP k i := snd (fst (val k)) i.
Definition vS k th := snd (val k) th.
Lemma vC_S k : vC (S k) = expect outs p (fun a => vP k (pick a)).
Proof. unfold vC, vP. cbn [val]. destruct (val k) as [[c pr] s]. reflexivity. Qed.
Lemma vP_S k i : vP (S k) i = expect outs p (fun a => if zero (prop i a) then vP k i else vS k (prop i a)).
Proof. unfold vS, vP. cbn [val]. destruct (val k) as [[c pr] s]. reflexivity. Qed.
Lemma vS_S k th : vS (S k) th = expect outs p (fun a => if nlt eps (dist (dat th a)) then vC k else g th (dist (dat th a))).
Proof. unfold vC, vS. cbn [val]. destruct (val k) as [[c pr] s]. reflexivity. Qed.

Definition after_sim (f : nat) (counter : nat) (th : Theta) (l : list A) : res (Theta * num * nat * Theta) :=
  let '(r3, y) := simc th l in match y with None => Err TypeError | Some y => loop f th r3 th (dist y) (S counter) end.
Definition after_choice (g0 f counter i : nat) (cur : Theta) (l : list A) : res (Theta * num * nat * Theta) :=
  match propose g0 q i cur l with Err e => Err e | Ok (cur1, r2, th) =>
    let '(r3, y) := simc cur1 r2 in match y with None => Err TypeError | Some y => loop f cur1 r3 th (dist y) (S counter) end end.
Lemma perturb_one i cur l : perturb Theta (list A) pop setp kupd 100 q i cur l = Ok (snd (kupd q i l), fst (kupd q i l), Some (snd (kupd q i l))).
Proof. unfold perturb. change 100%nat with (S 99). cbn [perturb_loop]. destruct (kupd q i l) as [r th]. rewrite set_all. reflexivity. Qed.
Lemma propose_end g0 i cur : exists e, propose g0 q i cur [] = Err e.
Proof.
  revert cur. induction g0 as [|g0 IH]; intros cur; cbn [M_Infer.propose]; [eexists; reflexivity|]. rewrite perturb_one. destruct (kupd_end i) as (th & -> & E). cbn [fst snd].
  unfold pdf_of_prior. rewrite set_all, density. cbn [snd neqb]. rewrite E. cbn. apply IH.
Qed.
Lemma propose_draw g0 i cur a l : propose (S g0) q i cur (a :: l) = if zero (prop i a) then propose g0 q i (prop i a) l else Ok (prop i a, l, prop i a).
Proof. cbn [M_Infer.propose]. rewrite perturb_one, kupd_draw. cbn [fst snd]. unfold pdf_of_prior. rewrite set_all, density. reflexivity. Qed.

Lemma exec k :
  (forall f cur th d c l0, (k < f)%nat -> nlt eps d = true -> l0 = tt -> mean outs p k (fun l => reward (loop f cur l th d c)) = vC k) /\
  (forall g0 f i c cur, (k < g0)%nat -> (k < f)%nat -> mean outs p k (fun l => reward (after_choice g0 f c i cur l)) = vP k i) /\
  (forall f c th, (k < f)%nat -> mean outs p k (fun l => reward (after_sim f c th l)) = vS k th).
Proof.
  induction k as [|k (IC & IP & IS)].
  - split; [|split].
    + intros f cur th d c l0 Hf Hd _. cbn [mean]. destruct f as [|f]; [lia|]. cbn [resample_loop]. rewrite Hd. destruct choice_end as (e & ->). reflexivity.
    + intros g0 f i c cur _ _. cbn [mean]. unfold after_choice. destruct (propose_end g0 i cur) as (e & ->). reflexivity.
    + intros f c th _. cbn [mean]. unfold after_sim. rewrite sim_end. reflexivity.
  - split; [|split].
    + intros f cur th d c l0 Hf Hd _. rewrite vC_S. cbn [mean]. apply expect_ext. intros a _. destruct f as [|f]; [lia|].
      rewrite <- (IP (S f) f (pick a) c cur) by lia. apply mean_ext. intros l _. cbn [resample_loop]. rewrite Hd, choice_draw. reflexivity.
    + intros g0 f i c cur Hg Hf. rewrite vP_S. cbn [mean]. apply expect_ext. intros a _. destruct g0 as [|g0]; [lia|]. destruct (zero (prop i a)) eqn:Ez.
      * rewrite <- (IP g0 f i c (prop i a)) by lia. apply mean_ext. intros l _. unfold after_choice. rewrite propose_draw, Ez. reflexivity.
      * rewrite <- (IS f c (prop i a)) by lia. apply mean_ext. intros l _. unfold after_choice. rewrite propose_draw, Ez. reflexivity.
    + intros f c th Hf. rewrite vS_S. cbn [mean]. apply expect_ext. intros a _. destruct (nlt eps (dist (dat th a))) eqn:Ed.
      * rewrite <- (IC f th th (dist (dat th a)) (S c) tt) by first [lia | exact Ed | reflexivity]. apply mean_ext. intros l _. unfold after_sim. rewrite sim_draw. reflexivity.
      * rewrite (mean_ext _ _ _ k _ (fun _ => g th (dist (dat th a)))); [apply mean_const, law|]. intros l _. unfold after_sim. rewrite sim_draw. destruct f; cbn [resample_loop]; rewrite Ed; reflexivity.
Qed.

(** the chance that a perturbation of sample i stays inside the prior *)
Definition keeps (i : nat) : R := chance outs p (fun a => negb (zero (prop i a))).
(** expected reward of a simulation from th, if it is accepted; the chance that it is accepted *)
Definition accA (th : Theta) : R := chance outs p (fun a => negb (nlt eps (dist (dat th a)))).
Definition accG (th : Theta) : R := expect outs p (fun a => if nlt eps (dist (dat th a)) then 0 else g th (dist (dat th a))).
(** expectation over the index and the truncated perturbation *)
Definition via (h : Theta -> R) : R := expect outs p (fun a => expect outs p (fun a' => if zero (prop (pick a) a') then 0 else h (prop (pick a) a')) / keeps (pick a)).
Hypothesis keeps_pos : forall a, In a outs -> 0 < keeps (pick a).
Hypothesis g_nonneg : forall th d, 0 <= g th d.

Lemma mono k : vC k <= vC (S k) /\ (forall i, vP k i <= vP (S k) i) /\ (forall th, vS k th <= vS (S k) th).
Proof.
  induction k as [|k (IC & IP & IS)].
  - split; [rewrite vC_S; unfold vC; cbn; apply expect_nonneg; [exact law|intros; cbn; lra]|]. split; [intros i; rewrite vP_S|intros th; rewrite vS_S]; apply expect_nonneg; try exact law.
    + intros a _. unfold vP, vS. cbn. destruct (zero _); lra.
    + intros a _. unfold vC. cbn. destruct (nlt _ _); [lra|apply g_nonneg].
  - split; [rewrite (vC_S (S k)), (vC_S k); apply expect_le; [exact law|intros; apply IP]|]. split; [intros i; rewrite (vP_S (S k)), (vP_S k) at 1|intros th; rewrite (vS_S (S k)), (vS_S k)]; apply expect_le; try exact law.
    + intros a _. destruct (zero _); [apply IP|apply IS].
    + intros a _. destruct (nlt _ _); [apply IC|lra].
Qed.
Lemma bounded : exists M, forall k, vC k <= M /\ (forall a, In a outs -> vP k (pick a) <= M) /\ (forall a a', In a outs -> In a' outs -> vS k (prop (pick a) a') <= M).
Proof.
  destruct (upper_bound (list_prod (list_prod outs outs) outs) (fun x => let th := prop (pick (fst (fst x))) (snd (fst x)) in g th (dist (dat th (snd x))))) as (M & H0 & HM).
  exists M. assert (HG : forall a a' a'', In a outs -> In a' outs -> In a'' outs -> g (prop (pick a) a') (dist (dat (prop (pick a) a') a'')) <= M).
  { intros a a' a'' Ha Ha' Ha''. apply (HM (a, a', a'')). apply in_prod; [apply in_prod|]; assumption. }
  induction k as [|k (IC & IP & IS)].
  - unfold vC, vP, vS. cbn. split; [exact H0|]. split; intros; exact H0.
  - split; [rewrite vC_S; apply expect_upper; [exact law|exact IP]|]. split.
    + intros a Ha. rewrite vP_S. apply expect_upper; [exact law|]. intros a' Ha'. destruct (zero _); [apply IP, Ha|apply IS; assumption].
    + intros a a' Ha Ha'. rewrite vS_S. apply expect_upper; [exact law|]. intros a'' Ha''. destruct (nlt _ _); [exact IC|apply HG; assumption].
Qed.
Lemma grows (u : nat -> R) M : (forall k, u k <= u (S k)) -> (forall k, u k <= M) -> exists l, Un_cv u l.
Proof. intros H1 H2. destruct (growing_cv u H1) as [l Hl]; [exists M; intros x (k & ->); apply H2|]. exists l. exact Hl. Qed.

Lemma limit : 0 < via accA -> Un_cv vC (via accG / via accA).
Proof.
  intros HZ. destruct bounded as (M & HM).
  destruct (grows vC M (fun k => proj1 (mono k)) (fun k => proj1 (HM k))) as (LC & HC).
  assert (HS : forall th, Un_cv (fun k => vS k th) (accG th + (1 - accA th) * LC)).
  { intros th. apply cv_unshift. apply (cv_ext (fun k => accG th + (1 - accA th) * vC k)).
    - intros k. rewrite vS_S. unfold accG, accA. rewrite <- (chance_neg _ _ _ _ law). unfold chance. rewrite (Rmult_comm _ (vC k)), <- expect_scale, <- expect_plus. apply expect_ext.
      intros a _. destruct (nlt eps (dist (dat th a))); cbn [negb]; ring.
    - apply CV_plus; [apply cv_const|]. apply CV_mult; [apply cv_const|exact HC]. }
  assert (HP : forall a, In a outs -> Un_cv (fun k => vP k (pick a)) (expect outs p (fun a' => if zero (prop (pick a) a') then 0 else accG (prop (pick a) a') + (1 - accA (prop (pick a) a')) * LC) / keeps (pick a))).
  { intros a Ha. destruct (grows (fun k => vP k (pick a)) M (fun k => proj1 (proj2 (mono k)) (pick a)) (fun k => proj1 (proj2 (HM k)) a Ha)) as (LP & HL).
    assert (E : LP = expect outs p (fun a' => if zero (prop (pick a) a') then LP else accG (prop (pick a) a') + (1 - accA (prop (pick a) a')) * LC)).
    { apply (UL_sequence (fun k => vP (S k) (pick a))); [apply (cv_shift1 (fun k => vP k (pick a))), HL|].
      apply (cv_ext (fun k => expect outs p (fun a' => if zero (prop (pick a) a') then vP k (pick a) else vS k (prop (pick a) a')))); [intros k; symmetry; apply vP_S|].
      apply expect_cv. intros a' _. destruct (zero (prop (pick a) a')); [exact HL|apply HS]. }
    replace (expect outs p (fun a' => if zero (prop (pick a) a') then 0 else accG (prop (pick a) a') + (1 - accA (prop (pick a) a')) * LC) / keeps (pick a)) with LP; [exact HL|].
    pose proof (keeps_pos a Ha) as Hk. apply Rmult_eq_reg_r with (keeps (pick a)); [|lra]. unfold Rdiv. rewrite Rmult_assoc, Rinv_l, Rmult_1_r by lra.
    assert (K : expect outs p (fun a' => if zero (prop (pick a) a') then LP else 0) = (1 - keeps (pick a)) * LP).
    { unfold keeps. rewrite <- (chance_neg _ _ _ _ law). unfold chance. rewrite Rmult_comm, <- expect_scale. apply expect_ext. intros a' _. destruct (zero _); cbn [negb]; ring. }
    assert (S2 : LP = expect outs p (fun a' => if zero (prop (pick a) a') then LP else 0) + expect outs p (fun a' => if zero (prop (pick a) a') then 0 else accG (prop (pick a) a') + (1 - accA (prop (pick a) a')) * LC)).
    { rewrite E at 1. rewrite <- expect_plus. apply expect_ext. intros a' _. destruct (zero _); ring. }
    rewrite K in S2. lra. }
  assert (E : LC = via accG + (1 - via accA) * LC).
  { apply (UL_sequence (fun k => vC (S k))); [apply cv_shift1, HC|].
    assert (One : via (fun _ => 1) = 1).
    { unfold via. rewrite (expect_ext _ _ _ _ (fun _ => 1)); [apply expect_const, law|]. intros a Ha. pose proof (keeps_pos a Ha) as Hk.
      replace (expect outs p (fun a' => if zero (prop (pick a) a') then 0 else 1)) with (keeps (pick a)); [field; lra|]. unfold keeps, chance. apply expect_ext. intros a' _. destruct (zero _); reflexivity. }
    replace (via accG + (1 - via accA) * LC) with (expect outs p (fun a => expect outs p (fun a' => if zero (prop (pick a) a') then 0 else accG (prop (pick a) a') + (1 - accA (prop (pick a) a')) * LC) / keeps (pick a))).
    - apply (cv_ext (fun k => expect outs p (fun a => vP k (pick a)))); [intros k; symmetry; apply vC_S|]. apply expect_cv. exact HP.
    - transitivity (via accG + (via (fun _ => 1) * LC + -1 * (via accA * LC))); [|rewrite One; ring].
      unfold via. rewrite !(Rmult_comm _ LC), <- !expect_scale, <- !expect_plus. apply expect_ext. intros a Ha. pose proof (keeps_pos a Ha) as Hk.
      match goal with |- ?x / _ = ?y / _ + (_ * (?z / _) + _ * (_ * (?w / _))) => replace x with (y + (LC * z + -1 * (LC * w))) end; [field; lra|].
      rewrite <- !expect_scale, <- !expect_plus. apply expect_ext. intros a' _. destruct (zero _); ring. }
  replace (via accG / via accA) with LC; [exact HC|]. apply Rmult_eq_reg_r with (via accA); [|lra]. unfold Rdiv. rewrite Rmult_assoc, Rinv_l by lra. lra.
Qed.
End Loop.
