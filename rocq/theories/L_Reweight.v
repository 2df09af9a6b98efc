(** Averages with weights that depend on a threshold chosen from the same draws (C93). *)
From Coq Require Import Reals Lra Lia Qreals.
From Verif Require Import M_Base M_Num L_Num M_Infer L_Infer M_PMCABC M_XReal M_Stats S_Stats L_Stats L_Distance L_PosDef S_Law P_Law L_Law L_Gen S_Consist L_LLN L_PMC L_Histogram P_Law4 S_Reweight.
Open Scope R_scope.

Section Chosen.
Variable B : Type.
Variable xs : list B.
Variable mu : B -> R.
Hypothesis law : Law xs mu.
Notation expect := (S_Law.expect xs mu).
Notation mean := (S_Law.mean xs mu).
Notation prob := (S_Law.prob xs mu).
Notation variance := (S_Consist.variance xs mu).

Lemma prob_le_in k : forall F G, (forall l, length l = k -> Forall (fun b => In b xs) l -> F l = true -> G l = true) -> prob k F <= prob k G.
Proof.
  induction k as [|k IH]; intros F G H; cbn [S_Law.prob].
  - destruct (F []) eqn:E; [rewrite (H [] eq_refl (Forall_nil _) E); lra|]. destruct (G []); lra.
  - apply (expect_le _ _ _ law). intros b Hb. apply IH. intros l Hl Hf. apply H; [cbn; lia|constructor; assumption].
Qed.
Lemma prob_exists {X} (L : list X) (F : X -> list B -> bool) k : prob k (fun l => existsb (fun x => F x l) L) <= total (map (fun x => prob k (F x)) L).
Proof.
  induction L as [|x L IH]; cbn [existsb map].
  - rewrite prob_const by exact law. unfold total. cbn. lra.
  - rewrite total_cons. eapply Rle_trans; [apply (prob_or _ xs mu law)|]. lra.
Qed.
(** the weights may be zero; a sum of weights that is not positive counts as a failure *)
Definition wrong (e : R) (u f : B -> R) (l : list B) (m : R) : bool := if Rlt_dec 0 (total (map u l)) then far e (total (map (fun a => u a * f a) l) / total (map u l)) m else true.
Lemma wrong_law (u f : B -> R) n e m : (0 < n)%nat -> 0 < e -> 0 < expect u -> m = expect (fun a => u a * f a) / expect u ->
  prob n (fun l => wrong e u f l m) <= 4 * (variance u + expect (fun a => (u a * (f a - m)) ^ 2) / e ^ 2) / (INR n * expect u ^ 2).
Proof.
  intros Hn He HU Hm. assert (HN : 0 < INR n) by (apply lt_0_INR; lia). set (U := expect u) in *. set (g := fun a => u a * (f a - m)).
  assert (Hg : expect g = 0).
  { unfold g. rewrite (expect_ext _ _ _ _ (fun a => u a * f a + - m * u a)) by (intros; ring). rewrite expect_plus, expect_scale. fold U. rewrite Hm. field. lra. }
  pose (c1 := INR n * U / 2). pose (c2 := e * (INR n * U / 2)). assert (H1 : 0 < c1) by (unfold c1; apply Rdiv_lt_0_compat; [apply Rmult_lt_0_compat; assumption|lra]). assert (H2 : 0 < c2) by (unfold c2; apply Rmult_lt_0_compat; assumption).
  apply Rle_trans with (prob n (fun l => (if Rlt_dec c1 (Rabs (total (map (fun a => u a - U) l))) then true else false) || (if Rlt_dec c2 (Rabs (total (map g l))) then true else false))).
  - apply prob_le_in. intros l Hl _ Hf.
    destruct (Rlt_dec c1 _) as [|N1]; [reflexivity|]. destruct (Rlt_dec c2 _) as [|N2]; [reflexivity|]. exfalso.
    assert (Sp : c1 <= total (map u l)).
    { rewrite total_minus, total_const_map, Hl in N1. apply Rnot_lt_le in N1. assert (X : - c1 <= total (map u l) - INR n * U) by (pose proof (Rle_abs (- (total (map u l) - INR n * U))) as Y; rewrite Rabs_Ropp in Y; lra). unfold c1 in *. lra. }
    unfold wrong in Hf. destruct (Rlt_dec 0 _) as [S0|NS]; [|lra]. unfold far in Hf. destruct (Rlt_dec e _) as [Hlt|]; [|discriminate]. clear Hf.
    set (S := total (map u l)) in *.
    assert (E : total (map g l) = S * (total (map (fun a => u a * f a) l) / S - m)).
    { unfold g. rewrite (total_ext _ (fun a => u a * f a - m * u a)) by (intros; ring). rewrite total_minus, total_scale. fold S. field. lra. }
    apply N2. rewrite E, Rabs_mult, (Rabs_right S) by lra. unfold c2. fold c1. rewrite (Rmult_comm e). apply Rle_lt_trans with (S * e); [apply Rmult_le_compat_r; lra|]. apply Rmult_lt_compat_l; assumption.
  - eapply Rle_trans; [apply (prob_or _ xs mu law)|]. eapply Rle_trans; [apply Rplus_le_compat; [apply (chebyshev _ xs mu law (fun a => u a - U) n c1 (centre _ xs mu law u) H1)|apply (chebyshev _ xs mu law g n c2 Hg H2)]|].
    right. unfold S_Consist.variance, c1, c2. fold U. change (fun a => (u a * (f a - m)) ^ 2) with (fun a => g a ^ 2). field. split; [lra|]. split; lra.
Qed.
(** weights and quantity depend on a threshold, through finitely many levels *)
Variable u f : Q -> B -> R.
Variable ok : Q -> Prop.
Variable L : list Q.
Hypothesis levels : forall e, ok e -> exists e2, In e2 L /\ forall b, In b xs -> u e b = u e2 b /\ f e b = f e2 b.
Hypothesis level_pos : forall e2, In e2 L -> 0 < expect (u e2).
Definition target (e : Q) : R := expect (fun b => u e b * f e b) / expect (u e).
Theorem chosen_law : forall d, 0 < d -> exists C, forall n (E : list B -> Q), (0 < n)%nat -> (forall l, length l = n -> Forall (fun b => In b xs) l -> ok (E l)) ->
  prob n (fun l => wrong d (u (E l)) (f (E l)) l (target (E l))) <= C / INR n.
Proof.
  intros d Hd. exists (total (map (fun e2 => 4 * (variance (u e2) + expect (fun a => (u e2 a * (f e2 a - target e2)) ^ 2) / d ^ 2) / expect (u e2) ^ 2) L)). intros n E Hn HE. assert (HN : 0 < INR n) by (apply lt_0_INR; lia).
  apply Rle_trans with (prob n (fun l => existsb (fun e2 => wrong d (u e2) (f e2) l (target e2)) L)).
  - apply prob_le_in. intros l Hl Hin Hw. destruct (levels (E l) (HE l Hl Hin)) as (e2 & H2 & Heq). apply existsb_exists. exists e2. split; [exact H2|].
    assert (T : forall (g h : B -> R), (forall b, In b xs -> g b = h b) -> total (map g l) = total (map h l)) by (intros g h H; apply total_ext; intros b Hb; apply H; rewrite Forall_forall in Hin; apply Hin, Hb).
    unfold wrong in Hw |- *. rewrite (T (u (E l)) (u e2)) in Hw by (intros; apply Heq; assumption). rewrite (T (fun a => u (E l) a * f (E l) a) (fun a => u e2 a * f e2 a)) in Hw by (intros b Hb; destruct (Heq b Hb) as [-> ->]; reflexivity).
    replace (target (E l)) with (target e2) in Hw; [exact Hw|]. unfold target. rewrite (expect_ext _ xs mu (u (E l)) (u e2)) by (intros; apply Heq; assumption). rewrite (expect_ext _ xs mu (fun b => u (E l) b * f (E l) b) (fun b => u e2 b * f e2 b)) by (intros b Hb; destruct (Heq b Hb) as [-> ->]; reflexivity). reflexivity.
  - eapply Rle_trans; [apply prob_exists|]. unfold Rdiv at 1. rewrite Rmult_comm, <- total_scale. apply total_le. intros e2 H2.
    eapply Rle_trans; [apply (wrong_law (u e2) (f e2) n d (target e2) Hn Hd (level_pos e2 H2) eq_refl)|]. right. pose proof (level_pos e2 H2). field. split; [|split]; lra.
Qed.
End Chosen.

(** levels of a threshold, with respect to finitely many distances *)
Fixpoint finite_of (D : list num) : list Q := match D with [] => [] | Fin q :: D' => q :: finite_of D' | _ :: D' => finite_of D' end.
Lemma finite_in D q : In (Fin q) D <-> In q (finite_of D).
Proof. induction D as [|[x| | |] D IH]; cbn; [tauto| | | |]; rewrite <- IH; (split; [intros [H|H]|intros H]); try discriminate; try (right; assumption); auto. - injection H as ->. auto. - destruct H as [<-|H]; auto. Qed.
Lemma largest (l : list Q) (e : Q) : exists m, (e <= m)%Q /\ forall q, In q l -> (q < m)%Q.
Proof.
  induction l as [|x l (m & H1 & H2)]; [exists e; split; [apply Qle_refl|intros q []]|]. destruct (Qlt_le_dec x m) as [H|H].
  - exists m. split; [exact H1|]. intros q [<-|Hq]; [exact H|apply H2, Hq].
  - assert (X : (x < x + 1)%Q) by (rewrite <- (Qplus_0_r x) at 1; apply Qplus_lt_r; reflexivity). exists (x + 1)%Q. split; [apply Qle_trans with m; [exact H1|apply Qle_trans with x; [exact H|apply Qlt_le_weak, X]]|].
    intros q [<-|Hq]; [exact X|]. apply Qlt_trans with x; [apply Qlt_le_trans with m; [apply H2, Hq|exact H]|exact X].
Qed.
Lemma smallest (l : list Q) (e : Q) : (forall q, In q l -> (q < e)%Q) \/ exists m, In m l /\ (e <= m)%Q /\ forall q, In q l -> (e <= q)%Q -> (m <= q)%Q.
Proof.
  induction l as [|x l IH]; [left; intros q []|]. destruct (Qlt_le_dec x e) as [Hx|Hx]; destruct IH as [IH|(m & H1 & H2 & H3)].
  - left. intros q [<-|Hq]; [exact Hx|apply IH, Hq].
  - right. exists m. split; [right; exact H1|]. split; [exact H2|]. intros q [<-|Hq] He; [exfalso; apply (Qlt_not_le _ _ Hx He)|apply H3; assumption].
  - right. exists x. split; [left; reflexivity|]. split; [exact Hx|]. intros q [<-|Hq] He; [apply Qle_refl|exfalso; apply (Qlt_not_le _ _ (IH q Hq) He)].
  - right. destruct (Qlt_le_dec m x) as [H|H].
    + exists m. split; [right; exact H1|]. split; [exact H2|]. intros q [<-|Hq] He; [apply Qlt_le_weak, H|apply H3; assumption].
    + exists x. split; [left; reflexivity|]. split; [exact Hx|]. intros q [<-|Hq] He; [apply Qle_refl|apply Qle_trans with m; [exact H|apply H3; assumption]].
Qed.
Lemma levels_of (D : list num) (ef : Q) : exists L, (forall e2, In e2 L -> (ef <= e2)%Q) /\ forall e, (ef <= e)%Q -> exists e2, In e2 L /\ forall d, In d D -> nlt d (Fin e) = nlt d (Fin e2).
Proof.
  destruct (largest (finite_of D) ef) as (m & Hm & Hbig). exists (m :: filter (fun q => Qle_bool ef q) (finite_of D)). split.
  - intros e2 [<-|H]; [exact Hm|]. apply filter_In in H. apply Qle_bool_iff, H.
  - intros e He.
    assert (X : forall e2, (forall q, In q (finite_of D) -> ((q < e)%Q <-> (q < e2)%Q)) -> forall d, In d D -> nlt d (Fin e) = nlt d (Fin e2)).
    { intros e2 H [q| | |] Hd; try reflexivity. apply finite_in in Hd. specialize (H q Hd). unfold nlt. destruct (Qle_bool e q) eqn:E1, (Qle_bool e2 q) eqn:E2; try reflexivity; exfalso.
      - apply Qle_bool_iff in E1. assert (q < e2)%Q by (apply Qnot_le_lt; intros Y; apply Qle_bool_iff in Y; congruence). apply H in H0. exact (Qlt_not_le _ _ H0 E1).
      - apply Qle_bool_iff in E2. assert (q < e)%Q by (apply Qnot_le_lt; intros Y; apply Qle_bool_iff in Y; congruence). apply H in H0. exact (Qlt_not_le _ _ H0 E2). }
    destruct (smallest (finite_of D) e) as [H|(x & H1 & H2 & H3)].
    + exists m. split; [left; reflexivity|]. apply X. intros q Hq. split; intros _; [apply Hbig, Hq|apply H, Hq].
    + exists x. split; [right; apply filter_In; split; [exact H1|apply Qle_bool_iff, Qle_trans with e; assumption]|]. apply X. intros q Hq. split; intros Hlt; [apply Qlt_le_trans with e; assumption|].
      apply Qnot_le_lt. intros Y. exact (Qlt_not_le _ _ Hlt (H3 q Hq Y)).
Qed.
(** normalised weights proportional to u give the average weighted with u *)
Lemma Q2R_sum {X} (q : X -> Q) zs : Q2R (fold_right Qplus 0%Q (map q zs)) = total (map (fun z => Q2R (q z)) zs).
Proof. induction zs as [|z zs IH]; cbn [map fold_right]; [unfold Q2R, total; cbn; lra|]. rewrite Q2R_plus, IH, total_cons. reflexivity. Qed.
Lemma total_nonneg_in {X} (u : X -> R) zs : (forall z, In z zs -> 0 <= u z) -> 0 <= total (map u zs).
Proof. induction zs as [|z zs IH]; intros H; cbn [map]; [unfold total; cbn; lra|]. rewrite total_cons. pose proof (H z (or_introl eq_refl)). assert (0 <= total (map u zs)) by (apply IH; intros; apply H; right; assumption). lra. Qed.
Lemma total_zero_in {X} (u : X -> R) zs : (forall z, In z zs -> 0 <= u z) -> total (map u zs) = 0 -> forall z, In z zs -> u z = 0.
Proof.
  induction zs as [|x zs IH]; intros H E z Hz; [destruct Hz|]. cbn [map] in E. rewrite total_cons in E. pose proof (H x (or_introl eq_refl)). assert (Hr : forall z, In z zs -> 0 <= u z) by (intros; apply H; right; assumption). pose proof (total_nonneg_in u zs Hr).
  destruct Hz as [<-|Hz]; [lra|]. apply IH; try assumption. lra.
Qed.
Lemma weighted_sums {X} (f : X -> R) zs (h : X -> R) : total (map (fun rw => snd rw * f (fst rw)) (combine zs (map h zs))) = total (map (fun z => h z * f z) zs).
Proof. induction zs as [|z zs IH]; [reflexivity|]. cbn [map combine]. rewrite !total_cons, IH. reflexivity. Qed.
Lemma off_wrong {X} (f : X -> R) zs (q : X -> Q) (u : X -> R) c d m : zs <> [] -> 0 < c -> (forall z, In z zs -> 0 <= u z /\ Q2R (q z) = c * u z) ->
  off d (weighted_num f zs (normalise (map (fun z => Fin (q z)) zs))) m = wrong X d u f zs m.
Proof.
  intros Hz Hc H. unfold normalise. replace (map (fun z => Fin (q z)) zs) with (map Fin (map q zs)) by apply map_map. destruct (nsum_fin (map q zs)) as (s & -> & Hs).
  assert (Es : Q2R s = c * total (map u zs)). { rewrite (Qeq_eqR _ _ Hs), Q2R_sum, <- total_scale. apply total_ext. intros z Hz'. apply H, Hz'. }
  assert (U0 : 0 <= total (map u zs)) by (apply total_nonneg_in; intros; apply H; assumption). unfold wrong. rewrite !map_map. destruct (Rlt_dec 0 (total (map u zs))) as [P|N].
  - assert (S0 : ~ (s == 0)%Q) by (intros X0; apply Q2R_zero in X0; pose proof (Rmult_lt_0_compat _ _ Hc P); lra).
    rewrite (map_ext _ (fun z => Fin (q z / s)%Q)) by (intros z; apply ndiv_fin, S0). unfold weighted_num.
    assert (F : forallb (fun w => match w with Fin _ => true | _ => false end) (map (fun z => Fin (q z / s)%Q) zs) = true) by (apply forallb_forall; intros w Hw; apply in_map_iff in Hw; destruct Hw as (z & <- & _); reflexivity).
    rewrite F. cbn [off]. f_equal. rewrite map_map. unfold weighted. rewrite weighted_sums.
    assert (E : forall z, In z zs -> Q2R (q z / s) = / total (map u zs) * u z) by (intros z Hz'; rewrite Q2R_div by exact S0; rewrite Es, (proj2 (H z Hz')); field; lra).
    rewrite (total_ext _ (fun z => / total (map u zs) * (u z * f z)) zs) by (intros z Hz'; rewrite (E z Hz'); ring). rewrite (total_ext (fun z => Q2R (q z / s)) (fun z => / total (map u zs) * u z) zs E). rewrite !total_scale. field. lra.
  - assert (T0 : total (map u zs) = 0) by lra. assert (S0 : (s == 0)%Q) by (apply Q2R_zero; rewrite Es, T0; ring).
    destruct zs as [|z zs']; [contradiction|]. assert (Z : (q z == 0)%Q) by (apply Q2R_zero; rewrite (proj2 (H z (or_introl eq_refl))), (total_zero_in u (z :: zs')); [ring| |exact T0|left; reflexivity]; intros; apply H; assumption).
    unfold weighted_num. cbn [map forallb]. unfold ndiv at 1. rewrite (proj2 (Qeq_bool_iff s 0) S0). apply Qeq_alt in Z. rewrite Z. reflexivity.
Qed.
