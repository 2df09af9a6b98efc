(** C76: what the weighted samples of PMCABC stand for. *)
From Coq Require Import Reals Lra Lia Qreals.
From Verif Require Import M_Base M_Num L_Num M_Infer L_Infer M_PMCABC M_XReal M_Stats L_PMC S_Stats L_Stats L_Distance L_PosDef L_Histogram S_Law P_Law L_Law.
Open Scope R_scope.

(** grouping the outcomes of a draw by what they lead to *)
Lemma group {A X} (outs : list A) (p : A -> R) (xeq : forall x y : X, {x = y} + {x <> y}) (xs : list X) (f : A -> X) (G : X -> R) :
  NoDup xs -> (forall a, In a outs -> In (f a) xs \/ G (f a) = 0) ->
  expect outs p (fun a => G (f a)) = total (map (fun x => chance outs p (fun a => if xeq (f a) x then true else false) * G x) xs).
Proof.
  intros Hn Hin. unfold chance, expect.
  rewrite (total_ext (fun x => total (map (fun a => p a * (if if xeq (f a) x then true else false then 1 else 0)) outs) * G x) (fun x => total (map (fun a => p a * (if xeq (f a) x then G x else 0)) outs))).
  - rewrite total_swap. apply total_ext. intros a Ha. rewrite total_scale. f_equal. destruct (Hin a Ha) as [Hi|Hz].
    + rewrite (total_ext _ (fun x => if (if xeq (f a) x then true else false) then G (f a) else 0)).
      * symmetry. apply (total_single xs (fun x => if xeq (f a) x then true else false) (f a)); [exact Hn|exact Hi|]. intros x _. destruct (xeq (f a) x) as [E|E]; split; intros X0; congruence.
      * intros x _. destruct (xeq (f a) x) as [E|E]; [rewrite E|]; reflexivity.
    + rewrite Hz. symmetry. rewrite (total_ext _ (fun _ => 0)); [rewrite total_const; ring|]. intros x _. destruct (xeq (f a) x) as [E|E]; [subst x; exact Hz|reflexivity].
  - intros x _. rewrite Rmult_comm, <- total_scale. apply total_ext. intros a _. destruct (xeq (f a) x); ring.
Qed.

Section Population.
Variables A Theta Y : Type.
Variable teq : forall x y : Theta, {x = y} + {x <> y}.
(** one draw of the generator *)
Variable outs : list A.
Variable p : A -> R.
Hypothesis law : Law outs p.
Notation pop := (pop Theta).
Variable setp : Theta -> Theta -> bool * Theta.
Variable pdfv : Theta -> Theta -> num.
Variable kupd : pop -> nat -> list A -> list A * Theta.
Variable kpdf : pop -> Theta -> Theta -> num.
Variable prior : list A -> list A * Theta.
Variable simc : Theta -> list A -> list A * option Y.
Variable dist : Y -> num.
Variable dist_max : num.
Variable choice : nat -> list num -> list A -> res (list A * nat).
(** the previous population (sample i and its weight), the threshold, the prior density, and what a draw a gives: an index, a perturbation of
    sample i, data for the parameters th *)
Variable q : pop.
Variable n : nat.
Variable eps : num.
Variable row : nat -> Theta.
Variable w : nat -> Q.
Variable kern : nat -> Theta -> Q.
Variable pi : Theta -> Q.
Variable pick : A -> nat.
Variable prop : nat -> A -> Theta.
Variable dat : Theta -> A -> Y.
Variable Ts : list Theta.
Hypothesis set_all : forall th cur, setp th cur = (true, th).
Hypothesis density : forall th cur, pdfv th cur = Fin (pi th).
Hypothesis density_nonneg : forall th, (0 <= pi th)%Q.
Hypothesis enters : nlt eps dist_max = true.
(** every operation uses one draw; a run that has used all its draws does not end *)
Hypothesis choice_draw : forall a l, choice n (p_w q) (a :: l) = Ok (l, pick a).
Hypothesis choice_end : exists e, choice n (p_w q) [] = Err e.
Hypothesis kupd_draw : forall i a l, kupd q i (a :: l) = (l, prop i a).
Hypothesis kupd_end : forall i, exists th, kupd q i [] = ([], th) /\ pi th = 0%Q.
Hypothesis sim_draw : forall th a l, simc th (a :: l) = (l, Some (dat th a)).
Hypothesis sim_end : forall th, simc th [] = ([], None).
(** the manager holds the population; indices are drawn with the weights, perturbations with the density of the kernel *)
Hypothesis rows_ok : p_rows q = map row (seq 0 n).
Hypothesis weights_ok : p_w q = map (fun i => Fin (w i)) (seq 0 n).
Hypothesis kpdf_ok : forall i th, (i < n)%nat -> kpdf q (row i) th = Fin (kern i th).
Hypothesis pick_range : forall a, In a outs -> (pick a < n)%nat.
Hypothesis pick_law : forall i, (i < n)%nat -> chance outs p (fun a => if Nat.eq_dec (pick a) i then true else false) = Q2R (w i).
Hypothesis prop_law : forall i th, (i < n)%nat -> chance outs p (fun a => if teq (prop i a) th then true else false) = Q2R (kern i th).
(** [Ts]: the parameters inside the prior *)
Hypothesis Ts_distinct : NoDup Ts.
Hypothesis Ts_density : forall th, In th Ts <-> ~ (pi th == 0)%Q.

(** chance that a perturbation of sample i is inside the prior *)
Definition mass (i : nat) : R := total (map (fun th => Q2R (kern i th)) Ts).
Definition mixture (th : Theta) : R := total (map (fun i => Q2R (w i) * Q2R (kern i th)) (seq 0 n)).
Definition truncated (th : Theta) : R := total (map (fun i => Q2R (w i) * (Q2R (kern i th) / mass i)) (seq 0 n)).
(** chance that data simulated from th are within the threshold *)
Definition within (th : Theta) : R := chance outs p (fun a => negb (nlt eps (dist (dat th a)))).
Hypothesis mass_pos : forall i, (i < n)%nat -> 0 < mass i.
Definition proposals : R := total (map (fun th => truncated th * within th) Ts).
Hypothesis some_accepted : 0 < proposals.

(** the run of a worker whose generator gives the draws l, with the weight of its result *)
Definition worker (k : nat) (l : list A) (cur : Theta) : res (Theta * num * nat * Theta) :=
  resample_parameter Theta (list A) Y setp pdfv kupd prior simc dist dist_max (fun _ => l) (fun r => r) choice eps n (Some q) (S k) 0 cur.
Definition weight_of (th cur : Theta) : R := match calculate_weight Theta setp pdfv kpdf n (Some q) th cur with Ok (Fin v, _) => Q2R v | _ => 0 end.

Lemma keeps_mass i : (i < n)%nat -> keeps A Theta outs p pi prop i = mass i.
Proof.
  intros Hi. unfold keeps, mass, chance. pose (G := fun th => if negb (zero Theta pi th) then 1 else 0).
  change (expect outs p (fun a => G (prop i a)) = total (map (fun th => Q2R (kern i th)) Ts)). rewrite (group outs p teq Ts (prop i) G Ts_distinct).
  - apply total_ext. intros th Hth. rewrite (prop_law i th Hi). unfold G. apply Ts_density in Hth. unfold zero. destruct (Qeq_bool (pi th) 0) eqn:E; [apply Qeq_bool_iff in E; contradiction|]. cbn [negb]. ring.
  - intros a _. unfold G, zero. destruct (Qeq_bool (pi (prop i a)) 0) eqn:E; [right; reflexivity|]. left. apply Ts_density. intros X. apply Qeq_bool_iff in X. congruence.
Qed.
Lemma via_group h : via A Theta outs p pi pick prop h = total (map (fun th => truncated th * h th) Ts).
Proof.
  unfold via. pose (G := fun i => expect outs p (fun a' => if zero Theta pi (prop i a') then 0 else h (prop i a')) / keeps A Theta outs p pi prop i).
  change (expect outs p (fun a => G (pick a)) = total (map (fun th => truncated th * h th) Ts)).
  rewrite (group outs p Nat.eq_dec (seq 0 n) pick G (seq_NoDup n 0)) by (intros a Ha; left; apply in_seq; specialize (pick_range a Ha); lia).
  unfold truncated. rewrite (total_ext (fun th => total (map (fun i => Q2R (w i) * (Q2R (kern i th) / mass i)) (seq 0 n)) * h th) (fun th => total (map (fun i => h th * (Q2R (w i) * (Q2R (kern i th) / mass i))) (seq 0 n)))) by (intros; rewrite total_scale; ring).
  rewrite total_swap. apply total_ext. intros i Hi. apply in_seq in Hi. rewrite pick_law by lia. unfold G. rewrite keeps_mass by lia.
  pose (H := fun th => if zero Theta pi th then 0 else h th). change (fun a' => if zero Theta pi (prop i a') then 0 else h (prop i a')) with (fun a' => H (prop i a')).
  rewrite (group outs p teq Ts (prop i) H Ts_distinct).
  - unfold Rdiv. rewrite (Rmult_comm (total _)), <- Rmult_assoc, <- total_scale. apply total_ext. intros th Hth. rewrite prop_law by lia. unfold H. apply Ts_density in Hth. unfold zero. destruct (Qeq_bool (pi th) 0) eqn:E; [apply Qeq_bool_iff in E; contradiction|]. ring.
  - intros a _. unfold H, zero. destruct (Qeq_bool (pi (prop i a)) 0) eqn:E; [right; reflexivity|]. left. apply Ts_density. intros X. apply Qeq_bool_iff in X. congruence.
Qed.
Lemma denominator th : exists s, nsum (map (fun wr => nmul (fst wr) (kpdf q (snd wr) th)) (combine (p_w q) (firstn n (p_rows q)))) = Fin s /\ Q2R s = mixture th.
Proof.
  rewrite weights_ok, rows_ok. rewrite firstn_all2 by (rewrite map_length, seq_length; lia).
  assert (E : map (fun wr => nmul (fst wr) (kpdf q (snd wr) th)) (combine (map (fun i => Fin (w i)) (seq 0 n)) (map row (seq 0 n))) = map Fin (map (fun i => (w i * kern i th)%Q) (seq 0 n))).
  { rewrite map_map. assert (H : forall l, (forall i, In i l -> (i < n)%nat) -> map (fun wr => nmul (fst wr) (kpdf q (snd wr) th)) (combine (map (fun i => Fin (w i)) l) (map row l)) = map (fun i => Fin (w i * kern i th)) l).
    { induction l as [|i l IH]; intros H; [reflexivity|]. cbn [map combine fst snd]. rewrite kpdf_ok by (apply H; left; reflexivity). cbn [nmul]. f_equal. apply IH. intros j Hj. apply H. right. exact Hj. }
    apply H. intros i Hi. apply in_seq in Hi. lia. }
  rewrite E. destruct (nsum_fin (map (fun i => (w i * kern i th)%Q) (seq 0 n))) as (s & -> & Hs). exists s. split; [reflexivity|]. rewrite (Qeq_eqR _ _ Hs). unfold mixture. clear. induction (seq 0 n) as [|i l IH]; cbn [map fold_right]; [unfold Q2R; cbn; unfold total; cbn; lra|].
  rewrite total_cons, Q2R_plus, Q2R_mult, IH. reflexivity.
Qed.
(** the weight: prior density over the density of the mixture of the untruncated kernels *)
Lemma weight_value th cur : weight_of th cur = if Req_EM_T (mixture th) 0 then 0 else Q2R (pi th) / mixture th.
Proof.
  unfold weight_of, calculate_weight, pdf_of_prior. rewrite set_all, density. cbn [snd].
  assert (L1 : length (p_rows q) = n) by (rewrite rows_ok, map_length, seq_length; reflexivity). assert (L2 : length (p_w q) = n) by (rewrite weights_ok, map_length, seq_length; reflexivity).
  rewrite L1, L2, Nat.ltb_irrefl, Nat.eqb_refl. cbn [negb]. destruct (denominator th) as (s & -> & Hs). cbn [nmul ndiv]. rewrite <- Hs. destruct (Qeq_bool s 0) eqn:E.
  - apply Qeq_bool_iff in E. apply Qeq_eqR in E. destruct (Req_EM_T (Q2R s) 0) as [E'|E']; [|exfalso; apply E'; rewrite E; unfold Q2R; cbn; lra]. destruct ((1 * pi th ?= 0)%Q); reflexivity.
  - assert (Hn : ~ (s == 0)%Q) by (intros X; apply Qeq_bool_iff in X; congruence). destruct (Req_EM_T (Q2R s) 0) as [E'|E'].
    + exfalso. apply Hn, eqR_Qeq. rewrite E'. unfold Q2R. cbn. lra.
    + rewrite Q2R_div by exact Hn. rewrite Q2R_mult. replace (Q2R 1) with 1 by (unfold Q2R; cbn; lra). unfold Rdiv. ring.
Qed.
Lemma mixture_nonneg th : 0 <= mixture th.
Proof. unfold mixture. apply total_nonneg, Forall_forall. intros x Hx. apply in_map_iff in Hx. destruct Hx as (i & <- & Hi). apply in_seq in Hi. rewrite <- pick_law, <- (prop_law i th) by lia. apply Rmult_le_pos; apply chance_range, law. Qed.
Lemma weight_nonneg th cur : 0 <= weight_of th cur.
Proof.
  rewrite weight_value. destruct (Req_EM_T (mixture th) 0); [lra|]. pose proof (mixture_nonneg th). apply Rmult_le_pos; [|apply Rlt_le, Rinv_0_lt_compat; lra].
  specialize (density_nonneg th). apply Qle_Rle in density_nonneg. replace (Q2R 0) with 0 in density_nonneg by (unfold Q2R; cbn; lra). exact density_nonneg.
Qed.

(** C76 (law of the samples): as the number of available draws grows, the expectation of any quantity of the returned parameters tends to
    its average with weights [truncated th * within th]: each kernel is restricted to the prior and normalised there. *)
Theorem C76_law : forall (f : Theta -> R) cur, (forall th, 0 <= f th) ->
  Un_cv (fun k => mean outs p k (fun l => match worker k l cur with Ok (th, _, _, _) => f th | Err _ => 0 end))
        (total (map (fun th => truncated th * within th * f th) Ts) / proposals).
Proof.
  intros f cur Hf.
  assert (Hk : forall a, In a outs -> 0 < keeps A Theta outs p pi prop (pick a)) by (intros a Ha; rewrite keeps_mass by (apply pick_range, Ha); apply mass_pos, pick_range, Ha).
  pose proof (limit A Theta Y outs p law dist eps pi pick prop dat (fun th _ => f th) Hk (fun th _ => Hf th)) as L.
  rewrite !via_group in L.
  replace (total (map (fun th => truncated th * accA A Theta Y outs p dist eps dat th) Ts)) with proposals in L by reflexivity.
  specialize (L some_accepted).
  replace (total (map (fun th => truncated th * within th * f th) Ts)) with (total (map (fun th => truncated th * accG A Theta Y outs p dist eps dat (fun th _ => f th) th) Ts)).
  - eapply cv_ext; [|exact L]. intros k. cbn beta.
    destruct (exec A Theta Y outs p law setp pdfv kupd prior simc dist choice q n eps pi pick prop dat set_all density choice_draw choice_end kupd_draw kupd_end sim_draw sim_end (fun th _ => f th) k) as (EC & _ & _).
    rewrite <- (EC (S k) cur cur dist_max 0%nat tt) by first [lia | exact enters | reflexivity]. apply mean_ext. intros l _. unfold worker, resample_parameter, reward.
    destruct (resample_loop _ _ _ _ _ _ _ _ _ _ _ _ _ _ _ _ _ _ _) as [[[[th d] c] cu]|]; reflexivity.
  - apply total_ext. intros th _. rewrite Rmult_assoc. f_equal. unfold accG, within, chance. rewrite Rmult_comm, <- expect_scale. apply expect_ext. intros a _. destruct (nlt eps (dist (dat th a))); cbn [negb]; ring.
Qed.
(** C76 (weighted samples): the expectation of weight times quantity; the truncated and the untruncated mixture do not cancel. *)
Theorem C76_weighted : forall (f : Theta -> R) cur c, (forall th, 0 <= f th) -> (forall th, In th Ts -> 0 < mixture th) ->
  Un_cv (fun k => mean outs p k (fun l => match worker k l cur with Ok (th, _, _, _) => weight_of th c * f th | Err _ => 0 end))
        (total (map (fun th => Q2R (pi th) * within th * f th * (truncated th / mixture th)) Ts) / proposals).
Proof.
  intros f cur c Hf Hm. pose proof (C76_law (fun th => weight_of th c * f th) cur (fun th => Rmult_le_pos _ _ (weight_nonneg th c) (Hf th))) as L.
  replace (total (map (fun th => Q2R (pi th) * within th * f th * (truncated th / mixture th)) Ts)) with (total (map (fun th => truncated th * within th * (weight_of th c * f th)) Ts)); [exact L|].
  apply total_ext. intros th Hth. rewrite weight_value. specialize (Hm th Hth). destruct (Req_EM_T (mixture th) 0); [lra|]. field. lra.
Qed.
(** C76 (when the weights are right): if perturbations of all samples stay inside the prior with the same chance, expectations with the weights are
    proportional to expectations over the ABC posterior, prior density times chance of data within the threshold. *)
Theorem C76_exact : forall m, (forall i, (i < n)%nat -> mass i = m) -> (forall th, In th Ts -> 0 < mixture th) ->
  exists k, 0 < k /\ forall (f : Theta -> R) cur c, (forall th, 0 <= f th) ->
  Un_cv (fun j => mean outs p j (fun l => match worker j l cur with Ok (th, _, _, _) => weight_of th c * f th | Err _ => 0 end))
        (k * total (map (fun th => Q2R (pi th) * within th * f th) Ts)).
Proof.
  intros m Hm Hx. assert (Hm0 : 0 < m).
  { destruct (Nat.eq_dec n 0) as [E|E]; [|rewrite <- (Hm O) by lia; apply mass_pos; lia]. exfalso. assert (X : proposals = 0); [|lra]. unfold proposals. rewrite (total_ext _ (fun _ => 0)); [rewrite total_const; ring|].
    intros th _. unfold truncated. rewrite E. cbn [seq map]. change (total []) with 0. ring. }
  exists (/ (m * proposals)). split; [apply Rinv_0_lt_compat, Rmult_lt_0_compat; assumption|]. intros f cur c Hf.
  replace (/ (m * proposals) * total (map (fun th => Q2R (pi th) * within th * f th) Ts)) with (total (map (fun th => Q2R (pi th) * within th * f th * (truncated th / mixture th)) Ts) / proposals); [apply C76_weighted; assumption|].
  rewrite (total_ext (fun th => Q2R (pi th) * within th * f th * (truncated th / mixture th)) (fun th => / m * (Q2R (pi th) * within th * f th))).
  - rewrite total_scale. field. lra.
  - intros th Hth. specialize (Hx th Hth). replace (truncated th) with (/ m * mixture th); [field; lra|]. unfold truncated, mixture. rewrite <- total_scale. apply total_ext. intros i Hi. apply in_seq in Hi. rewrite Hm by lia. field. lra.
Qed.
End Population.
Print Assumptions C76_law.
Print Assumptions C76_weighted.
Print Assumptions C76_exact.

(** Cases: a uniform prior on 0, 1, 2; two samples 0 and 1 of weight 1/2; steps of -1, 0, 0, 1 (equally likely), after which the position is
    mapped by [fold]; all data are accepted. *)
Module Steps.
Definition A := (nat * Z)%type.
Definition outs : list A := list_prod [0; 1]%nat [-1; 0; 0; 1]%Z.
Definition p : A -> R := fun _ => 1 / 8.
Definition setp (th cur : Z) : bool * Z := (true, th).
Definition pi (th : Z) : Q := if (0 <=? th)%Z && (th <=? 2)%Z then (1 # 3)%Q else 0%Q.
Definition row (i : nat) : Z := Z.of_nat i.
Definition q : pop Z := mkpop (map row (seq 0 2)) (map (fun _ => Fin (1 # 2)) (seq 0 2)).
Definition choice (n : nat) (w : list num) (l : list A) : res (list A * nat) := match l with [] => Err OutOfFuel | a :: l' => Ok (l', fst a) end.
Definition simc (th : Z) (l : list A) : list A * option Z := match l with [] => ([], None) | _ :: l' => (l', Some th) end.
Definition dist (_ : Z) : num := Fin 0.
Section Fold.
Variable fold : Z -> Z.
Definition prop (i : nat) (a : A) : Z := fold (row i + snd a)%Z.
Definition kupd (_ : pop Z) (i : nat) (l : list A) : list A * Z := match l with [] => ([], 99%Z) | a :: l' => (l', prop i a) end.
Definition ind (b : bool) : Q := if b then 1%Q else 0%Q.
Definition kern_at (x th : Z) : Q := ((1 # 4) * ind (fold (x - 1) =? th)%Z + (1 # 2) * ind (fold x =? th)%Z + (1 # 4) * ind (fold (x + 1) =? th)%Z)%Q.
Definition kpdf (_ : pop Z) (x th : Z) : num := Fin (kern_at x th).
Definition run (k : nat) (l : list A) := worker A Z Z setp (fun th _ => Fin (pi th)) kupd (fun l => (l, 0%Z)) simc dist PInf choice q 2 (Fin 1) k l 0%Z.
Definition weight (th : Z) := weight_of Z setp (fun th _ => Fin (pi th)) kpdf q 2 th 0%Z.
End Fold.
Lemma law : Law outs p.
Proof. split; [intros; unfold p; lra|]. unfold outs, p, total. cbn. lra. Qed.
Lemma inside : forall th, In th [0; 1; 2]%Z <-> ~ (pi th == 0)%Q.
Proof.
  intros th. unfold pi. destruct ((0 <=? th)%Z && (th <=? 2)%Z) eqn:E.
  - apply andb_true_iff in E. destruct E as [E1 E2]. apply Z.leb_le in E1, E2. split; [intros _ X; discriminate|]. intros _. cbn. lia.
  - split; [intros [<-|[<-|[<-|[]]]]; discriminate|]. intros X. exfalso. apply X. reflexivity.
Qed.
Lemma pick_law : forall i, (i < 2)%nat -> chance outs p (fun a => if Nat.eq_dec (fst a) i then true else false) = Q2R (1 # 2).
Proof. intros i Hi. destruct i as [|[|i]]; [| |lia]; unfold chance, expect, outs, p, total, Q2R; cbn; lra. Qed.
Lemma pick_range : forall a, In a outs -> (fst a < 2)%nat.
Proof. intros a H. unfold outs in H. cbn in H. repeat (destruct H as [<-|H]; [cbn; lia|]). destruct H. Qed.
Lemma prop_law fold : forall i th, (i < 2)%nat -> chance outs p (fun a => if Z.eq_dec (prop fold i a) th then true else false) = Q2R (kern_at fold (row i) th).
Proof.
  intros i th _. unfold kern_at. rewrite !Q2R_plus, !Q2R_mult. replace (Q2R (1 # 4)) with (1 / 4) by (unfold Q2R; cbn; lra). replace (Q2R (1 # 2)) with (1 / 2) by (unfold Q2R; cbn; lra).
  assert (I : forall x, Q2R (ind (x =? th)%Z) = if (if Z.eq_dec x th then true else false) then 1 else 0) by (intros x; destruct (Z.eq_dec x th) as [->|N]; [rewrite Z.eqb_refl|rewrite (proj2 (Z.eqb_neq _ _) N)]; unfold Q2R; cbn; lra).
  rewrite !I. unfold chance, expect, outs, p. cbn [list_prod map app]. unfold prop. cbn [snd]. rewrite !total_cons. change (total []) with 0. rewrite !Z.add_0_r. replace (row i - 1)%Z with (row i + -1)%Z by lia. lra.
Qed.
Lemma three {B} (f : Z -> R) (X : B) : total (map f [0; 1; 2]%Z) = f 0%Z + f 1%Z + f 2%Z.
Proof. cbn [map]. rewrite !total_cons. change (total []) with 0. ring. Qed.
Definition mass_ fold := mass Z (fun i => kern_at fold (row i)) [0; 1; 2]%Z.
Definition trunc fold := truncated Z 2 (fun _ => 1 # 2)%Q (fun i => kern_at fold (row i)) [0; 1; 2]%Z.
Definition mix fold := mixture Z 2 (fun _ => 1 # 2)%Q (fun i => kern_at fold (row i)).
Lemma mass_eq fold i : mass_ fold i = Q2R (kern_at fold (row i) 0 + kern_at fold (row i) 1 + kern_at fold (row i) 2).
Proof. unfold mass_, mass. rewrite (three _ tt), !Q2R_plus. reflexivity. Qed.
Lemma mix_eq fold th : mix fold th = Q2R ((1 # 2) * kern_at fold 0 th + (1 # 2) * kern_at fold 1 th).
Proof. unfold mix, mixture. cbn [seq map]. rewrite !total_cons. change (total []) with 0. rewrite Q2R_plus, !Q2R_mult. unfold row. cbn [Z.of_nat Pos.of_succ_nat]. ring. Qed.
Lemma trunc_eq fold th : trunc fold th = Q2R (1 # 2) * (Q2R (kern_at fold 0 th) / mass_ fold 0) + Q2R (1 # 2) * (Q2R (kern_at fold 1 th) / mass_ fold 1).
Proof. unfold trunc, truncated. cbn [seq map]. rewrite !total_cons. change (total []) with 0. fold (mass_ fold 0) (mass_ fold 1). unfold row. cbn [Z.of_nat Pos.of_succ_nat]. ring. Qed.
Lemma all_within th : within A Z Z outs p dist (Fin 1) (fun th _ => th) th = 1.
Proof. unfold within, chance. rewrite (expect_ext _ _ _ _ (fun _ => 1)) by reflexivity. apply expect_const, law. Qed.
Lemma Q2R_eq a b x : (x == a # b)%Q -> Q2R x = IZR a / IZR (Zpos b).
Proof. intros H. rewrite (Qeq_eqR _ _ H). reflexivity. Qed.
Definition clamp (th : Z) : Z := (th mod 3)%Z.
Lemma mass_id0 : mass_ (fun x => x) 0 = 3 / 4. Proof. rewrite mass_eq. apply (Q2R_eq 3 4). reflexivity. Qed.
Lemma mass_id1 : mass_ (fun x => x) 1 = 1. Proof. rewrite mass_eq. rewrite (Q2R_eq 1 1) by reflexivity. lra. Qed.
Lemma mix_id : mix (fun x => x) 0 = 3 / 8 /\ mix (fun x => x) 1 = 3 / 8 /\ mix (fun x => x) 2 = 1 / 8.
Proof. rewrite !mix_eq. split; [apply (Q2R_eq 3 8); reflexivity|]. split; [apply (Q2R_eq 3 8); reflexivity|apply (Q2R_eq 1 8); reflexivity]. Qed.
Lemma trunc_id : trunc (fun x => x) 0 = 11 / 24 /\ trunc (fun x => x) 1 = 10 / 24 /\ trunc (fun x => x) 2 = 1 / 8.
Proof.
  rewrite !trunc_eq, mass_id0, mass_id1. rewrite (Q2R_eq 1 2 (1 # 2)) by reflexivity.
  rewrite (Q2R_eq 1 2 (kern_at _ 0 0)) by reflexivity. rewrite (Q2R_eq 1 4 (kern_at _ 1 0)) by reflexivity. rewrite (Q2R_eq 1 4 (kern_at _ 0 1)) by reflexivity.
  rewrite (Q2R_eq 1 2 (kern_at _ 1 1)) by reflexivity. rewrite (Q2R_eq 0 1 (kern_at _ 0 2)) by reflexivity. rewrite (Q2R_eq 1 4 (kern_at _ 1 2)) by reflexivity. split; [lra|]. split; lra.
Qed.
Lemma truncated_case :
  (forall th, In th [0; 1; 2]%Z -> Q2R (pi th) * within A Z Z outs p dist (Fin 1) (fun th _ => th) th = 1 / 3) /\
  forall z, In z [0; 1; 2]%Z -> Un_cv (fun k => mean outs p k (fun l => match run (fun x => x) k l with Ok (th, _, _, _) => weight (fun x => x) th * (if (th =? z)%Z then 1 else 0) | Err _ => 0 end))
    (if (z =? 0)%Z then 11 / 27 else if (z =? 1)%Z then 10 / 27 else 9 / 27).
Proof.
  split; [intros th [<-|[<-|[<-|[]]]]; rewrite all_within, (Q2R_eq 1 3) by reflexivity; lra|]. intros z Hz.
  destruct mix_id as (M0 & M1 & M2). destruct trunc_id as (T0 & T1 & T2).
  assert (Z1 : proposals A Z Z outs p dist 2 (Fin 1) (fun _ => 1 # 2)%Q (fun i => kern_at (fun x => x) (row i)) (fun th _ => th) [0; 1; 2]%Z = 1).
  { unfold proposals. rewrite (three _ tt), !all_within. fold (trunc (fun x => x)). rewrite T0, T1, T2. lra. }
  pose proof (C76_weighted A Z Z Z.eq_dec outs p law setp (fun th _ => Fin (pi th)) (kupd (fun x => x)) (kpdf (fun x => x)) (fun l => (l, 0%Z)) simc dist PInf choice q 2 (Fin 1) row (fun _ => 1 # 2)%Q
    (fun i => kern_at (fun x => x) (row i)) pi fst (prop (fun x => x)) (fun th _ => th) [0; 1; 2]%Z (fun _ _ => eq_refl) (fun _ _ => eq_refl)
    ltac:(intros th; unfold pi; destruct (_ && _); discriminate) eq_refl (fun _ _ => eq_refl) (ex_intro _ OutOfFuel eq_refl) (fun _ _ _ => eq_refl) (fun _ => ex_intro _ 99%Z (conj eq_refl eq_refl))
    (fun _ _ _ => eq_refl) (fun _ => eq_refl) eq_refl eq_refl (fun _ _ _ => eq_refl) pick_range pick_law (prop_law (fun x => x))
    ltac:(repeat (constructor; [cbn; lia|]); constructor) inside) as L.
  fold (mass_ (fun x => x)) in L. specialize (L ltac:(intros [|[|i]] Hi; [rewrite mass_id0; lra|rewrite mass_id1; lra|lia])). rewrite Z1 in L.
  specialize (L ltac:(lra) (fun th => if (th =? z)%Z then 1 else 0) 0%Z 0%Z ltac:(intros th; cbn beta; destruct (th =? z)%Z; lra)).
  fold (mix (fun x => x)) (trunc (fun x => x)) in L. specialize (L ltac:(intros th [<-|[<-|[<-|[]]]]; [change (0 < mix (fun x => x) 0)|change (0 < mix (fun x => x) 1)|change (0 < mix (fun x => x) 2)]; lra)).
  rewrite (three _ tt), !all_within, M0, M1, M2, T0, T1, T2 in L. rewrite !(Q2R_eq 1 3) in L by reflexivity.
  match type of L with Un_cv _ ?v => replace (if (z =? 0)%Z then 11 / 27 else if (z =? 1)%Z then 10 / 27 else 9 / 27) with v; [exact L|] end.
  destruct Hz as [<-|[<-|[<-|[]]]]; cbn [Z.eqb Pos.eqb]; lra.
Qed.
(** when positions wrap around, no perturbation is lost, and the weights are right *)
Example wrapped : exists k, 0 < k /\ forall f : Z -> R, (forall th, 0 <= f th) ->
  Un_cv (fun j => mean outs p j (fun l => match run clamp j l with Ok (th, _, _, _) => weight clamp th * f th | Err _ => 0 end)) (k * (f 0%Z + f 1%Z + f 2%Z)).
Proof.
  assert (M0 : mass_ clamp 0 = 1) by (rewrite mass_eq, (Q2R_eq 1 1) by reflexivity; lra). assert (M1 : mass_ clamp 1 = 1) by (rewrite mass_eq, (Q2R_eq 1 1) by reflexivity; lra).
  assert (X : forall th, In th [0; 1; 2]%Z -> mix clamp th = trunc clamp th /\ 0 < mix clamp th).
  { intros th Hth. assert (E : mix clamp th = trunc clamp th).
    { rewrite mix_eq, trunc_eq, M0, M1, Q2R_plus, !Q2R_mult. lra. }
    split; [exact E|]. rewrite mix_eq. destruct Hth as [<-|[<-|[<-|[]]]]; [rewrite (Q2R_eq 3 8) by reflexivity|rewrite (Q2R_eq 3 8) by reflexivity|rewrite (Q2R_eq 1 4) by reflexivity]; lra. }
  assert (Z1 : 0 < proposals A Z Z outs p dist 2 (Fin 1) (fun _ => 1 # 2)%Q (fun i => kern_at clamp (row i)) (fun th _ => th) [0; 1; 2]%Z).
  { unfold proposals. rewrite (three _ tt), !all_within. fold (trunc clamp). destruct (X 0%Z) as [<- H0]; [cbn; auto|]. destruct (X 1%Z) as [<- H1]; [cbn; auto|]. destruct (X 2%Z) as [<- H2]; [cbn; auto|]. lra. }
  destruct (C76_exact A Z Z Z.eq_dec outs p law setp (fun th _ => Fin (pi th)) (kupd clamp) (kpdf clamp) (fun l => (l, 0%Z)) simc dist PInf choice q 2 (Fin 1) row (fun _ => 1 # 2)%Q
    (fun i => kern_at clamp (row i)) pi fst (prop clamp) (fun th _ => th) [0; 1; 2]%Z (fun _ _ => eq_refl) (fun _ _ => eq_refl)
    ltac:(intros th; unfold pi; destruct (_ && _); discriminate) eq_refl (fun _ _ => eq_refl) (ex_intro _ OutOfFuel eq_refl) (fun _ _ _ => eq_refl) (fun _ => ex_intro _ 99%Z (conj eq_refl eq_refl))
    (fun _ _ _ => eq_refl) (fun _ => eq_refl) eq_refl eq_refl (fun _ _ _ => eq_refl) pick_range pick_law (prop_law clamp)
    ltac:(repeat (constructor; [cbn; lia|]); constructor) inside ltac:(intros [|[|i]] Hi; [change (0 < mass_ clamp 0); lra|change (0 < mass_ clamp 1); lra|lia]) Z1 1
    ltac:(intros [|[|i]] Hi; [exact M0|exact M1|lia]) ltac:(intros th Hth; apply X; exact Hth)) as (k & Hk & L).
  exists (k / 3). split; [lra|]. intros f Hf. specialize (L f 0%Z 0%Z Hf). rewrite (three _ tt), !all_within in L. rewrite !(Q2R_eq 1 3) in L by reflexivity.
  match type of L with Un_cv _ ?v => replace (k / 3 * (f 0%Z + f 1%Z + f 2%Z)) with v; [exact L|] end. field.
Qed.
End Steps.
(** C76, the general claim fails: the comment "truncating the normal like this is fine" (inferences.py:1006-1007).  Prior and likelihood are constant on 0, 1, 2, but
    the weighted samples give 0 more mass than 2: the sample 0 loses a quarter of its perturbations to the outside, which the weights ignore. *)
Theorem C76_truncated_refuted :
  (forall th, In th [0; 1; 2]%Z -> Q2R (Steps.pi th) * within Steps.A Z Z Steps.outs Steps.p Steps.dist (Fin 1) (fun th _ => th) th = 1 / 3) /\
  forall z, In z [0; 1; 2]%Z -> Un_cv (fun k => mean Steps.outs Steps.p k (fun l => match Steps.run (fun x => x) k l with Ok (th, _, _, _) => Steps.weight (fun x => x) th * (if (th =? z)%Z then 1 else 0) | Err _ => 0 end))
    (if (z =? 0)%Z then 11 / 27 else if (z =? 1)%Z then 10 / 27 else 9 / 27).
Proof. exact Steps.truncated_case. Qed.
Print Assumptions C76_truncated_refuted.
