(** C94: what a population of SMCABC stands for after its moves, when it was not resampled. *)
From Coq Require Import Reals Lra Lia Qreals.
From Verif Require Import M_Base M_Num L_Num M_Infer L_Infer M_PMCABC M_RSMCABC M_SMCABC L_SMCABC M_XReal M_Stats L_PMC S_Stats L_Stats L_Distance L_PosDef L_Histogram S_Law P_Law L_Law P_Law3 P_Law4 L_Gen S_Anneal L_Anneal S_Consist L_LLN L_Workers P_Consist2 S_Reweight L_Reweight P_Reweight L_Streams.
Open Scope R_scope.

(** a map whose function does not look at the state *)
Lemma mapT_free {I X C} (g : I -> C -> res (X * C)) (h : I -> res (X * C)) is_ : (forall i c, In i is_ -> g i c = h i) -> forall c,
  match mapT g is_ c with
  | Ok (xs, _) => map (fun i => match h i with Ok (x, _) => Some x | Err _ => None end) is_ = map Some xs
  | Err _ => existsb (fun i => match h i with Ok _ => false | Err _ => true end) is_ = true
  end.
Proof.
  induction is_ as [|i is_ IH]; intros H c; [reflexivity|]. cbn [mapT map existsb]. rewrite (H i c (or_introl eq_refl)). destruct (h i) as [[x c']|]; [|reflexivity].
  specialize (IH (fun j c Hj => H j c (or_intror Hj)) c'). destruct (mapT g is_ c') as [[xs c2]|]; [cbn [map]; rewrite IH; reflexivity|exact IH].
Qed.
(** normalised weights that are numbers *)
Lemma normalise_sum xs qs : xs <> [] -> normalise xs = map Fin qs -> Q2R (fold_right Qplus 0%Q qs) = 1.
Proof.
  intros Hx H. assert (F : exists ps, xs = map Fin ps).
  { unfold normalise in H. revert H. generalize (nsum xs). intros s. revert qs. clear Hx. induction xs as [|x xs IH]; intros [|q qs] H; try discriminate; [exists []; reflexivity|]. cbn [map] in H. injection H as H1 H2. destruct (IH qs H2) as (ps & ->).
    assert (exists r, x = Fin r) as (r & ->). { destruct x as [r| | |]; [exists r; reflexivity|..]; destruct s; try discriminate; cbn in H1; destruct (Qcompare _ _) eqn:?; try discriminate; destruct (Qeq_bool _ _); discriminate. }
    exists (r :: ps). reflexivity. }
  destruct F as (ps & ->). unfold normalise in H. destruct (nsum_fin ps) as (s & E & Hs). rewrite E in H.
  assert (S0 : ~ (s == 0)%Q). { intros X. destruct ps as [|r ps]; [contradiction|]. destruct qs as [|q qs]; [discriminate|]. cbn [map] in H. injection H as H _. cbn in H. apply Qeq_bool_iff in X. rewrite X in H. destruct (r ?= 0)%Q; discriminate. }
  rewrite map_map in H. assert (Eq : qs = map (fun x => (x / s)%Q) ps).
  { clear - H S0. revert qs H. induction ps as [|r ps IH]; intros [|q qs] H; try discriminate; [reflexivity|]. cbn [map] in H. rewrite ndiv_fin in H by exact S0. injection H as H1 H2. cbn [map]. rewrite (IH qs H2), H1. reflexivity. }
  rewrite Eq. rewrite (Qeq_eqR _ _ (sum_div ps s S0)), Q2R_div by exact S0. rewrite <- (Qeq_eqR _ _ Hs). field. intros X. apply S0, Q2R_zero, X.
Qed.
Lemma Q2R_total qs : Q2R (fold_right Qplus 0%Q qs) = total (map Q2R qs).
Proof. induction qs as [|q qs IH]; [unfold Q2R, total; cbn; lra|]. cbn [fold_right map]. rewrite Q2R_plus, total_cons, IH. reflexivity. Qed.
(** what the comparison of the effective sample size with the limit says *)
Lemma ess_bound qs resample : (0 < resample)%Q -> total (map Q2R qs) = 1 -> nlt (ess (map Fin qs)) (Fin resample) = false -> total (map (fun q => Q2R q ^ 2) qs) <= / Q2R resample.
Proof.
  intros Hr Hs He. unfold ess in He. rewrite map_map in He. replace (map (fun x => nmul (Fin x) (Fin x)) qs) with (map Fin (map (fun x => (x * x)%Q) qs)) in He by (rewrite map_map; reflexivity). destruct (nsum_fin (map (fun x => (x * x)%Q) qs)) as (s & Es & Hq). rewrite Es in He.
  assert (E : Q2R s = total (map (fun q => Q2R q ^ 2) qs)) by (rewrite (Qeq_eqR _ _ Hq), Q2R_total, map_map; apply total_ext; intros; rewrite Q2R_mult; ring).
  assert (P : 0 < Q2R s).
  { rewrite E. assert (N : 0 <= total (map (fun q => Q2R q ^ 2) qs)) by (apply total_nonneg_in; intros; apply pow2_ge_0). destruct N as [N|N]; [exact N|]. exfalso. symmetry in N.
    assert (Z : total (map Q2R qs) = 0). { assert (A0 : forall q, In q qs -> Q2R q = 0) by (intros q Hq'; assert (X : Q2R q ^ 2 = 0) by (apply (total_zero_in (fun q => Q2R q ^ 2) qs); [intros; apply pow2_ge_0|exact N|exact Hq']); nra). rewrite (total_ext _ (fun q => 0 * Q2R q)) by (intros q Hq'; rewrite (A0 q Hq'); ring). rewrite total_scale. ring. }
    lra. }
  assert (S0 : ~ (s == 0)%Q) by (intros X; apply Q2R_zero in X; lra). rewrite ndiv_fin in He by exact S0. cbn [nlt] in He. apply negb_false_iff, Qle_bool_iff, Qle_Rle in He. rewrite Q2R_div in He by exact S0. replace (Q2R 1) with 1 in He by (unfold Q2R; cbn; lra).
  rewrite <- E. assert (R0 : 0 < Q2R resample) by (apply Q2R_pos, Hr). apply Rmult_le_reg_r with (Q2R resample); [exact R0|]. rewrite Rinv_l by lra. apply Rmult_le_compat_l with (r := Q2R s) in He; [|lra]. replace (Q2R s * (1 / Q2R s)) with 1 in He by (field; lra). lra.
Qed.

Lemma weighted_by {X} (f : X -> R) n : forall (g : nat -> option X) rows qs, map Some rows = map g (seq 0 n) -> length qs = n ->
  total (map (fun rw => snd rw * f (fst rw)) (combine rows (map Q2R qs))) = total (map (fun i => Q2R (nth i qs 0%Q) * value X f (g i)) (seq 0 n)).
Proof.
  induction n as [|n IH]; intros g [|x rows] [|q qs] H L; try discriminate; [reflexivity|]. cbn [seq map] in H. injection H as H1 H2. cbn [map combine seq nth]. rewrite !total_cons. cbn [fst snd]. rewrite <- H1. cbn [value]. f_equal.
  rewrite <- seq_shift, map_map in H2. rewrite (IH (fun i => g (S i)) rows qs H2) by (cbn in L; lia). rewrite <- seq_shift, map_map. reflexivity.
Qed.
Lemma nth_errors {X} (l : list X) : map Some l = map (nth_error l) (seq 0 (length l)).
Proof. induction l as [|x l IH]; [reflexivity|]. cbn [length seq map]. f_equal. rewrite IH, <- seq_shift, map_map. reflexivity. Qed.
Lemma weighted_fin {X} (f : X -> R) rows qs : total (map Q2R qs) = 1 -> weighted_num f rows (map Fin qs) = Some (total (map (fun rw => snd rw * f (fst rw)) (combine rows (map Q2R qs)))).
Proof.
  intros H. unfold weighted_num. replace (forallb _ (map Fin qs)) with true by (clear; induction qs as [|q qs IH]; [reflexivity|exact IH]). unfold weighted. rewrite map_map. change (map (fun x : Q => Q2R x) qs) with (map Q2R qs). rewrite H. f_equal. field.
Qed.
(** means over finitely many outcomes *)
Section Finite.
Variable A : Type.
Variable outs : list A.
Variable p : A -> R.
Hypothesis law : Law outs p.
Lemma mean_le_in k : forall F G, (forall l, length l = k -> Forall (fun a => In a outs) l -> F l <= G l) -> mean outs p k F <= mean outs p k G.
Proof.
  induction k as [|k IH]; intros F G H; cbn [mean]; [apply H; [reflexivity|constructor]|]. apply (expect_le _ _ _ law). intros a Ha. apply IH. intros l Hl Hf. apply H; [cbn; lia|constructor; assumption].
Qed.
Lemma eventually_in {X} (P : X -> nat -> Prop) xs : (forall x, In x xs -> exists K, forall k, (K <= k)%nat -> P x k) -> exists K, forall k, (K <= k)%nat -> forall x, In x xs -> P x k.
Proof.
  induction xs as [|x xs IH]; intros H; [exists 0%nat; intros k _ y []|]. destruct (H x (or_introl eq_refl)) as (K1 & H1). destruct IH as (K2 & H2); [intros; apply H; right; assumption|]. exists (K1 + K2)%nat. intros k Hk y [<-|Hy]; [apply H1; lia|apply H2; [lia|exact Hy]].
Qed.
Lemma eventually_mean m : forall (F : nat -> list A -> R) (G : list A -> R), (forall l, length l = m -> Forall (fun a => In a outs) l -> exists K, forall k, (K <= k)%nat -> F k l <= G l) ->
  exists K, forall k, (K <= k)%nat -> mean outs p m (F k) <= mean outs p m G.
Proof.
  induction m as [|m IH]; intros F G H; cbn [mean]; [apply H; [reflexivity|constructor]|].
  destruct (eventually_in (fun a k => mean outs p m (fun l => F k (a :: l)) <= mean outs p m (fun l => G (a :: l))) outs) as (K & HK).
  - intros a Ha. apply (IH (fun k l => F k (a :: l))). intros l Hl Hf. apply H; [cbn; lia|constructor; assumption].
  - exists K. intros k Hk. apply (expect_le _ _ _ law). intros a Ha. apply HK; assumption.
Qed.
End Finite.
Section Moves.
Variables A Theta Y : Type.
Variable outs : list A.
Variable p : A -> R.
Hypothesis law : Law outs p.
Variable setp : Theta -> Theta -> bool * Theta.
Variable pdfv : Theta -> Theta -> num.
Variable kupd : pop Theta -> nat -> list A -> list A * Theta.
Variable kupdL : pop Theta -> Theta -> list A -> list A * Theta.
Variable kpdf : pop Theta -> Theta -> Theta -> num.
Variable prior : list A -> list A * Theta.
Variable simc : Theta -> list A -> list A * option Y.
Variable dist : Y -> num.
Variable dist1 : Y -> list num.
Variable bern : num -> list A -> res (list A * bool).
Variable choiceL : list nat -> list A -> res (list A * nat).
Variable uniq : list num -> nat.
Variable draw : nat -> nat -> list num -> res (list nat).
Variable pi : Theta -> Q.
Hypothesis set_all : forall th cur, setp th cur = (true, th).
Hypothesis density : forall th cur, pdfv th cur = Fin (pi th).
Notation accept mk := (sm_accept Theta (list A) Y setp pdfv kupd kupdL kpdf prior simc dist dist1 mk (fun r => r) bern choiceL).
Notation step mk := (sm_step Theta (list A) Y setp pdfv kupd kupdL kpdf prior simc dist dist1 mk (fun r => r) bern choiceL uniq draw).
Notation reweight := (sm_reweight Y dist1 uniq).
Notation sstate := (sstate Theta Y).

(** the result of a move does not depend on the parameters left in the graph *)
Lemma propose_cur {Pop} (up : Pop -> nat -> list A -> list A * Theta) fuel q i c c' r : propose Theta (list A) Pop setp up pdfv fuel q i c r = propose Theta (list A) Pop setp up pdfv fuel q i c' r.
Proof. destruct fuel as [|f]; [reflexivity|]. cbn [propose]. unfold perturb. change 100%nat with (S 99). cbn [perturb_loop]. destruct (up q i r) as [r1 th]. rewrite !set_all. reflexivity. Qed.
Lemma ratios_cur q th theta c c' : ratios Theta setp pdfv kpdf q th theta c = ratios Theta setp pdfv kpdf q th theta c'.
Proof. unfold ratios, pdf_of_prior. rewrite !set_all. reflexivity. Qed.
Lemma keep_cur ys idx cnt theta c c' : M_SMCABC.keep Theta Y setp ys idx cnt theta c = M_SMCABC.keep Theta Y setp ys idx cnt theta c'.
Proof. unfold M_SMCABC.keep. destruct ys; [|reflexivity]. destruct (nth_error _ _); [|reflexivity]. rewrite !set_all. reflexivity. Qed.
Lemma accept_cur mk kernel hits eps q ys fuel si c c' : accept mk kernel hits eps (Some q) ys fuel si c = accept mk kernel hits eps (Some q) ys fuel si c'.
Proof.
  unfold sm_accept. destruct (nth_error (p_w q) (snd si)) as [w|]; [|reflexivity]. destruct (nth_error (p_rows q) (snd si)) as [theta|]; [|reflexivity]. destruct (nlt (Fin 0) w); [|rewrite (keep_cur _ _ _ _ c c'); reflexivity].
  destruct kernel as [|[|kernel]].
  - unfold move0. rewrite (propose_cur kupd fuel q (snd si) c c'). reflexivity.
  - unfold move1. rewrite !set_all. reflexivity.
  - unfold move2. assert (E : hits = 0%nat \/ until_hits Theta (list A) Y dist (pert_sim Theta (list A) Y setp pdfv simc kupd fuel q (snd si)) eps hits fuel c (mk (fst si)) [] = until_hits Theta (list A) Y dist (pert_sim Theta (list A) Y setp pdfv simc kupd fuel q (snd si)) eps hits fuel c' (mk (fst si)) []).
    { destruct hits as [|h]; [left; reflexivity|right]. destruct fuel as [|f]; [reflexivity|]. cbn [until_hits]. unfold pert_sim at 1 3. rewrite (propose_cur kupd (S f) q (snd si) c c'). reflexivity. }
    destruct E as [-> | ->]; [|reflexivity]. assert (U : forall g c, until_hits Theta (list A) Y dist g eps 0 fuel c (mk (fst si)) [] = Ok (c, mk (fst si), @nil (Theta * Y))) by (intros; destruct fuel; reflexivity). rewrite !U. cbn [hits_at length seq combine filter map removelast]. unfold hits_at. cbn.
    destruct (choiceL [] (mk (fst si))) as [[r2 L]|]; [|reflexivity]. destruct L; reflexivity.
Qed.
(** the parameters and data that particle i has after its move *)
Definition moved_to (kernel hits : nat) (eps : num) (q : pop Theta) (ys : list Y) (c0 : Theta) (i k : nat) (l : list A) : option (Theta * Y) :=
  match accept (fun _ => l) kernel hits eps (Some q) (Some ys) (k + 1) (0%Z, i) c0 with Ok (th, y, _, _, _) => Some (th, y) | Err _ => None end.
(** one iteration; every worker has its own k draws *)
Definition next_step (kernel hits n steps : nat) (alpha ef resample : Q) (full aStep : nat) (s : sstate) (k : nat) (ls : list (list A)) : res sstate :=
  step (fun z => nth (Z.to_nat z) ls []) false kernel hits n steps alpha ef resample full (k + 1) aStep Z.of_nat s.
(** the particles with their data *)
Definition particles (s : sstate) : list (Theta * Y) := match m_rows _ _ s, m_ys _ _ s with Some rows, Some ys => combine rows ys | _, _ => [] end.
Definition complete (n : nat) (s : sstate) : Prop :=
  (exists rows ys ds, m_rows _ _ s = Some rows /\ m_ys _ _ s = Some ys /\ m_ds _ _ s = Some ds /\ length rows = n /\ length ys = n) /\ m_eps _ _ s <> [].
Lemma next_value kernel hits n steps alpha ef resample full aStep s k ls e' zs nw : (0 < n)%nat -> complete n s -> length ls = n ->
  next_weights Theta Y dist1 uniq false n alpha ef s = Some (e', zs, nw) -> nlt (ess nw) (Fin resample) = false ->
  match next_step kernel hits n steps alpha ef resample full aStep s k ls with
  | Ok s' => m_w _ _ s' = nw /\ map Some (particles s') = map (fun i => moved_to kernel hits (Fin e') (mkpop (map fst zs) nw) (map snd zs) (m_cur _ _ s) i k (nth i ls [])) (seq 0 n)
  | Err _ => existsb (fun i => negb (there _ (moved_to kernel hits (Fin e') (mkpop (map fst zs) nw) (map snd zs) (m_cur _ _ s) i k (nth i ls [])))) (seq 0 n) = true
  end.
Proof.
  intros Hn ((rows & ys & ds & Hr & Hy & Hd & Lr & Ly) & He) Hl Hw Hs. unfold next_weights in Hw. rewrite Hr, Hy, Hd in Hw. destruct (reweight _ _ _ _ _ _ _ _) as [[e1 nw1]|] eqn:E; [|discriminate]. injection Hw as <- <- <-.
  assert (C1 : map fst (combine rows ys) = rows) by (clear - Lr Ly; revert n ys Lr Ly; induction rows as [|x rows IH]; intros n [|y ys] H1 H2; cbn in *; try reflexivity; [lia|]; f_equal; apply (IH (length rows)); lia).
  assert (C2 : map snd (combine rows ys) = ys) by (clear - Lr Ly; revert n ys Lr Ly; induction rows as [|x rows IH]; intros n [|y ys] H1 H2; cbn in *; try reflexivity; [lia|]; f_equal; apply (IH (length rows)); lia). rewrite C1, C2.
  unfold next_step, sm_step. destruct (rev_last (m_eps _ _ s) 0%Q He) as (es' & ->). rewrite Hd, Hy, Hr, E. cbn [orb]. rewrite Hs.
  unfold seeds_of. replace (combine (map Z.of_nat (seq 0 n)) (seq 0 n)) with (map (fun i => (Z.of_nat i, i)) (seq 0 n)) by (symmetry; rewrite <- (map_id (seq 0 n)) at 2; apply combine_map). rewrite mapT_map.
  set (h := fun i : nat => match accept (fun _ => nth i ls []) kernel hits (Fin e1) (Some (mkpop rows nw1)) (Some ys) (k + 1) (0%Z, i) (m_cur _ _ s) with Ok (th, y, d, cnt, c') => Ok (th, y, d, cnt, c') | Err e => Err e end).
  match goal with |- context [mapT ?g (seq 0 n) _] => pose proof (mapT_free g h (seq 0 n)) as X end.
  assert (Hx : forall i c, In i (seq 0 n) -> (fun (i : nat) (c : Theta) => match accept (fun z => nth (Z.to_nat z) ls []) kernel hits (Fin e1) (Some (mkpop rows nw1)) (Some ys) (k + 1) (Z.of_nat i, i) c with Ok (th, y, d, cnt, c') => Ok (th, y, d, cnt, c') | Err e => Err e end) i c = h i).
  { intros i c _. cbv beta. unfold h. rewrite (accept_cur _ kernel hits (Fin e1) (mkpop rows nw1) (Some ys) (k + 1) (Z.of_nat i, i) c (m_cur _ _ s)). unfold sm_accept. cbn [fst snd]. rewrite Nat2Z.id. reflexivity. }
  specialize (X Hx (m_cur _ _ s)). clear Hx. match type of X with match ?m with _ => _ end => destruct m as [[xs c2]|] end.
  - destruct xs as [|x0 xs0]; [destruct n; [lia|discriminate X]|]. set (xs := x0 :: xs0) in *. clearbody xs. cbn [m_w]. split; [reflexivity|]. unfold particles. cbn [m_rows m_ys]. rewrite combine_map, map_map.
    assert (Y' : map (fun o : option (Theta * Y * num * nat) => match o with Some x => Some (fst (fst x)) | None => None end) (map (fun i => match h i with Ok (x, _) => Some x | Err _ => None end) (seq 0 n)) = map (fun o : option (Theta * Y * num * nat) => match o with Some x => Some (fst (fst x)) | None => None end) (map Some xs)) by (rewrite X; reflexivity).
    rewrite !map_map in Y'. transitivity (map (fun x : Theta * Y * num * nat => Some (fst (fst x))) xs); [apply map_ext; intros [[[? ?] ?] ?]; reflexivity|]. rewrite <- Y'. apply map_ext. intros i. unfold h, moved_to. destruct (accept _ _ _ _ _ _ _ _) as [[[[[? ?] ?] ?] ?]|]; reflexivity.
  - rewrite <- X. clear. induction (seq 0 n) as [|i l IH]; [reflexivity|]. cbn [existsb]. rewrite IH. f_equal. unfold h, moved_to. destruct (accept _ _ _ _ _ _ _ _) as [[[[[? ?] ?] ?] ?]|]; reflexivity.
Qed.
Lemma reweight_shape n alpha ef e0 w ds ys e' nw : reweight false n alpha ef e0 w ds ys = Ok (e', nw) -> length ys = n -> exists xs, nw = normalise xs /\ length xs = n.
Proof.
  intros H L. unfold sm_reweight in H. destruct (_ || _) eqn:C; [discriminate|]. apply orb_false_iff in C. destruct C as [_ C]. apply negb_false_iff, Nat.eqb_eq in C. cbv zeta in H. destruct (bisect _ _ _ _ _) as [e1|]; [|discriminate]. injection H as _ <-. eexists. split; [reflexivity|].
  unfold dm_weights. rewrite map_length, combine_length, map_length, firstn_length, L, C. lia.
Qed.
Lemma population kernel hits n steps alpha ef resample full aStep s e' zs qs (f : Theta * Y -> R) B Mz m d eta :
  (0 < n)%nat -> complete n s -> next_weights Theta Y dist1 uniq false n alpha ef s = Some (e', zs, map Fin qs) -> Forall (fun q => (0 <= q)%Q) qs -> (0 < resample)%Q -> nlt (ess (map Fin qs)) (Fin resample) = false ->
  0 <= B -> (forall z, Rabs (f z) <= B) ->
  (forall i z q, nth_error zs i = Some z -> nth_error qs i = Some q -> (0 < q)%Q ->
     Un_cv (fun k => mean outs p k (fun l => value _ f (moved_to kernel hits (Fin e') (mkpop (map fst zs) (map Fin qs)) (map snd zs) (m_cur _ _ s) i k l))) (Mz z) /\
     Un_cv (fun k => mean outs p k (fun l => if there _ (moved_to kernel hits (Fin e') (mkpop (map fst zs) (map Fin qs)) (map snd zs) (m_cur _ _ s) i k l) then 1 else 0)) 1) ->
  weighted_num Mz zs (map Fin qs) = Some m -> 0 < d -> 0 < eta ->
  exists K, forall k, (K <= k)%nat -> gens outs p n k (fun ls => if match next_step kernel hits n steps alpha ef resample full aStep s k ls with Ok s' => off d (weighted_num f (particles s') (m_w _ _ s')) m | Err _ => true end then 1 else 0)
    <= 4 * B ^ 2 / (Q2R resample * d ^ 2) + eta.
Proof.
  intros Hn Hc Hw Hq Hr He HB Hf HM Hm Hd Heta. set (q := mkpop (map fst zs) (map Fin qs)) in *. set (go := moved_to kernel hits (Fin e') q (map snd zs) (m_cur _ _ s)) in *.
  assert (Sh : length zs = n /\ length qs = n /\ total (map Q2R qs) = 1).
  { destruct Hc as ((rows & ys & ds & H1 & H2 & H3 & H4 & H5) & _). unfold next_weights in Hw. rewrite H1, H2, H3 in Hw. destruct (reweight _ _ _ _ _ _ _ _) as [[e1 nw1]|] eqn:E; [|discriminate]. injection Hw as _ <- Eq. destruct (reweight_shape _ _ _ _ _ _ _ _ _ E H5) as (xs & En & Lx).
    split; [rewrite combine_length, H4, H5; lia|]. rewrite En in Eq. split; [apply (f_equal (@length num)) in Eq; unfold normalise in Eq; rewrite !map_length in Eq; lia|]. rewrite <- Q2R_total. apply (normalise_sum xs); [destruct xs; [cbn in Lx; lia|discriminate]|exact Eq]. }
  destruct Sh as (Lz & Lq & Sq). pose (w := fun i => Q2R (nth i qs 0%Q)).
  pose (M := fun i => match nth_error zs i with Some z => if Qle_bool (nth i qs 0%Q) 0 then f z else Mz z | None => 0 end).
  assert (Idx : forall i, (i < n)%nat -> exists z q0, nth_error zs i = Some z /\ nth_error qs i = Some q0 /\ nth i qs 0%Q = q0 /\ (0 <= q0)%Q).
  { intros i Hi. destruct (nth_error zs i) as [z|] eqn:Ez; [|apply nth_error_None in Ez; lia]. destruct (nth_error qs i) as [q0|] eqn:Eq; [|apply nth_error_None in Eq; lia]. exists z, q0. split; [reflexivity|]. split; [reflexivity|]. split; [apply nth_error_nth, Eq|]. rewrite Forall_forall in Hq. apply Hq. apply nth_error_In in Eq. exact Eq. }
  assert (Stay : forall i z q0 k l, nth_error zs i = Some z -> nth_error qs i = Some q0 -> (q0 <= 0)%Q -> go i k l = Some z).
  { intros i z q0 k l Ez Eq H0. unfold go, moved_to, sm_accept, q. cbn [p_w p_rows fst snd]. rewrite (map_nth_error _ _ _ Eq), (map_nth_error _ _ _ Ez). cbn [nlt]. apply Qle_bool_iff in H0. rewrite H0. cbn [negb]. unfold M_SMCABC.keep. rewrite (map_nth_error _ _ _ Ez), set_all. cbn [snd]. destruct z; reflexivity. }
  destruct (streams_law A (Theta * Y) outs p law n go f B HB Hf M) with (w := w) (d := d) (eta := eta) as (K & HK); [| |exact Hd|exact Heta|].
  - intros i Hi. destruct (Idx i Hi) as (z & q0 & Ez & Eq & En & H0). unfold M. rewrite Ez, En. destruct (Qle_bool q0 0) eqn:Eb.
    + apply Qle_bool_iff in Eb. apply (cv_ext (fun _ => f z)); [|apply cv_const]. intros k. symmetry. rewrite (mean_ext _ _ _ _ _ (fun _ => f z)) by (intros l _; rewrite (Stay i z q0 k l Ez Eq Eb); reflexivity). apply (mean_const _ outs p law).
    + apply (HM i z q0 Ez Eq). apply Qnot_le_lt. intros X. apply Qle_bool_iff in X. congruence.
  - intros i Hi. destruct (Idx i Hi) as (z & q0 & Ez & Eq & En & H0). destruct (Qle_bool q0 0) eqn:Eb.
    + apply Qle_bool_iff in Eb. apply (cv_ext (fun _ => 1)); [|apply cv_const]. intros k. symmetry. rewrite (mean_ext _ _ _ _ _ (fun _ => 1)) by (intros l _; rewrite (Stay i z q0 k l Ez Eq Eb); reflexivity). apply (mean_const _ outs p law).
    + apply (HM i z q0 Ez Eq). apply Qnot_le_lt. intros X. apply Qle_bool_iff in X. congruence.
  - assert (Wm : total (map (fun i => w i * M i) (seq 0 n)) = m).
    { rewrite (weighted_fin _ _ _ Sq) in Hm. injection Hm as <-. rewrite (weighted_by Mz n (nth_error zs) zs qs) by (rewrite ?nth_errors, ?Lz; auto). apply total_ext. intros i Hi. apply in_seq in Hi. destruct (Idx i ltac:(lia)) as (z & q0 & Ez & Eq & En & H0). unfold w, M. rewrite Ez, En. cbn [value].
      destruct (Qle_bool q0 0) eqn:Eb; [|reflexivity]. apply Qle_bool_iff in Eb. assert (Z : Q2R q0 = 0) by (apply Q2R_zero, Qle_antisym; assumption). rewrite Z. ring. }
    assert (W2 : total (map (fun i => w i ^ 2) (seq 0 n)) <= / Q2R resample).
    { eapply Rle_trans; [|apply (ess_bound qs resample Hr Sq He)]. right. unfold w. rewrite <- Lq. clear. induction qs as [|x l IH]; [reflexivity|]. cbn [length seq map nth]. rewrite !total_cons, <- seq_shift, map_map. f_equal. exact IH. }
    assert (R0 : 0 < Q2R resample) by (apply Q2R_pos, Hr). assert (D2 : 0 < d ^ 2) by (apply pow_lt, Hd).
    exists K. intros k Hk. eapply Rle_trans; [|eapply Rle_trans; [apply (HK k Hk)|]].
    + apply (gens_le A outs p law). intros ls Hl. pose proof (next_value kernel hits n steps alpha ef resample full aStep s k ls e' zs (map Fin qs) Hn Hc Hl Hw He) as V. fold q in V. fold go in V. unfold astray. rewrite Wm. destruct (next_step kernel hits n steps alpha ef resample full aStep s k ls) as [s'|].
      * destruct V as [V1 V2]. rewrite V1, (weighted_fin _ _ _ Sq). cbn [off]. rewrite (weighted_by f n (fun i => go i k (nth i ls [])) (particles s') qs V2 Lq). unfold far, w. match goal with |- (if (if ?c then _ else _) then _ else _) <= _ => destruct c end; [destruct (existsb _ _); cbn [orb]; lra|]. destruct (_ || _); lra.
      * rewrite V. cbn [orb]. lra.
    + apply Rplus_le_compat_r. unfold Rdiv. rewrite Rinv_mult. rewrite <- Rmult_assoc. apply Rmult_le_compat_r; [left; apply Rinv_0_lt_compat, D2|]. apply Rmult_le_compat_l; [pose proof (pow2_ge_0 B); lra|exact W2].
Qed.
End Moves.

(** ** The kernel of Del Moral et al. *)
Section Standard.
Variables A Theta Y : Type.
Variable teq : forall x y : Theta, {x = y} + {x <> y}.
Variable outs : list A.
Variable p : A -> R.
Hypothesis law : Law outs p.
Hypothesis p_pos : forall a, In a outs -> 0 < p a.
Variable setp : Theta -> Theta -> bool * Theta.
Variable pdfv : Theta -> Theta -> num.
Variable kupd : pop Theta -> nat -> list A -> list A * Theta.
Variable kupdL : pop Theta -> Theta -> list A -> list A * Theta.
Variable kpdf : pop Theta -> Theta -> Theta -> num.
Variable prior : list A -> list A * Theta.
Variable simc : Theta -> list A -> list A * option Y.
Variable dist : Y -> num.
Variable dist1 : Y -> list num.
Variable bern : num -> list A -> res (list A * bool).
Variable choiceL : list nat -> list A -> res (list A * nat).
Variable uniq : list num -> nat.
Variable draw : nat -> nat -> list num -> res (list nat).
Variable pi : Theta -> Q.
Variable kern : Theta -> Theta -> Q.
Variable prop : Theta -> A -> Theta.
Variable dat : Theta -> A -> Y.
Variable heads : num -> A -> bool.
Variable Ts : list Theta.
(** the final threshold *)
Variable ef : Q.
Hypothesis set_all : forall th cur, setp th cur = (true, th).
Hypothesis density : forall th cur, pdfv th cur = Fin (pi th).
Hypothesis density_nonneg : forall th, (0 <= pi th)%Q.
Hypothesis sim_draw : forall th a l, simc th (a :: l) = (l, Some (dat th a)).
Hypothesis bern_draw : forall v a l, bern v (a :: l) = Ok (l, heads v a).
Hypothesis prop_law : forall th th', In th Ts -> chance outs p (fun a => if teq (prop th a) th' then true else false) = Q2R (kern th th').
Hypothesis Ts_distinct : NoDup Ts.
Hypothesis Ts_density : forall th, In th Ts <-> ~ (pi th == 0)%Q.
Hypothesis coin : forall e, (ef <= e)%Q -> forall th b th' b' v, In th Ts -> In th' Ts -> In b outs -> In b' outs ->
  acceptance Theta Y dist1 (Fin e) pi kern th (dat th b) th' (dat th' b') = Fin v -> chance outs p (heads (Fin v)) = Q2R v.
Hypothesis stays_pos : forall th, In th Ts -> 0 < stays Theta kern Ts th.
Notation moved e := (moved A Theta Y outs p dist1 (Fin e) pi kern dat Ts).
Notation holds := (holds A Theta kupd kpdf pi kern prop).
Notation sstate := (sstate Theta Y).
Notation next_step := (next_step A Theta Y setp pdfv kupd kupdL kpdf prior simc dist dist1 bern choiceL uniq draw).
(** parameters inside the prior with data that they can give *)
Definition supported (z : Theta * Y) : Prop := In (fst z) Ts /\ exists b, In b outs /\ snd z = dat (fst z) b.
Lemma reweight_above n alpha e0 w ds ys e' nw : sm_reweight Y dist1 uniq false n alpha ef e0 w ds ys = Ok (e', nw) -> (ef <= e')%Q.
Proof.
  intros H. unfold sm_reweight in H. destruct (_ || _); [discriminate|]. cbv zeta in H. destruct (bisect _ _ _ _ _) as [e1|]; [|discriminate]. injection H as <- _. destruct (Qltb e1 ef) eqn:X; [apply Qle_refl|apply Qltb_false, X].
Qed.
Lemma moved_const e th y : In th Ts -> moved e (fun _ _ => 1) th y = 1.
Proof.
  intros H. unfold P_Law4.moved. rewrite (total_ext _ (fun th' => / stays Theta kern Ts th * Q2R (kern th th'))).
  - rewrite total_scale. fold (stays Theta kern Ts th). specialize (stays_pos th H). field. lra.
  - intros th' _. rewrite (expect_ext _ _ _ _ (fun _ => 1)) by (intros; ring). rewrite (expect_const _ _ _ _ law). unfold Rdiv. ring.
Qed.
(** C94 (one iteration): when the population is not resampled, the average of f with the recorded weights is close to the weighted average, over the old particles, of the mean of f after one move.
    The chance of being more than d away is at most 4B^2/(resample d^2) in the limit: the comparison of the effective sample size with [resample] is what bounds it. *)
Theorem C94_moved : forall hits n steps alpha resample full aStep (s : sstate) e' zs qs (f : Theta -> Y -> R) B d,
  (0 < n)%nat -> complete Theta Y n s -> next_weights Theta Y dist1 uniq false n alpha ef s = Some (e', zs, map Fin qs) -> Forall (fun q => (0 <= q)%Q) qs ->
  (0 < resample)%Q -> nlt (ess (map Fin qs)) (Fin resample) = false -> (forall th y, Rabs (f th y) <= B) -> 0 < d ->
  Forall supported zs -> (forall i th, nth_error (map fst zs) i = Some th -> holds (mkpop (map fst zs) (map Fin qs)) i th) ->
  exists m, weighted_num (fun z => moved e' f (fst z) (snd z)) zs (map Fin qs) = Some m /\
  forall eta, 0 < eta -> exists K, forall k, (K <= k)%nat ->
    gens outs p n k (fun ls => if match next_step 0 hits n steps alpha ef resample full aStep s k ls with
        | Ok s' => off d (weighted_num (fun z => f (fst z) (snd z)) (particles Theta Y s') (m_w _ _ s')) m
        | Err _ => true
        end then 1 else 0) <= 4 * B ^ 2 / (Q2R resample * d ^ 2) + eta.
Proof.
  intros hits n steps alpha resample full aStep s e' zs qs f B d Hn Hc Hw Hq Hr He Hf Hd Hz Hh.
  assert (Hef : (ef <= e')%Q). { unfold next_weights in Hw. destruct (m_rows _ _ s), (m_ys _ _ s), (m_ds _ _ s); try discriminate. destruct (sm_reweight _ _ _ _ _ _ _ _ _ _ _) as [[e1 nw1]|] eqn:E; [|discriminate]. injection Hw as <- _ _. exact (reweight_above _ _ _ _ _ _ _ _ E). }
  assert (HB : zs = [] \/ 0 <= B) by (destruct zs as [|z l]; [left; reflexivity|right; apply Rle_trans with (Rabs (f (fst z) (snd z))); [apply Rabs_pos|apply Hf]]).
  assert (Wm : exists m, weighted_num (fun z => moved e' f (fst z) (snd z)) zs (map Fin qs) = Some m).
  { unfold weighted_num. replace (forallb _ (map Fin qs)) with true by (clear; induction qs as [|q qs IH]; [reflexivity|exact IH]). eexists. reflexivity. }
  destruct Wm as (m & Hm). exists m. split; [exact Hm|]. intros eta Heta.
  assert (HB' : 0 <= B).
  { destruct HB as [-> |HB]; [|exact HB]. exfalso. destruct Hc as ((rows & ys & ds & H1 & H2 & H3 & H4 & H5) & _). unfold next_weights in Hw. rewrite H1, H2, H3 in Hw. destruct (sm_reweight _ _ _ _ _ _ _ _ _ _ _) as [[e1 nw1]|]; [|discriminate]. injection Hw as _ X _. apply (f_equal (@length _)) in X. rewrite combine_length, H4, H5 in X. cbn in X. lia. }
  refine (population A Theta Y outs p law setp pdfv kupd kupdL kpdf prior simc dist dist1 bern choiceL uniq draw set_all 0 hits n steps alpha ef resample full aStep s e' zs qs (fun z => f (fst z) (snd z)) B (fun z => moved e' f (fst z) (snd z)) m d eta Hn Hc Hw Hq Hr He HB' (fun z => Hf _ _) _ Hm Hd Heta).
  intros i [th y] q Ez Eq Hp. pose proof (map_nth_error fst _ _ Ez) as E1. pose proof (map_nth_error snd _ _ Ez) as E2. cbn [fst snd] in E1, E2. rewrite Forall_forall in Hz. destruct (Hz _ (nth_error_In _ _ Ez)) as (Hth & b & Hb & Hy). cbn [fst snd] in Hth, Hy. subst y.
  assert (L : forall g, Un_cv (fun k => mean outs p k (fun l => match moved_to A Theta Y setp pdfv kupd kupdL kpdf prior simc dist dist1 bern choiceL 0 hits (Fin e') (mkpop (map fst zs) (map Fin qs)) (map snd zs) (m_cur _ _ s) i k l with Some (th', y') => g th' y' | None => 0 end)) (moved e' g th (dat th b))).
  { intros g. refine (cv_ext _ _ _ _ (C77_move A Theta Y teq outs p law p_pos setp pdfv kupd kpdf simc dist1 bern (Fin e') pi kern prop dat heads Ts set_all density sim_draw bern_draw prop_law Ts_distinct Ts_density (coin e' Hef) stays_pos (mkpop (map fst zs) (map Fin qs)) (map snd zs) i th b g (m_cur _ _ s) Hth Hb (Hh i th E1) E2)).
    intros k. apply mean_ext. intros l _. unfold moved_to, sm_accept. cbn [fst snd p_w p_rows]. rewrite (map_nth_error _ _ _ Eq), E1. cbn [nlt]. assert (Z : Qle_bool q 0 = false) by (destruct (Qle_bool q 0) eqn:X; [apply Qle_bool_iff in X; exfalso; apply (Qlt_irrefl 0), Qlt_le_trans with q; assumption|reflexivity]). rewrite Z. cbn [negb].
    destruct (move0 _ _ _ _ _ _ _ _ _ _ _ _ _ _ _ _ _ _) as [[[[th' y'] cnt] c']|]; reflexivity. }
  split.
  - refine (cv_ext _ _ _ _ (L f)). intros k. apply mean_ext. intros l _. destruct (moved_to _ _ _ _ _ _ _ _ _ _ _ _ _ _ _ _ _ _ _ _ _ _ _) as [[th' y']|]; reflexivity.
  - pose proof (L (fun _ _ => 1)) as L1. rewrite (moved_const e' th (dat th b) Hth) in L1. refine (cv_ext _ _ _ _ L1). intros k. apply mean_ext. intros l _. destruct (moved_to _ _ _ _ _ _ _ _ _ _ _ _ _ _ _ _ _ _ _ _ _ _ _) as [[th' y']|]; reflexivity.
Qed.

(** ** Two iterations *)
Variable pth : A -> Theta.
Hypothesis prior_draw : forall a l, prior (a :: l) = (l, pth a).
Hypothesis prior_in : forall a, In a outs -> In (pth a) Ts.
Hypothesis prior_law : forall th, In th Ts -> chance outs p (fun a => if teq (pth a) th then true else false) = Q2R (pi th).
Notation first_step := (first_step A Theta Y setp pdfv kupd kupdL kpdf prior simc dist dist1 bern choiceL uniq draw).
Notation closeness := (closeness Y dist dist1 false).
Lemma worker_draws kernel hits eps ys k l c : (2 <= length l)%nat -> Forall (fun a => In a outs) l -> exists x, W0 A Theta Y setp pdfv kupd kupdL kpdf prior simc dist dist1 bern choiceL kernel hits eps ys k l c = Ok x /\ supported (pair_of Theta Y (fst x)) /\ snd (fst (fst x)) = dist (snd (pair_of Theta Y (fst x))).
Proof.
  intros Hl Hf. destruct l as [|a [|b l]]; [cbn in Hl; lia|cbn in Hl; lia|]. unfold W0, sm_accept, sim1. rewrite prior_draw, sim_draw. eexists. split; [reflexivity|]. cbn [fst snd pair_of]. unfold pair_of. cbn [fst snd]. split; [|reflexivity]. inversion Hf as [|? ? Ha Hf']; subst. inversion Hf' as [|? ? Hb _]; subst. split; [apply prior_in, Ha|exists b; split; [exact Hb|reflexivity]].
Qed.
Lemma first_facts bernton kernel hits n steps alpha ef0 resample full (s : sstate) k l e0 : (0 < n)%nat -> (2 <= k)%nat -> fresh Theta Y s e0 -> length l = (n * k)%nat -> Forall (fun a => In a outs) l ->
  exists s1 zs, first_step bernton kernel hits n steps alpha ef0 resample full s k l = Ok s1 /\ length zs = n /\ Forall supported zs /\
    m_rows _ _ s1 = Some (map fst zs) /\ m_ys _ _ s1 = Some (map snd zs) /\ m_ds _ _ s1 = Some (map dist (map snd zs)) /\ m_w _ _ s1 = ones n /\ m_eps _ _ s1 = m_eps _ _ s.
Proof.
  intros Hn Hk (H1 & H2 & H3 & H4 & H5) Hl Hf. unfold P_Reweight.first_step, sm_step. destruct (rev_last (m_eps _ _ s) 0%Q H5) as (es' & ->). rewrite H4, H1, H2, H3. unfold seeds_of.
  replace (combine (map Z.of_nat (seq 0 n)) (seq 0 n)) with (map (fun i => (Z.of_nat i, i)) (seq 0 n)) by (symmetry; rewrite <- (map_id (seq 0 n)) at 2; apply combine_map). rewrite mapT_map.
  rewrite (mapT_ext _ (fun i c => W0 A Theta Y setp pdfv kupd kupdL kpdf prior simc dist dist1 bern choiceL kernel hits (Fin e0) (m_ys _ _ s) k (chunk k i l) c)) by (intros i c _; unfold W0, sm_accept, sim1; cbn [fst snd]; rewrite Nat2Z.id; destruct (prior _) as [r1 th]; destruct (simc th r1) as [r2 [y|]]; reflexivity).
  assert (G : forall is_ c, (forall i, In i is_ -> (i < n)%nat) -> exists xs c2, mapT (fun i c => W0 A Theta Y setp pdfv kupd kupdL kpdf prior simc dist dist1 bern choiceL kernel hits (Fin e0) (m_ys _ _ s) k (chunk k i l) c) is_ c = Ok (xs, c2) /\ length xs = length is_ /\
    Forall (fun x => supported (pair_of Theta Y x) /\ snd (fst x) = dist (snd (pair_of Theta Y x))) xs).
  { induction is_ as [|i is_ IH]; intros c Hi; [exists [], c; split; [reflexivity|]; split; [reflexivity|constructor]|]. cbn [mapT].
    assert (Lc : length (chunk k i l) = k /\ Forall (fun a => In a outs) (chunk k i l)).
    { unfold chunk. assert (Hi' : (i < n)%nat) by (apply Hi; left; reflexivity). split; [rewrite firstn_length, skipn_length, Hl; nia|]. rewrite Forall_forall in *. intros a Ha. apply Hf. rewrite <- (firstn_skipn (i * k) l). apply in_or_app. right. rewrite <- (firstn_skipn k (skipn (i * k) l)). apply in_or_app. left. exact Ha. }
    destruct Lc as [Lc Fc]. destruct (worker_draws kernel hits (Fin e0) (m_ys _ _ s) k (chunk k i l) c ltac:(lia) Fc) as ([x c1] & -> & Hs & Hd). destruct (IH c1) as (xs & c2 & -> & Lx & Fx); [intros; apply Hi; right; assumption|].
    exists (x :: xs), c2. split; [reflexivity|]. split; [cbn; lia|]. constructor; [split; assumption|exact Fx]. }
  destruct (G (seq 0 n) (m_cur _ _ s)) as (xs & c2 & -> & Lx & Fx); [intros i Hi; apply in_seq in Hi; lia|]. rewrite seq_length in Lx. destruct xs as [|x0 xs0]; [cbn in Lx; lia|]. set (xs := x0 :: xs0) in *. clearbody xs. eexists. exists (map (pair_of Theta Y) xs). split; [reflexivity|].
  cbn [m_rows m_ys m_ds m_w m_eps]. split; [rewrite map_length; exact Lx|]. split; [apply Forall_map; revert Fx; apply Forall_impl; intros x Hx; apply Hx|]. split; [rewrite map_map; reflexivity|]. split; [rewrite map_map; reflexivity|].
  split; [|split; reflexivity]. f_equal. rewrite !map_map. apply map_ext_in. intros x Hx. rewrite Forall_forall in Fx. apply Fx, Hx.
Qed.
(** at the first threshold e0 every data set has N distances below it *)
Variable e0 : Q.
Variable N : nat.
Hypothesis N_pos : (0 < N)%nat.
Hypothesis all_below : forall th b, In th Ts -> In b outs -> below e0 (dist1 (dat th b)) = N.
Notation abc e f := (abc_mean outs p pth dat (closeness e0 e) f).
Lemma abc_average e F : expect outs p (fun a => expect outs p (fun b => closeness e0 e (dat (pth a) b) * F (pth a) (dat (pth a) b))) = / INR N * average A Theta Y outs p dist1 (Fin e) pi dat Ts (fun _ => 1) F.
Proof.
  pose (G := fun th => expect outs p (fun b => closeness e0 e (dat th b) * F th (dat th b))). change (expect outs p (fun a => G (pth a)) = / INR N * average A Theta Y outs p dist1 (Fin e) pi dat Ts (fun _ => 1) F).
  rewrite (group outs p teq Ts pth G Ts_distinct (fun a Ha => or_introl (prior_in a Ha))). unfold average. rewrite <- total_scale. apply total_ext. intros th Hth. rewrite (prior_law th Hth). unfold G.
  rewrite (expect_ext _ _ _ _ (fun b => / INR N * (INR (P_Law4.hits Y dist1 (Fin e) (dat th b)) * F th (dat th b)))).
  - rewrite expect_scale. ring.
  - intros b Hb. unfold P_Reweight.closeness, share. rewrite (all_below th b Hth Hb). destruct (Nat.eqb_spec N 0) as [X|X]; [lia|]. unfold P_Law4.hits, below. unfold Rdiv. ring.
Qed.
Lemma abc_kept e f ms : (forall th, In th Ts -> stays Theta kern Ts th = ms) -> abc e (moved e f) = abc e f.
Proof.
  intros Hm. unfold abc_mean. rewrite (abc_average e (moved e f)), (abc_average e f). rewrite (C77_exact A Theta Y teq outs p law dist1 (Fin e) pi kern prop dat Ts density_nonneg prop_law Ts_density stays_pos ms f Hm). reflexivity.
Qed.
Lemma moved_level f e e2 : (forall a b dd, In a outs -> In b outs -> In dd (dist (dat (pth a) b) :: dist1 (dat (pth a) b)) -> nlt dd (Fin e) = nlt dd (Fin e2)) ->
  forall a b, In a outs -> In b outs -> moved e f (pth a) (dat (pth a) b) = moved e2 f (pth a) (dat (pth a) b).
Proof.
  intros H a b Ha Hb. assert (Hh : forall th b, In th Ts -> In b outs -> P_Law4.hits Y dist1 (Fin e) (dat th b) = P_Law4.hits Y dist1 (Fin e2) (dat th b)).
  { intros th b0 Hth Hb0. assert (X : exists a0, In a0 outs /\ pth a0 = th).
    { assert (P : 0 < chance outs p (fun a => if teq (pth a) th then true else false)) by (rewrite (prior_law th Hth); apply Q2R_pos; pose proof (proj1 (Ts_density th) Hth) as X; specialize (density_nonneg th); apply Qle_lteq in density_nonneg; destruct density_nonneg as [Z|Z]; [exact Z|exfalso; apply X; symmetry; exact Z]).
      destruct (in_dec teq th (map pth outs)) as [I|I]; [apply in_map_iff in I; destruct I as (a0 & E & I); exists a0; split; assumption|]. exfalso. unfold chance in P. rewrite (expect_ext _ _ _ _ (fun _ => 0)) in P; [rewrite (expect_const _ _ _ _ law) in P; lra|]. intros a0 Ha0. destruct (teq (pth a0) th) as [E|]; [|reflexivity]. exfalso. apply I, in_map_iff. exists a0. split; assumption. }
    destruct X as (a0 & Ha0 & <-). unfold P_Law4.hits. f_equal. apply filter_ext_in. intros dd Hdd. apply (H a0 b0 dd Ha0 Hb0). right. exact Hdd. }
  unfold P_Law4.moved. apply total_ext. intros th' Hth'. f_equal. apply expect_ext. intros b' Hb'. unfold accept. rewrite (Hh _ _ Hth' Hb'), (Hh _ _ (prior_in a Ha) Hb). reflexivity.
Qed.

(** C94 (second iteration): the parameters of the first iteration come from the prior; the second iteration reweights, and if it does not resample, moves them.  Let the kernel not depend on the population and perturbations of all parameters stay inside the prior equally often.
    Then averages with the recorded weights approach the mean under the prior weighted by closeness at the second threshold: the chance of being more than d away without resampling is at most of order 1/n + 1/resample. *)
Theorem C94_second : forall (f : Theta -> Y -> R) B d ms, (forall th y, Rabs (f th y) <= B) -> 0 < d -> (forall th, In th Ts -> stays Theta kern Ts th = ms) ->
  (forall q i th, nth_error (p_rows q) i = Some th -> holds q i th) ->
  0 < expect outs p (fun a => expect outs p (fun b => closeness e0 ef (dat (pth a) b))) ->
  exists C, forall bernton kernel hits0 hits n steps alpha ef0 resample0 full s alpha' resample aStep, (0 < n)%nat -> fresh Theta Y s e0 -> (0 < resample)%Q ->
  forall eta, 0 < eta -> exists K1, forall k1, (K1 <= k1)%nat -> exists K2, forall k2, (K2 <= k2)%nat ->
    mean outs p (n * k1) (fun l => match first_step bernton kernel hits0 n steps alpha ef0 resample0 full s k1 l with
      | Ok s1 => gens outs p n k2 (fun ls =>
          if match next_weights Theta Y dist1 uniq false n alpha' ef s1 with
             | Some (e', _, nw) => negb (nlt (ess nw) (Fin resample)) && match next_step 0 hits n steps alpha' ef resample full aStep s1 k2 ls with
                 | Ok s2 => off d (weighted_num (fun z => f (fst z) (snd z)) (particles Theta Y s2) (m_w _ _ s2)) (abc e' f)
                 | Err _ => true
                 end
             | None => true
             end then 1 else 0)
      | Err _ => 1
      end) <= C / INR n + 16 * B ^ 2 / (Q2R resample * d ^ 2) + eta.
Proof.
  intros f B d ms Hf Hd Hms Hall Hpos.
  destruct (reweighted_law A Theta Y outs p law setp pdfv kupd kupdL kpdf prior simc dist dist1 bern choiceL uniq draw pth dat prior_draw sim_draw false (fun e => moved e f) e0 ef (d / 2) (moved_level f) ltac:(lra) Hpos) as (C & HC).
  exists C. intros bernton kernel hits0 hits n steps alpha ef0 resample0 full s alpha' resample aStep Hn Hs Hr eta Heta.
  destruct (HC bernton kernel hits0 n steps alpha ef0 resample0 full s alpha' Hn Hs) as (v & Hv & Hle). clear HC.
  set (bad1 := fun k1 l => match first_step bernton kernel hits0 n steps alpha ef0 resample0 full s k1 l with
    | Ok s' => match next_weights Theta Y dist1 uniq false n alpha' ef s' with Some (e', zs, nw) => off (d / 2) (weighted_num (fun z => moved e' f (fst z) (snd z)) zs nw) (abc e' (moved e' f)) | None => true end | Err _ => true end).
  destruct (Hv (eta / 2) ltac:(lra)) as (K0 & HK0). exists (K0 + 2)%nat. intros k1 Hk1. specialize (HK0 k1 ltac:(lia)). change (R_dist (prob outs p (n * k1) (bad1 k1)) v < eta / 2) in HK0.
  unfold R_dist in HK0. apply Rabs_def2 in HK0. set (bound := 16 * B ^ 2 / (Q2R resample * d ^ 2)).
  assert (R0 : 0 < Q2R resample) by (apply Q2R_pos, Hr). assert (D2 : 0 < d ^ 2) by (apply pow_lt, Hd).
  assert (Bn : 0 <= bound) by (unfold bound, Rdiv; apply Rmult_le_pos; [pose proof (pow2_ge_0 B); lra|left; apply Rinv_0_lt_compat, Rmult_lt_0_compat; assumption]).
  match goal with |- exists K2, forall k2, _ -> mean _ _ _ (@?F k2) <= _ => destruct (eventually_mean A outs p law (n * k1) F (fun l => (if bad1 k1 l then 1 else 0) + (bound + eta / 2))) as (K2 & HK2) end.
  - intros l Hl Hin. destruct (first_facts bernton kernel hits0 n steps alpha ef0 resample0 full s k1 l e0 Hn ltac:(lia) Hs Hl Hin) as (s1 & zs & Es & Lz & Sz & Er & Ey & Ed & Ew & Ee). rewrite Es.
    destruct (reweighted Theta Y dist dist1 uniq false n alpha' ef e0 zs Lz Hn) as (e' & nw & Erw & Hef & c & q & Hc & Enw & Hq).
    assert (Enext : next_weights Theta Y dist1 uniq false n alpha' ef s1 = Some (e', zs, nw)).
    { unfold next_weights. rewrite Er, Ey, Ed, Ew, Ee. destruct Hs as (_ & _ & _ & E4 & _). rewrite E4, Erw, combine_map. rewrite (map_ext _ (fun z => z)), map_id by (intros []; reflexivity). reflexivity. }
    rewrite Enext. assert (One : forall k2 (b : list (list A) -> bool), gens outs p n k2 (fun ls => if b ls then 1 else 0) <= 1) by (intros k2 b; eapply Rle_trans; [apply (gens_le A outs p law k2 n _ (fun _ => 1)); intros ls _; destruct (b ls); lra|]; rewrite (gens_const A outs p law); lra).
    destruct (bad1 k1 l) eqn:Eb; [exists 0%nat; intros k2 _; eapply Rle_trans; [apply One|lra]|]. unfold bad1 in Eb. rewrite Es, Enext in Eb.
    destruct (nlt (ess nw) (Fin resample)) eqn:En; [exists 0%nat; intros k2 _; cbn [negb andb]; rewrite (gens_const A outs p law); lra|]. cbn [negb andb].
    assert (Fw : exists qs, nw = map Fin qs /\ Forall (fun x => (0 <= x)%Q) qs).
    { pose proof Eb as Eb'. rewrite Enw, (off_wrong _ zs q (fun z => closeness e0 e' (snd z)) c) in Eb'; [|destruct zs; [cbn in Lz; lia|discriminate]|exact Hc|intros z _; split; [apply close_range|apply Hq]]. unfold wrong in Eb'. destruct (Rlt_dec 0 (total (map (fun z => closeness e0 e' (snd z)) zs))) as [P|]; [|discriminate].
      assert (Nn : Forall (fun x => (0 <= x)%Q) (map q zs)) by (apply Forall_map, Forall_forall; intros z _; apply Rle_Qle; rewrite Hq; replace (Q2R 0) with 0 by (unfold Q2R; cbn; lra); apply Rmult_le_pos; [lra|apply close_range]).
      destruct (normalise_fin (map q zs) Nn) as (ws & H1 & _ & H2 & _).
      - destruct (Exists_dec (fun z => (0 < q z)%Q) zs) as [X|X]; [intros z; apply Qlt_le_dec || (destruct (Qlt_le_dec 0 (q z)) as [Y0|Y0]; [left; exact Y0|right; apply Qle_not_lt, Y0])| |].
        + apply Exists_exists in X. destruct X as (z & Hz & X). exists (q z). split; [apply in_map, Hz|exact X].
        + exfalso. assert (T0 : total (map (fun z => closeness e0 e' (snd z)) zs) <= 0); [|lra]. rewrite (total_ext _ (fun z => 0 * c)); [rewrite total_scale; lra|]. intros z Hz. destruct (Qlt_le_dec 0 (q z)) as [Y0|Y0]; [exfalso; apply X, Exists_exists; exists z; split; assumption|]. apply Qle_Rle in Y0. rewrite Hq in Y0. replace (Q2R 0) with 0 in Y0 by (unfold Q2R; cbn; lra). pose proof (close_range Y dist dist1 false e0 e' (snd z)). nra.
      - exists ws. split; [rewrite Enw; unfold normalise; rewrite <- (map_map q Fin); exact H1|exact H2]. }
    destruct Fw as (qs & -> & Hqs).
    destruct (C94_moved hits n steps alpha' resample full aStep s1 e' zs qs f B (d / 2) Hn) as (m & Hm & Hlaw); [split; [exists (map fst zs), (map snd zs), (map dist (map snd zs)); rewrite !map_length; split; [exact Er|]; split; [exact Ey|]; split; [exact Ed|]; split; exact Lz|rewrite Ee; apply Hs]|exact Enext|exact Hqs|exact Hr|exact En|exact Hf|lra|exact Sz|intros i th Hi; apply Hall, Hi|].
    destruct (Hlaw (eta / 2) ltac:(lra)) as (K & HK). exists K. intros k2 Hk2. specialize (HK k2 Hk2). replace (4 * B ^ 2 / (Q2R resample * (d / 2) ^ 2)) with bound in HK by (unfold bound; field; lra).
    rewrite Rplus_0_l. eapply Rle_trans; [|exact HK]. apply (gens_le A outs p law). intros ls _. rewrite Hm in Eb. cbn [off] in Eb. rewrite (abc_kept e' f ms Hms) in Eb. unfold far in Eb. destruct (Rlt_dec (d / 2) (Rabs (m - abc e' f))) as [|Near]; [discriminate|].
    destruct (next_step 0 hits n steps alpha' ef resample full aStep s1 k2 ls) as [s2|]; [|lra]. destruct (weighted_num _ (particles Theta Y s2) _) as [x|]; [|cbn; lra]. cbn [off]. unfold far. destruct (Rlt_dec d (Rabs (x - abc e' f))) as [Far|]; [|destruct (Rlt_dec (d / 2) (Rabs (x - m))); lra].
    destruct (Rlt_dec (d / 2) (Rabs (x - m))) as [|Close]; [lra|]. exfalso. pose proof (Rabs_triang (x - m) (m - abc e' f)) as T. replace (x - m + (m - abc e' f)) with (x - abc e' f) in T by ring. lra.
  - exists K2. intros k2 Hk2. eapply Rle_trans; [apply (HK2 k2 Hk2)|]. rewrite (mean_plus _ outs p), (mean_const _ outs p law), <- (prob_mean A outs p). lra.
Qed.
End Standard.
Print Assumptions C94_second.
Print Assumptions C94_moved.

(** Cases: the parameters 0 and 1 of P_Reweight (data and distances equal to the parameter); proposals 0 or 1 with equal probability, accepted or not without tossing a coin. *)
Module Two.
Notation outs := Coin.outs.
Notation p := Coin.p.
Definition pi (th : nat) : Q := if (th <? 2)%nat then (1 # 2)%Q else 0%Q.
Definition kern (_ th' : nat) : Q := if (th' <? 2)%nat then (1 # 2)%Q else 0%Q.
Definition kick (l : list bool) : list bool * nat := match l with [] => ([], 5%nat) | a :: l' => (l', Coin.toss a) end.
Definition heads (v : num) (a : bool) : bool := match v with Fin x => if Qle_bool 1 x then true else if Qle_bool x 0 then false else a | _ => false end.
Definition bern (v : num) (l : list bool) : res (list bool * bool) := match l with [] => Err ValueError | a :: l' => Ok (l', heads v a) end.
Definition is_one (th _ : nat) : R := if (th =? 1)%nat then 1 else 0.
Definition dist1 (y : nat) : list num := [Coin.dist y].
Definition start (e : Q) := Coin.start e.
Definition first (n k : nat) (l : list bool) := first_step bool nat nat Coin.setp (fun th _ => Fin (pi th)) (fun _ _ => kick) (fun _ _ => kick) (fun _ x y => Fin (kern x y)) Coin.first Coin.simc Coin.dist dist1 bern (fun _ _ => Err ValueError) (fun _ => 0%nat) Coin.draw
  false 0 0 n 3 (3 # 4) (1 # 2) 1 1 (start 3) k l.
Definition second (n : nat) (resample : Q) (s : sstate nat nat) (k : nat) (ls : list (list bool)) := next_step bool nat nat Coin.setp (fun th _ => Fin (pi th)) (fun _ _ => kick) (fun _ _ => kick) (fun _ x y => Fin (kern x y)) Coin.first Coin.simc Coin.dist dist1 bern (fun _ _ => Err ValueError) (fun _ => 0%nat) Coin.draw
  0 0 n 3 (3 # 4) (1 # 2) resample 1 1 s k ls.
Definition weights (n : nat) (s : sstate nat nat) := next_weights nat nat dist1 (fun _ => 0%nat) false n (3 # 4) (1 # 2) s.
Notation clo e y := (closeness nat Coin.dist dist1 false 3 e y).
Lemma inside : forall th, In th [0; 1]%nat <-> ~ (pi th == 0)%Q.
Proof.
  intros th. unfold pi. split; [intros [<-|[<-|[]]]; discriminate|]. destruct (Nat.ltb_spec th 2) as [H|H]; [intros _; destruct th as [|[|th]]; [left; reflexivity|right; left; reflexivity|lia]|intros X; exfalso; apply X; reflexivity].
Qed.
Lemma tossed th : In th [0; 1]%nat -> chance outs p (fun a => if Nat.eq_dec (Coin.toss a) th then true else false) = 1 / 2.
Proof. intros [<-|[<-|[]]]; unfold chance; rewrite Coin.mean2; cbn; lra. Qed.
Lemma half : Q2R (1 # 2) = 1 / 2. Proof. unfold Q2R. cbn. lra. Qed.
Lemma kern_law th th' : chance outs p (fun a => if Nat.eq_dec (Coin.toss a) th' then true else false) = Q2R (kern th th').
Proof.
  unfold kern. destruct (Nat.ltb_spec th' 2) as [H|H]; [rewrite half; apply tossed; destruct th' as [|[|th']]; [left; reflexivity|right; left; reflexivity|lia]|]. unfold chance. rewrite Coin.mean2. cbn [Coin.toss]. destruct (Nat.eq_dec 0 th'); [lia|]. destruct (Nat.eq_dec 1 th'); [lia|]. unfold Q2R. cbn. lra.
Qed.
Lemma stays_one th : stays nat kern [0; 1]%nat th = 1.
Proof. unfold stays. cbn [map]. rewrite !total_cons. change (total []) with 0. unfold kern. cbn [Nat.ltb Nat.leb]. rewrite half. lra. Qed.
Lemma coin e : (1 # 2 <= e)%Q -> forall th b th' b' v, In th [0; 1]%nat -> In th' [0; 1]%nat -> In b outs -> In b' outs -> acceptance nat nat dist1 (Fin e) pi kern th th th' th' = Fin v -> chance outs p (heads (Fin v)) = Q2R v.
Proof.
  intros He th _ th' _ v H H' _ _ E. assert (V : (v == 1)%Q \/ (v == 0)%Q).
  { unfold acceptance, P_Law4.hits, dist1 in E. cbn [filter] in E. assert (Z : nlt (Coin.dist 0) (Fin e) = true) by (unfold Coin.dist, nlt; change (inject_Z (Z.of_nat 0)) with 0%Q; apply negb_true_iff; destruct (Qle_bool e 0) eqn:X; [|reflexivity]; apply Qle_bool_iff in X; exfalso; apply (Qle_not_lt _ _ (Qle_trans _ _ _ He X)); reflexivity).
    destruct H as [<-|[<-|[]]], H' as [<-|[<-|[]]]; rewrite ?Z in E; destruct (nlt (Coin.dist 1) (Fin e)); vm_compute in E; injection E as <-; first [left; reflexivity|right; reflexivity]. }
  unfold chance. rewrite Coin.mean2. rewrite (Qeq_eqR v (if Qle_bool 1 v then 1%Q else 0%Q)).
  - destruct V as [V|V]; unfold heads; (assert (W : Qle_bool 1 v = Qle_bool 1 1 \/ Qle_bool 1 v = Qle_bool 1 0) by (destruct (Qle_bool 1 v); [left|right]; reflexivity)).
    + replace (Qle_bool 1 v) with true by (symmetry; apply Qle_bool_iff; rewrite V; apply Qle_refl). unfold Q2R. cbn. lra.
    + replace (Qle_bool 1 v) with false by (symmetry; destruct (Qle_bool 1 v) eqn:X; [apply Qle_bool_iff in X; rewrite V in X; exfalso; apply X; reflexivity|reflexivity]). replace (Qle_bool v 0) with true by (symmetry; apply Qle_bool_iff; rewrite V; apply Qle_refl). unfold Q2R. cbn. lra.
  - destruct V as [V|V]; [replace (Qle_bool 1 v) with true by (symmetry; apply Qle_bool_iff; rewrite V; apply Qle_refl); exact V|].
    replace (Qle_bool 1 v) with false by (symmetry; destruct (Qle_bool 1 v) eqn:X; [apply Qle_bool_iff in X; rewrite V in X; exfalso; apply X; reflexivity|reflexivity]). exact V.
Qed.
End Two.
(** an instance of C94_second: the weighted share of the parameter 1 in the second population *)
Example C94_second_case : forall d, 0 < d -> exists C, forall n resample, (0 < n)%nat -> (0 < resample)%Q -> forall eta, 0 < eta -> exists K1, forall k1, (K1 <= k1)%nat -> exists K2, forall k2, (K2 <= k2)%nat ->
  mean Coin.outs Coin.p (n * k1) (fun l => match Two.first n k1 l with
    | Ok s1 => gens Coin.outs Coin.p n k2 (fun ls =>
        if match Two.weights n s1 with
           | Some (e', _, nw) => negb (nlt (ess nw) (Fin resample)) && match Two.second n resample s1 k2 ls with
               | Ok s2 => off d (weighted_num (fun z => Two.is_one (fst z) (snd z)) (particles nat nat s2) (m_w _ _ s2)) (abc_mean Coin.outs Coin.p Coin.toss (fun th _ => th) (closeness nat Coin.dist Two.dist1 false 3 e') Two.is_one)
               | Err _ => true
               end
           | None => true
           end then 1 else 0)
    | Err _ => 1
    end) <= C / INR n + 16 * 1 ^ 2 / (Q2R resample * d ^ 2) + eta.
Proof.
  intros d Hd.
  destruct (C94_second bool nat nat Nat.eq_dec Coin.outs Coin.p Coin.law ltac:(intros; unfold Coin.p; lra) Coin.setp (fun th _ => Fin (Two.pi th)) (fun _ _ => Two.kick) (fun _ _ => Two.kick) (fun _ x y => Fin (Two.kern x y)) Coin.first Coin.simc Coin.dist Two.dist1 Two.bern (fun _ _ => Err ValueError) (fun _ => 0%nat) Coin.draw
    Two.pi Two.kern (fun _ a => Coin.toss a) (fun th _ => th) Two.heads [0; 1]%nat (1 # 2) (fun _ _ => eq_refl) (fun _ _ => eq_refl) ltac:(intros th; unfold Two.pi; destruct (th <? 2)%nat; discriminate) (fun _ _ _ => eq_refl) (fun _ _ _ => eq_refl)
    (fun th th' _ => Two.kern_law th th') ltac:(repeat (constructor; [cbn; lia|]); constructor) Two.inside Two.coin ltac:(intros th _; rewrite Two.stays_one; lra) Coin.toss (fun _ _ => eq_refl) ltac:(intros [|] _; cbn; auto)
    ltac:(intros th Hth; rewrite (Two.tossed th Hth); destruct Hth as [<-|[<-|[]]]; symmetry; exact Two.half) 3%Q 1%nat ltac:(lia) ltac:(intros th b [<-|[<-|[]]] _; reflexivity)
    Two.is_one 1 d 1 ltac:(intros th y; unfold Two.is_one; destruct (_ =? _)%nat; [rewrite Rabs_R1|rewrite Rabs_R0]; lra) Hd (fun th _ => Two.stays_one th)
    ltac:(intros q i th _; split; [intros; reflexivity|]; split; [exists 5%nat; split; reflexivity|intros; reflexivity]) (proj1 C93_reweighted_case)) as (C & HC).
  exists C. intros n resample Hn Hr. exact (HC false 0%nat 0%nat 0%nat n 3%nat (3 # 4)%Q (1 # 2)%Q 1%Q 1%nat (Two.start 3) (3 # 4)%Q resample 1%nat Hn (proj1 (proj2 C93_reweighted_case)) Hr).
Qed.
(** a run: parameters 0 and 1; with the limit 1 nothing is resampled, the weights become 1 and 0, the first particle refuses the proposal 1 and the second one is kept *)
Example C94_run : exists s1 s2 qs, Two.first 2 2 [true; true; false; true] = Ok s1 /\ Two.weights 2 s1 = Some ((8191 # 8192)%Q, [(0, 0); (1, 1)]%nat, map Fin qs) /\ map Qred qs = [1; 0]%Q /\ nlt (ess (map Fin qs)) (Fin 1) = false /\
  Two.second 2 1 s1 3 [[false; true; true]; [false; true; true]] = Ok s2 /\ particles _ _ s2 = [(0, 0); (1, 1)]%nat /\ m_w _ _ s2 = map Fin qs.
Proof.
  eexists. eexists. eexists [_; _]. split; [vm_compute; reflexivity|]. split; [vm_compute; reflexivity|]. split; [vm_compute; reflexivity|]. split; [vm_compute; reflexivity|]. split; [vm_compute; reflexivity|]. split; reflexivity.
Qed.
