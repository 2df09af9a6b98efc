(** C93: what the reweighted first population of SMCABC stands for. *)
From Coq Require Import Reals Lra Lia Qreals.
From Verif Require Import M_Base M_Num L_Num M_Infer L_Infer M_PMCABC M_RSMCABC M_SMCABC L_SMCABC M_XReal M_Stats L_PMC S_Stats L_Stats L_Distance L_PosDef L_Histogram S_Law P_Law L_Law P_Law3 P_Law4 L_Gen S_Anneal L_Anneal S_Consist L_LLN L_Workers P_Consist2 S_Reweight L_Reweight.
Open Scope R_scope.

Section First.
Variables A Theta Y : Type.
Variable outs : list A.
Variable p : A -> R.
Hypothesis law : Law outs p.
Variable setp : Theta -> Theta -> bool * Theta.
Variable pdfv : Theta -> Theta -> num.
Variable kupd : pop Theta -> nat -> list A -> list A * Theta.
Variable kupdL : pop Theta -> Theta -> list A -> list A * Theta.
Variable kpdf : pop Theta -> Theta -> Theta -> num.
Variable prior : list A -> list A * Theta.
Variable simc : Theta -> list A -> list A * option Y.
Variable dist : Y -> num.
Variable dist1 : Y -> list num.
Variable bern : num -> list A -> res (list A * bool).
Variable choiceL : list nat -> list A -> res (list A * nat).
Variable uniq : list num -> nat.
Variable draw : nat -> nat -> list num -> res (list nat).
(** the parameters that a draw from the prior gives, and the data *)
Variable pth : A -> Theta.
Variable dat : Theta -> A -> Y.
Hypothesis prior_draw : forall a l, prior (a :: l) = (l, pth a).
Hypothesis sim_draw : forall th a l, simc th (a :: l) = (l, Some (dat th a)).
Notation accept mk := (sm_accept Theta (list A) Y setp pdfv kupd kupdL kpdf prior simc dist dist1 mk (fun r => r) bern choiceL).
Notation step mk := (sm_step Theta (list A) Y setp pdfv kupd kupdL kpdf prior simc dist dist1 mk (fun r => r) bern choiceL uniq draw).
Notation reweight := (sm_reweight Y dist1 uniq).

Section Worker.
Variable kernel hits : nat.
Variable eps : num.
Variable ys : option (list Y).
Definition W0 (k : nat) (l : list A) (c : Theta) : res (Theta * Y * num * nat * Theta) := accept (fun _ => l) kernel hits eps None ys (S k) (0%Z, 0%nat) c.
Definition out0 (b : A * A) : Theta * Y * num * nat * Theta := let th := pth (fst b) in let y := dat th (snd b) in (th, y, dist y, 1%nat, th).
Definition mu0 (b : A * A) : R := p (fst b) * p (snd b).
Notation pairs0 := (list_prod outs outs).
Lemma worker0_law c : Worker A outs p (Theta * Y * num * nat) Theta (A * A) pairs0 mu0 out0 W0 c.
Proof.
  intros G G' Bd Hb Hc. apply cv_unshift, cv_unshift. apply (cv_ext (fun k => expect pairs0 mu0 (fun b => G (S (S k)) (out0 b)))).
  - intros k. unfold expect at 1. rewrite total_prod. cbn [mean]. unfold expect. apply total_ext. intros a _. rewrite <- total_scale. apply total_ext. intros a' _. unfold mu0. cbn [fst snd]. rewrite Rmult_assoc. f_equal. f_equal. symmetry.
    transitivity (mean outs p k (fun _ => G (S (S k)) (out0 (a, a')))); [|apply (mean_const _ outs p law)]. apply mean_ext. intros l _. unfold W0, sm_accept. rewrite prior_draw. unfold sim1. rewrite sim_draw. reflexivity.
  - apply expect_cv. intros b Hb'. apply (cv_shift1 (fun k => G (S k) (out0 b))), (cv_shift1 (fun k => G k (out0 b))), Hc, Hb'.
Qed.
Lemma mu0_law : Law pairs0 mu0.
Proof.
  split; [intros [a b] H; apply in_prod_iff in H; apply Rmult_le_pos; apply (proj1 law), H|]. rewrite total_prod. rewrite <- (proj2 law). apply total_ext. intros a _. unfold mu0. cbn [fst snd]. rewrite total_scale, (proj2 law). ring.
Qed.
Lemma expect_pairs (g : A -> A -> R) : expect pairs0 mu0 (fun b => g (fst b) (snd b)) = expect outs p (fun a => expect outs p (g a)).
Proof. unfold expect. rewrite total_prod. apply total_ext. intros a _. unfold mu0. cbn [fst snd]. rewrite <- total_scale. apply total_ext. intros. ring. Qed.
End Worker.

(** ** Reweighting *)
Definition closeness (bernton : bool) (e0 e : Q) (y : Y) : R := if bernton then close e (dist y) else share e0 e (dist1 y).
Lemma close_range bernton e0 e y : 0 <= closeness bernton e0 e y.
Proof. unfold closeness, close, share. destruct bernton; [destruct (nlt _ _); lra|]. destruct (_ =? 0)%nat eqn:E; [lra|]. apply Nat.eqb_neq in E. unfold Rdiv. apply Rmult_le_pos; [apply pos_INR|]. left. apply Rinv_0_lt_compat, lt_0_INR. lia. Qed.
Lemma below_mono e e' ds : (e <= e')%Q -> (below e ds <= below e' ds)%nat.
Proof.
  intros H. unfold below. induction ds as [|d ds IH]; [cbn; lia|]. cbn [filter]. assert (M : nlt d (Fin e) = true -> nlt d (Fin e') = true).
  { destruct d as [q| | |]; cbn; try discriminate; try reflexivity. intros X. destruct (Qle_bool e' q) eqn:Z; [|reflexivity]. apply Qle_bool_iff in Z. assert (Qle_bool e q = true) by (apply Qle_bool_iff, Qle_trans with e'; assumption). rewrite H0 in X. discriminate. }
  destruct (nlt d (Fin e)); [rewrite M by reflexivity; cbn [length]; lia|]. destruct (nlt d (Fin e')); cbn [length]; lia.
Qed.
Lemma close_mono bernton e0 e e' y : (e <= e')%Q -> closeness bernton e0 e y <= closeness bernton e0 e' y.
Proof.
  intros H. unfold closeness. destruct bernton.
  - pose proof (below_mono e e' [dist y] H) as X. unfold close. unfold below in X. cbn [filter] in X. destruct (nlt (dist y) (Fin e)), (nlt (dist y) (Fin e')); cbn in X; try lra; lia.
  - unfold share. destruct (_ =? 0)%nat eqn:E; [lra|]. apply Nat.eqb_neq in E. unfold Rdiv. apply Rmult_le_compat_r; [left; apply Rinv_0_lt_compat, lt_0_INR; lia|]. apply le_INR, below_mono, H.
Qed.
Definition zs_rows (zs : list (Theta * Y)) := map fst zs.
(** the threshold and the weights *)
Lemma reweighted bernton n alpha ef e0 (zs : list (Theta * Y)) : length zs = n -> (0 < n)%nat ->
  exists e' nw, reweight bernton n alpha ef e0 (ones n) (map dist (map snd zs)) (map snd zs) = Ok (e', nw) /\ (ef <= e')%Q /\
  exists c (q : Theta * Y -> Q), 0 < c /\ nw = normalise (map (fun z => Fin (q z)) zs) /\ forall z, Q2R (q z) = c * closeness bernton e0 e' (snd z).
Proof.
  intros Hl Hn. assert (Ef : forall e1, (ef <= (if Qltb e1 ef then ef else e1))%Q) by (intros e1; destruct (Qltb e1 ef) eqn:X; [apply Qle_refl|apply Qltb_false, X]).
  unfold sm_reweight. destruct bernton.
  - rewrite !map_length, Hl, Nat.eqb_refl. cbn [negb]. destruct (bisect_terminates (eps_ber uniq n (map dist (map snd zs)) alpha) ef e0 (1 # 1000) (bisect_fuel ef e0 (1 # 1000))) as (e1 & ->); [reflexivity|lia|].
    exists (if Qltb e1 ef then ef else e1). eexists. split; [reflexivity|]. split; [apply Ef|]. set (e' := if Qltb e1 ef then ef else e1).
    exists 1, (fun z => if nlt (dist (snd z)) (Fin e') then 1%Q else 0%Q). split; [lra|]. split.
    + f_equal. unfold ind_weights. rewrite !map_map. apply map_ext. intros z. destruct (nlt _ _); reflexivity.
    + intros z. unfold closeness, close. destruct (nlt _ _); unfold Q2R; cbn; lra.
  - unfold ones at 1. rewrite map_length, repeat_length, Hl, Nat.eqb_refl, Nat.ltb_irrefl. cbn [negb orb]. cbv zeta.
    rewrite firstn_all2 by (rewrite map_length; lia).
    match goal with |- context [bisect ?f ?k ?a ?b ?t] => destruct (bisect_terminates f a b t k) as (e1 & ->); [reflexivity|lia|] end.
    exists (if Qltb e1 ef then ef else e1). eexists. split; [reflexivity|]. split; [apply Ef|]. set (e' := if Qltb e1 ef then ef else e1).
    exists (/ INR n), (fun z => if (below e0 (dist1 (snd z)) =? 0)%nat then 0%Q else (1 / inject_Z (Z.of_nat n) * (inject_Z (Z.of_nat (below e' (dist1 (snd z)))) / inject_Z (Z.of_nat (below e0 (dist1 (snd z))))))%Q).
    split; [apply Rinv_0_lt_compat, lt_0_INR; lia|].
    assert (Nz : forall k, (k <> 0)%nat -> ~ (inject_Z (Z.of_nat k) == 0)%Q) by (intros k Hk X; apply Q2R_zero in X; rewrite Q2R_nat in X; apply (INR_eq _ 0) in X; contradiction). split.
    + f_equal. unfold dm_weights, ones. rewrite map_map. clear - Hl Nz Hn. assert (G : forall m (zs : list (Theta * Y)), length zs = m -> map (fun wr : num * list num => let den := n_below e0 (snd wr) in if (den =? 0)%nat then Fin 0 else nmul (fst wr) (ndiv (ofnat (n_below e' (snd wr))) (ofnat den))) (combine (repeat (ndiv (Fin 1) (Fin (inject_Z (Z.of_nat n)))) m) (map (fun x => dist1 (snd x)) zs)) =
        map (fun z => Fin (if (below e0 (dist1 (snd z)) =? 0)%nat then 0%Q else (1 / inject_Z (Z.of_nat n) * (inject_Z (Z.of_nat (below e' (dist1 (snd z)))) / inject_Z (Z.of_nat (below e0 (dist1 (snd z))))))%Q)) zs).
      { induction m as [|m IH]; intros [|z l] Hm; try discriminate; [reflexivity|]. cbn [repeat map combine]. f_equal; [|apply IH; cbn in Hm; lia]. cbn [fst snd]. cbv zeta. change (n_below e0 (dist1 (snd z))) with (below e0 (dist1 (snd z))).
        destruct (_ =? 0)%nat eqn:E; [reflexivity|]. apply Nat.eqb_neq in E. unfold ofnat. rewrite !ndiv_fin by (apply Nz; first [exact E|lia]). reflexivity. }
      apply G, Hl.
    + intros z. unfold closeness, share. destruct (_ =? 0)%nat eqn:E; [unfold Q2R; cbn; lra|]. apply Nat.eqb_neq in E. rewrite Q2R_mult, !Q2R_div by (apply Nz; first [exact E|lia]). rewrite !Q2R_nat. replace (Q2R 1) with 1 by (unfold Q2R; cbn; lra). field. split; apply not_0_INR; [exact E|lia].
Qed.

(** ** The first iteration *)
Notation sstate := (sstate Theta Y).
Definition first_step (bernton : bool) (kernel hits n steps : nat) (alpha ef resample : Q) (full : nat) (s : sstate) (k : nat) (l : list A) : res sstate :=
  step (fun z => chunk k (Z.to_nat z) l) bernton kernel hits n steps alpha ef resample full (S k) 0 Z.of_nat s.
(** nothing is broadcast yet, and the threshold is e0 *)
Definition fresh (s : sstate) (e0 : Q) : Prop := m_ds _ _ s = None /\ m_rows _ _ s = None /\ m_mgr _ _ s = None /\ last (m_eps _ _ s) 0%Q = e0 /\ m_eps _ _ s <> [].
(** what the next iteration does first: threshold, particles with their data, weights *)
Definition next_weights (bernton : bool) (n : nat) (alpha ef : Q) (s : sstate) : option (Q * list (Theta * Y) * list num) :=
  match m_rows _ _ s, m_ys _ _ s, m_ds _ _ s with
  | Some rows, Some ys, Some ds => match reweight bernton n alpha ef (last (m_eps _ _ s) 0%Q) (m_w _ _ s) ds ys with Ok (e', nw) => Some (e', combine rows ys, nw) | Err _ => None end
  | _, _, _ => None
  end.
Lemma combine_map {U V W} (f : U -> V) (g : U -> W) l : combine (map f l) (map g l) = map (fun x => (f x, g x)) l.
Proof. induction l as [|x l IH]; [reflexivity|]. cbn [map combine]. rewrite IH. reflexivity. Qed.
Lemma rev_last {X} (l : list X) d : l <> [] -> exists l', rev l = last l d :: l'.
Proof. intros H. destruct (exists_last H) as (l' & x & ->). rewrite rev_app_distr, last_last. exists (rev l'). reflexivity. Qed.
Definition pair_of (x : Theta * Y * num * nat) : Theta * Y := fst (fst x).
Lemma W0_ok kernel hits eps ys k l c x c' : W0 kernel hits eps ys k l c = Ok (x, c') -> snd (fst x) = dist (snd (pair_of x)).
Proof. unfold W0, sm_accept, sim1. destruct (prior _) as [r1 th]. destruct (simc th r1) as [r2 [y|]]; [|discriminate]. intros [= <- _]. reflexivity. Qed.
Lemma first_value bernton kernel hits n steps alpha ef resample full s k l e0 (F : option (Q * list (Theta * Y) * list num) -> R) al' ef' b' : (0 < n)%nat -> fresh s e0 ->
  match first_step bernton kernel hits n steps alpha ef resample full s k l with Ok s' => F (next_weights b' n al' ef' s') | Err _ => 0 end =
  match mapT (fun i c => W0 kernel hits (Fin e0) (m_ys _ _ s) k (chunk k i l) c) (seq 0 n) (m_cur _ _ s) with
  | Ok (xs, _) => let zs := map pair_of xs in F (match reweight b' n al' ef' e0 (ones n) (map dist (map snd zs)) (map snd zs) with Ok (e', nw) => Some (e', zs, nw) | Err _ => None end)
  | Err _ => 0 end.
Proof.
  intros Hn (H1 & H2 & H3 & H4 & H5). unfold first_step, sm_step. destruct (rev_last (m_eps _ _ s) 0%Q H5) as (es' & ->). rewrite H4, H1, H2, H3. unfold seeds_of. rewrite <- (map_id (seq 0 n)) at 2. rewrite combine_map, mapT_map.
  rewrite (mapT_ext _ (fun i c => W0 kernel hits (Fin e0) (m_ys _ _ s) k (chunk k i l) c)) by (intros i c _; unfold W0, sm_accept, sim1; cbn [fst snd]; rewrite Nat2Z.id; destruct (prior _) as [r1 th]; destruct (simc th r1) as [r2 [y|]]; reflexivity).
  destruct (mapT _ (seq 0 n) (m_cur _ _ s)) as [[xs c']|] eqn:Em; [|reflexivity].
  assert (Lx : length xs = n /\ Forall (fun x => snd (fst x) = dist (snd (pair_of x))) xs).
  { assert (G : forall is_ c zs c2, mapT (fun i c => W0 kernel hits (Fin e0) (m_ys _ _ s) k (chunk k i l) c) is_ c = Ok (zs, c2) -> length zs = length is_ /\ Forall (fun x => snd (fst x) = dist (snd (pair_of x))) zs).
    { induction is_ as [|i is_ IH]; intros c zs c2 H; cbn [mapT] in H; [injection H as <- _; split; [reflexivity|constructor]|]. destruct (W0 kernel hits (Fin e0) (m_ys _ _ s) k (chunk k i l) c) as [[x c1]|] eqn:E1; [|discriminate]. destruct (mapT _ is_ c1) as [[zs' c3]|] eqn:E; [|discriminate]. injection H as <- _. destruct (IH _ _ _ E) as [L1 L2].
      split; [cbn [length]; rewrite L1; reflexivity|]. constructor; [exact (W0_ok _ _ _ _ _ _ _ _ _ E1)|exact L2]. }
    destruct (G _ _ _ _ Em) as [L1 L2]. rewrite seq_length in L1. split; assumption. }
  destruct Lx as [Ly Ld]. destruct xs as [|x0 xs]; [cbn in Ly; lia|]. set (zs := x0 :: xs) in *. clearbody zs. cbv zeta. unfold next_weights. cbn [m_rows m_ys m_ds m_eps m_w]. rewrite H4.
  assert (E1 : map (fun x : Theta * Y * num * nat => snd (fst x)) zs = map dist (map snd (map pair_of zs))) by (rewrite !map_map; apply map_ext_in; intros x Hx; rewrite Forall_forall in Ld; apply Ld, Hx).
  rewrite E1, combine_map. assert (E2 : map (fun x : Theta * Y * num * nat => snd (fst (fst x))) zs = map snd (map pair_of zs)) by (rewrite map_map; reflexivity). rewrite E2.
  replace (map (fun x : Theta * Y * num * nat => (fst (fst (fst x)), snd (fst (fst x)))) zs) with (map pair_of zs) by (apply map_ext; intros [[[? ?] ?] ?]; reflexivity). reflexivity.
Qed.

(** the same with a quantity that may depend on the new threshold *)
Lemma reweighted_law : forall b' (f : Q -> Theta -> Y -> R) e0 ef d,
  (forall e e2, (forall a b dd, In a outs -> In b outs -> In dd (dist (dat (pth a) b) :: dist1 (dat (pth a) b)) -> nlt dd (Fin e) = nlt dd (Fin e2)) -> forall a b, In a outs -> In b outs -> f e (pth a) (dat (pth a) b) = f e2 (pth a) (dat (pth a) b)) -> 0 < d -> 0 < expect outs p (fun a => expect outs p (fun b => closeness b' e0 ef (dat (pth a) b))) ->
  exists C, forall bernton kernel hits n steps alpha ef0 resample full s alpha', (0 < n)%nat -> fresh s e0 ->
  exists v, Un_cv (fun k => prob outs p (n * k) (fun l => match first_step bernton kernel hits n steps alpha ef0 resample full s k l with
      | Ok s' => match next_weights b' n alpha' ef s' with
                 | Some (e', zs, nw) => off d (weighted_num (fun z => f e' (fst z) (snd z)) zs nw) (abc_mean outs p pth dat (closeness b' e0 e') (f e'))
                 | None => true
                 end
      | Err _ => true
      end)) v /\ v <= C / INR n.
Proof.
  intros b' f e0 ef d Hlf Hd Hpos. pose (xs := list_prod outs outs). pose (zof := fun b : A * A => (pth (fst b), dat (pth (fst b)) (snd b))).
  pose (u := fun e (b : A * A) => closeness b' e0 e (snd (zof b))). pose (g := fun (e : Q) (b : A * A) => f e (fst (zof b)) (snd (zof b))).
  destruct (levels_of (flat_map (fun b => dist (snd (zof b)) :: dist1 (snd (zof b))) xs) ef) as (L & HL1 & HL2).
  assert (Hlev : forall e, (ef <= e)%Q -> exists e2, In e2 L /\ forall b, In b xs -> u e b = u e2 b /\ g e b = g e2 b).
  { intros e He. destruct (HL2 e He) as (e2 & H2 & Heq). exists e2. split; [exact H2|]. intros b Hb. split; [|destruct b as [a b0]; apply in_prod_iff in Hb; apply Hlf; [|apply Hb|apply Hb]; intros a1 b1 dd Ha1 Hb1 Hdd; apply Heq, in_flat_map; exists (a1, b1); split; [apply in_prod; assumption|exact Hdd]].
    assert (X : forall y, y = snd (zof b) -> forall dd, In dd (dist y :: dist1 y) -> nlt dd (Fin e) = nlt dd (Fin e2)) by (intros y -> dd Hdd; apply Heq, in_flat_map; exists b; split; assumption).
    unfold u, closeness. specialize (X _ eq_refl). destruct b'; [unfold close; rewrite (X _ (or_introl eq_refl)); reflexivity|]. unfold share. destruct (_ =? 0)%nat; [reflexivity|]. unfold Rdiv. f_equal. f_equal.
    unfold below. f_equal. apply filter_ext_in. intros dd Hdd. apply X. right. exact Hdd. }
  assert (Hp : forall e2, In e2 L -> 0 < expect xs mu0 (u e2)).
  { intros e2 H2. apply Rlt_le_trans with (expect xs mu0 (u ef)); [unfold u, zof; cbn [snd]; unfold xs; rewrite (expect_pairs (fun a b => closeness b' e0 ef (dat (pth a) b))); exact Hpos|]. apply (expect_le _ _ _ mu0_law). intros b _. apply close_mono, HL1, H2. }
  destruct (chosen_law (A * A) xs mu0 mu0_law u g (fun e => (ef <= e)%Q) L Hlev Hp d Hd) as (C & HC). exists C.
  intros bernton kernel hits n steps alpha ef0 resample full s alpha' Hn Hs.
  pose (bad := fun o : option (Q * list (Theta * Y) * list num) => match o with Some (e', zs, nw) => off d (weighted_num (fun z => f e' (fst z) (snd z)) zs nw) (abc_mean outs p pth dat (closeness b' e0 e') (f e')) | None => true end).
  pose (F := fun o => if bad o then 0 else 1).
  pose (rw := fun zs : list (Theta * Y) => match reweight b' n alpha' ef e0 (ones n) (map dist (map snd zs)) (map snd zs) with Ok (e', nw) => Some (e', zs, nw) | Err _ => None end).
  pose (H := fun xs : list (Theta * Y * num * nat) => F (rw (map pair_of xs))).
  exists (prob xs mu0 n (fun bs => bad (rw (map zof bs)))). split.
  - apply (cv_ext (fun k => 1 - all_workers A outs p (Theta * Y * num * nat) Theta (W0 kernel hits (Fin e0) (m_ys _ _ s)) H n k (m_cur _ _ s))).
    + intros k. rewrite (prob_mean A outs p). unfold all_workers.
      match goal with |- 1 - ?a = ?b => assert (X : b + a = 1); [|lra] end. rewrite <- (mean_plus _ outs p). transitivity (mean outs p (n * k) (fun _ => 1)); [|apply (mean_const _ outs p law)]. apply mean_ext. intros l _.
      match goal with |- _ + ?b = 1 => transitivity (0 + b + (if match first_step bernton kernel hits n steps alpha ef0 resample full s k l with Ok s' => bad (next_weights b' n alpha' ef s') | Err _ => true end then 1 else 0)); [rewrite Rplus_0_l, Rplus_comm; reflexivity|] end. rewrite Rplus_0_l.
      eapply eq_trans; [apply (f_equal (fun z => z + _)); symmetry; exact (first_value bernton kernel hits n steps alpha ef0 resample full s k l e0 F alpha' ef b' Hn Hs)|].
      destruct (first_step bernton kernel hits n steps alpha ef0 resample full s k l) as [s'|]; [|lra]. unfold F. destruct (bad _); lra.
    + replace (prob xs mu0 n (fun bs => bad (rw (map zof bs)))) with (1 - mean xs mu0 n (fun bs => H (map (fun b => fst (out0 b)) bs))).
      * apply CV_minus; [apply cv_const|]. apply (workers_law A outs p law (Theta * Y * num * nat) Theta (A * A) xs mu0 out0 (W0 kernel hits (Fin e0) (m_ys _ _ s)) (worker0_law kernel hits (Fin e0) (m_ys _ _ s)) n H 1).
        intros ys. unfold H, F. destruct (bad _); [rewrite Rabs_R0|rewrite Rabs_R1]; lra.
      * rewrite (prob_mean _ xs mu0). match goal with |- 1 - ?a = ?b => assert (X : b + a = 1); [|lra] end. rewrite <- (mean_plus _ xs mu0). transitivity (mean xs mu0 n (fun _ => 1)); [|apply (mean_const _ xs mu0 mu0_law)]. apply mean_ext. intros bs _.
        unfold H. rewrite map_map. change (map (fun x => pair_of (fst (out0 x))) bs) with (map zof bs). unfold F. destruct (bad _); lra.
  - pose (E := fun bs => match rw (map zof bs) with Some (e', _, _) => e' | None => ef end).
    eapply Rle_trans; [|apply (HC n E Hn)].
    + apply (prob_le_in _ xs mu0 mu0_law). intros bs Hl _ Hb. unfold E, rw, bad in *. destruct (reweighted b' n alpha' ef e0 (map zof bs)) as (e' & nw & Er & He & c & q & Hc & Hw & Hq); [rewrite map_length; exact Hl|exact Hn|]. rewrite Er in Hb |- *.
      rewrite Hw, (off_wrong _ (map zof bs) q (fun z => closeness b' e0 e' (snd z)) c) in Hb; [|destruct bs; [cbn in Hl; lia|discriminate]|exact Hc|intros z _; split; [apply close_range|apply Hq]].
      unfold wrong in Hb |- *. rewrite !map_map in Hb. unfold target, u, g. unfold abc_mean in Hb. rewrite <- (expect_pairs (fun a b => closeness b' e0 e' (dat (pth a) b) * f e' (pth a) (dat (pth a) b))), <- (expect_pairs (fun a b => closeness b' e0 e' (dat (pth a) b))) in Hb. exact Hb.
    + intros bs Hl _. unfold E, rw. destruct (reweighted b' n alpha' ef e0 (map zof bs)) as (e' & nw & Er & He & _); [rewrite map_length; exact Hl|exact Hn|]. rewrite Er. exact He.
Qed.
(** C93 (reweighting): whatever rule picks the new threshold from the population, averages of f(parameters, data) with the new weights approach the mean under the prior weighted by closeness at that threshold.
    The chance of being more than d away, or of having no weights, is at most of order 1/n; the constant depends on the model, f, d, the thresholds e0 and ef only. *)
Theorem C93_reweighted : forall b' (f : Theta -> Y -> R) e0 ef d, 0 < d -> 0 < expect outs p (fun a => expect outs p (fun b => closeness b' e0 ef (dat (pth a) b))) ->
  exists C, forall bernton kernel hits n steps alpha ef0 resample full s alpha', (0 < n)%nat -> fresh s e0 ->
  exists v, Un_cv (fun k => prob outs p (n * k) (fun l => match first_step bernton kernel hits n steps alpha ef0 resample full s k l with
      | Ok s' => match next_weights b' n alpha' ef s' with
                 | Some (e', zs, nw) => off d (weighted_num (fun z => f (fst z) (snd z)) zs nw) (abc_mean outs p pth dat (closeness b' e0 e') f)
                 | None => true
                 end
      | Err _ => true
      end)) v /\ v <= C / INR n.
Proof. intros b' f e0 ef d Hd Hpos. exact (reweighted_law b' (fun _ => f) e0 ef d (fun _ _ _ _ _ _ _ => eq_refl) Hd Hpos). Qed.
End First.
Print Assumptions C93_reweighted.

(** Cases: parameters 0 and 1 with equal prior probability, data and distances equal to the parameter, proposals 0 or 1 with equal probability. *)
Module Coin.
Definition outs : list bool := [true; false].
Definition p : bool -> R := fun _ => 1 / 2.
Definition toss (a : bool) : nat := if a then 0%nat else 1%nat.
Definition setp (th cur : nat) : bool * nat := (true, th).
Definition pdfv (th _ : nat) : num := if (th <? 2)%nat then Fin (1 # 2) else Fin 0.
Definition first (l : list bool) : list bool * nat := match l with [] => ([], 0%nat) | a :: l' => (l', toss a) end.
Definition simc (th : nat) (l : list bool) : list bool * option nat := match l with [] => ([], None) | _ :: l' => (l', Some th) end.
Definition dist (y : nat) : num := Fin (inject_Z (Z.of_nat y)).
Definition bern (v : num) (l : list bool) : res (list bool * bool) :=
  match v, l with Fin x, a :: l' => Ok (l', if Qle_bool 1 x then true else if Qle_bool x 0 then false else a) | _, _ => Err ValueError end.
(** weights 1 and 0 can only give the first particle; equal weights are not resampled here *)
Definition draw (_ n : nat) (_ : list num) : res (list nat) := Ok (repeat 0%nat n).
Definition start (e0 : Q) : sstate nat nat := mksst nat nat [e0] None [] None None None 0 0%nat [] [] None.
Definition step (mk : Z -> list bool) (resample : Q) (fuel aStep : nat) (s : sstate nat nat) : res (sstate nat nat) :=
  sm_step nat (list bool) nat setp pdfv (fun _ _ => first) (fun _ _ => first) (fun _ _ _ => Fin (1 # 2)) first simc dist (fun y => [dist y]) mk (fun l => l) bern (fun _ _ => Err ValueError) (fun _ => 0%nat) draw
    false 0 2 2 2 (3 # 4) (1 # 2) resample 1 fuel aStep Z.of_nat s.
Lemma law : Law outs p.
Proof. split; [intros; unfold p; lra|]. unfold outs, p, total. cbn. lra. Qed.
Notation clo e y := (closeness nat dist (fun y => [dist y]) false 3 e y).
Lemma clo_values e y : clo e y = INR (below e [dist y]) / INR (below 3 [dist y]) \/ below 3 [dist y] = 0%nat.
Proof. unfold closeness, share. destruct (below 3 [dist y]); [right; reflexivity|left; reflexivity]. Qed.
Lemma clo_is e y k : (y <= 2)%nat -> below e [dist y] = k -> clo e y = INR k.
Proof. intros Hy <-. assert (B : below 3 [dist y] = 1%nat) by (destruct y as [|[|[|y]]]; [reflexivity|reflexivity|reflexivity|lia]). unfold closeness, share. rewrite B. cbn [Nat.eqb]. change (INR 1) with 1. field. Qed.
Lemma mean2 g : expect outs p g = (g true + g false) / 2.
Proof. unfold expect, outs, p. cbn [map]. rewrite !total_cons. change (total []) with 0. lra. Qed.
End Coin.
(** an instance of C93_reweighted: averages of the parameter; at the threshold 1 the mean is 0, at 2 it is 1/2 *)
Example C93_reweighted_case :
  0 < expect Coin.outs Coin.p (fun a => expect Coin.outs Coin.p (fun b => closeness nat Coin.dist (fun y => [Coin.dist y]) false 3 (1 # 2) (Coin.toss a))) /\ fresh nat nat (Coin.start 3) 3 /\
  (forall a l, Coin.first (a :: l) = (l, Coin.toss a)) /\ (forall th a l, Coin.simc th (a :: l) = (l, Some th)) /\
  abc_mean Coin.outs Coin.p Coin.toss (fun th _ => th) (closeness nat Coin.dist (fun y => [Coin.dist y]) false 3 1) (fun th _ => INR th) = 0 /\
  abc_mean Coin.outs Coin.p Coin.toss (fun th _ => th) (closeness nat Coin.dist (fun y => [Coin.dist y]) false 3 2) (fun th _ => INR th) = 1 / 2.
Proof.
  split; [rewrite !Coin.mean2; cbn [Coin.toss]; rewrite (Coin.clo_is (1 # 2) 0 1), (Coin.clo_is (1 # 2) 1 0) by (reflexivity || lia); cbn; lra|]. split; [split; [reflexivity|]; split; [reflexivity|]; split; [reflexivity|]; split; [reflexivity|discriminate]|].
  split; [reflexivity|]. split; [reflexivity|]. unfold abc_mean. rewrite !Coin.mean2. cbn [Coin.toss]. rewrite (Coin.clo_is 1 0 1), (Coin.clo_is 1 1 0), (Coin.clo_is 2 0 1), (Coin.clo_is 2 1 1) by (reflexivity || lia). cbn. split; field.
Qed.
(** C93 (resampling): the data are not resampled with the parameters.  Here the first iteration can give the parameters 0 and 1; the second one gives weight 1 to the first of them, resamples it twice, and keeps next to the second copy
    the data of the particle it replaced.  A proposal is then accepted however far its data are: the mean of the recorded parameters is 1/4, the mean under the closeness at the new threshold is 0. *)
Theorem C93_resampled_refuted : exists s1 e', Coin.step (fun z => [(z =? 0)%Z; true]) 2 3 0 (Coin.start 3) = Ok s1 /\
  (exists zs nw, next_weights nat nat (fun y => [Coin.dist y]) (fun _ => 0%nat) false 2 (3 # 4) (1 # 2) s1 = Some (e', zs, nw) /\ weighted_num (fun z => INR (fst z)) zs nw = Some 0) /\
  abc_mean Coin.outs Coin.p Coin.toss (fun th _ => th) (closeness nat Coin.dist (fun y => [Coin.dist y]) false 3 e') (fun th _ => INR th) = 0 /\
  forall k, gens Coin.outs Coin.p 2 (3 + k) (fun ls => match Coin.step (fun z => nth (Z.to_nat z) ls []) 2 3 1 s1 with
     | Ok s2 => match m_rows _ _ s2 with Some rows => match weighted_num INR rows (m_w _ _ s2) with Some v => v | None => 0 end | None => 0 end | Err _ => 0 end) = 1 / 4.
Proof.
  eexists. exists (8191 # 8192)%Q. split; [vm_compute; reflexivity|]. split; [eexists; eexists; split; [vm_compute; reflexivity|]|].
  - unfold weighted_num. cbn [forallb andb]. f_equal. unfold weighted, total. cbn. unfold Q2R. cbn. field.
  - split.
    + unfold abc_mean. rewrite !Coin.mean2. cbn [Coin.toss]. rewrite (Coin.clo_is _ 0 1), (Coin.clo_is _ 1 0) by (reflexivity || lia). cbn. field.
    + intros k. match goal with |- gens _ _ _ _ ?F = _ => set (G := F) end.
      assert (V : forall a0 b0 c0 r0 a1 b1 c1 r1, G [a0 :: b0 :: c0 :: r0; a1 :: b1 :: c1 :: r1] = if a1 then 0 else 1 / 2).
      { intros. unfold G. cbn [nth Z.to_nat Pos.to_nat].
        match goal with |- match ?x with _ => _ end = _ => assert (X : exists s2, x = Ok s2 /\ m_rows _ _ s2 = Some [0%nat; if a1 then 0%nat else 1%nat] /\ m_w _ _ s2 = [Fin (1 # 2); Fin (1 # 2)]) end.
        { destruct a0, b0, c0, a1, b1, c1; eexists; (split; [vm_compute; reflexivity|]); split; reflexivity. }
        destruct X as (s2 & -> & -> & ->). unfold weighted_num. cbn [forallb andb]. unfold weighted, total. destruct a1; cbn; unfold Q2R; cbn; field. }
      assert (M : forall (F : list bool -> R) v, (forall a b c r, F (a :: b :: c :: r) = v a) -> mean Coin.outs Coin.p (3 + k) F = (v true + v false) / 2).
      { intros F v H. cbn [Nat.add mean]. assert (I : forall a b c, mean Coin.outs Coin.p k (fun r => F (a :: b :: c :: r)) = v a) by (intros; rewrite (mean_ext _ _ _ _ _ (fun _ => v a)) by (intros; apply H); apply mean_const, Coin.law).
        rewrite Coin.mean2. rewrite !Coin.mean2. rewrite !I. field. }
      cbn [gens]. rewrite (M _ (fun _ => 1 / 4)); [field|]. intros a b c r. rewrite (M _ (fun a1 => if a1 then 0 else 1 / 2)); [field|]. intros. apply V.
Qed.
Print Assumptions C93_resampled_refuted.
