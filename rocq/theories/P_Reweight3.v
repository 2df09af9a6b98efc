(** C94 for the r-hit kernels. *)
From Coq Require Import Reals Lra Lia Qreals.
From Verif Require Import M_Base M_Num L_Num M_Infer L_Infer M_PMCABC M_RSMCABC M_SMCABC L_SMCABC M_XReal M_Stats L_PMC S_Stats L_Stats L_Distance L_PosDef L_Histogram S_Law P_Law L_Law P_Law3 P_Law4 S_Gen L_Gen L_Hits L_Coin P_Law5 S_Anneal L_Anneal S_Consist L_LLN L_Workers P_Consist2 S_Reweight L_Reweight P_Reweight L_Streams P_Reweight2.
Open Scope R_scope.

Section Hits.
Variables A Theta Y : Type.
Variable outs : list A.
Variable p : A -> R.
Hypothesis law : Law outs p.
Variable setp : Theta -> Theta -> bool * Theta.
Variable pdfv : Theta -> Theta -> num.
Variable kupd : pop Theta -> nat -> list A -> list A * Theta.
Variable kupdL : pop Theta -> Theta -> list A -> list A * Theta.
Variable kpdf : pop Theta -> Theta -> Theta -> num.
Variable prior : list A -> list A * Theta.
Variable simc : Theta -> list A -> list A * option Y.
Variable dist : Y -> num.
Variable dist1 : Y -> list num.
Variable bern : num -> list A -> res (list A * bool).
Variable choiceL : list nat -> list A -> res (list A * nat).
Variable uniq : list num -> nat.
Variable draw : nat -> nat -> list num -> res (list nat).
(** the threshold of the iteration; r - 2 *)
Variable e' : Q.
Variable w0 : nat.
Notation r := (S (S w0)).
Variable pi : Theta -> Q.
Variable kern : Theta -> Theta -> Q.
Variable pts : list Theta.
Variable datas : list Y.
Variable lik : Theta -> Y -> R.
Hypothesis set_all : forall th cur, setp th cur = (true, th).
Hypothesis density : forall th cur, pdfv th cur = Fin (pi th).
Hypothesis density_nonneg : forall th, (0 <= pi th)%Q.
Notation Ts := (filter (inside Theta pi) pts).
Hypothesis kern_law : forall th, Law pts (fun x => Q2R (kern th x)).
Hypothesis data_law : forall th, Law datas (lik th).
Hypothesis sim_law : forall th, In th Ts -> Produces outs p (simulate A Theta Y simc th) datas (lik th).
Hypothesis coin : forall v, (0 <= v <= 1)%Q -> Produces outs p (fun _ l => bern (Fin v) l) [true; false] (fun b => if b then Q2R v else 1 - Q2R v).
Hypothesis pick : forall L, length L = S w0 -> Produces outs p (fun _ l => choiceL L l) L (fun _ => / INR (S w0)).
Notation h := (h Theta Y dist (Fin e') datas lik).
Notation inner := (P_Law5.inner Theta pi kern pts).
Hypothesis h_pos : forall th, In th Ts -> 0 < h th.
Hypothesis inner_pos : forall th, In th Ts -> 0 < inner th.
Notation drawn := (drawn A Theta outs p kupd kupdL kpdf pi kern pts).
Notation posterior := (posterior Theta Y dist (Fin e') pi pts datas lik).
Notation close_mean := (close_mean Theta Y dist (Fin e') datas lik).
Notation next_step := (next_step A Theta Y setp pdfv kupd kupdL kpdf prior simc dist dist1 bern choiceL uniq draw).
Notation mv1 q ys fuel idx th cur l := (move1 Theta (list A) Y setp pdfv kupd kpdf simc dist bern choiceL r (Fin e') q (Some ys) fuel idx th cur l).
Notation mv2 q ys fuel idx th cur l := (move2 Theta (list A) Y setp pdfv kupd kupdL kpdf simc dist bern choiceL r (Fin e') q (Some ys) fuel idx th cur l).

Lemma tends_cv (u : nat -> list A -> R) v : Tends outs p u v -> Un_cv (fun k => mean outs p k (u (k + 1)%nat)) v.
Proof. intros H e He. destruct (H e He) as (K & HK). exists K. intros k Hk. apply HK. lia. Qed.
Lemma mix_one (c : Theta -> Theta -> R) (a : Theta -> Theta -> R) th : total (map (c th) Ts) = 1 -> total (map (fun th' => c th th' * (a th th' * close_mean (fun _ _ => 1) th' + (1 - a th th') * 1)) Ts) = 1.
Proof.
  intros H. transitivity (total (map (c th) Ts)); [|exact H]. apply total_ext. intros th' Hth'. assert (E : close_mean (fun _ _ => 1) th' = 1). { unfold P_Law5.close_mean. change (expect datas (lik th') (fun y => if near Y dist (Fin e') y then 1 else 0)) with (h th'). field. specialize (h_pos th' Hth'). lra. } rewrite E. ring.
Qed.
(** C94 (r-hit kernels): the same for kernels 1 and 2.  [moved] is the mean of f after one move; the law with density prior times probability of close data times the chance of staying inside the prior is left invariant,
    the ABC posterior if that chance is the same everywhere. *)
Theorem C94_hits : forall kernel (f : Theta -> Y -> R) B, kernel = 1%nat \/ kernel = 2%nat -> (forall th y, Rabs (f th y) <= B) -> exists moved : Theta -> Y -> R,
  posterior inner moved = posterior inner f /\ (forall m, (forall th, In th Ts -> inner th = m) -> posterior (fun _ => 1) moved = posterior (fun _ => 1) f) /\
  forall n steps alpha ef resample full aStep (s : sstate Theta Y) zs qs d,
  (0 < n)%nat -> complete Theta Y n s -> next_weights Theta Y dist1 uniq false n alpha ef s = Some (e', zs, map Fin qs) -> Forall (fun q => (0 <= q)%Q) qs ->
  (0 < resample)%Q -> nlt (ess (map Fin qs)) (Fin resample) = false -> 0 < d ->
  Forall (fun z => In (fst z) Ts) zs -> (forall i th, nth_error (map fst zs) i = Some th -> drawn (mkpop (map fst zs) (map Fin qs)) i th) ->
  exists m, weighted_num (fun z => moved (fst z) (snd z)) zs (map Fin qs) = Some m /\
  forall eta, 0 < eta -> exists K, forall k, (K <= k)%nat ->
    gens outs p n k (fun ls => if match next_step kernel r n steps alpha ef resample full aStep s k ls with
        | Ok s' => off d (weighted_num (fun z => f (fst z) (snd z)) (particles Theta Y s') (m_w _ _ s')) m
        | Err _ => true
        end then 1 else 0) <= 4 * B ^ 2 / (Q2R resample * d ^ 2) + eta.
Proof.
  intros kernel f B Hk Hf.
  assert (L : exists (c a : Theta -> Theta -> R), (forall th, In th Ts -> total (map (c th) Ts) = 1) /\
    (forall th th', In th Ts -> In th' Ts -> Q2R (pi th) * inner th * h th * c th th' * a th th' = Q2R (pi th') * inner th' * h th' * c th' th * a th' th) /\
    forall q ys idx th y cur g B, In th Ts -> drawn q idx th -> nth_error ys idx = Some y -> (forall th y, Rabs (g th y) <= B) ->
      Tends outs p (fun fuel l => match (match kernel with 0 => Err IndexError | 1 => mv1 q ys fuel idx th cur l | _ => mv2 q ys fuel idx th cur l end) with Ok (th', y', _, _) => g th' y' | Err _ => 0 end)
        (total (map (fun th' => c th th' * (a th th' * close_mean g th' + (1 - a th th') * g th y)) Ts))).
  { destruct Hk as [-> | ->].
    - destruct (C78_first_law A Theta Y outs p law setp pdfv kupd kupdL kpdf simc dist bern choiceL (Fin e') w0 pi kern pts datas lik set_all density density_nonneg kern_law data_law sim_law coin pick h_pos inner_pos) as (a & _ & _ & Hb & Ht).
      exists (fun th th' => Q2R (kern th th') / inner th), a. split; [intros th Hth; exact (P_Law5.inner_sum Theta pi kern pts inner_pos th Hth)|]. split; [|exact Ht].
      intros th th' H H'. specialize (Hb th th' H H'). pose proof (inner_pos th H). pose proof (inner_pos th' H'). transitivity (Q2R (pi th) * h th * Q2R (kern th th') * a th th'); [field; lra|]. rewrite Hb. field. lra.
    - destruct (C78_second_law A Theta Y outs p law setp pdfv kupd kupdL kpdf simc dist bern choiceL (Fin e') w0 pi kern pts datas lik set_all density density_nonneg kern_law data_law sim_law coin pick h_pos inner_pos) as (a & _ & _ & Hb & Ht).
      exists (fun th th' => Q2R (kern th th') / inner th * h th' / reach Theta Y dist (Fin e') pi kern pts datas lik th), a. split; [intros th Hth; exact (reach_sum Theta Y dist (Fin e') pi kern pts datas lik kern_law h_pos inner_pos th Hth)|]. split; [|exact Ht].
      intros th th' H H'. specialize (Hb th th' H H'). pose proof (inner_pos th H). pose proof (inner_pos th' H'). pose proof (reach_pos Theta Y dist (Fin e') pi kern pts datas lik kern_law h_pos inner_pos th H). pose proof (reach_pos Theta Y dist (Fin e') pi kern pts datas lik kern_law h_pos inner_pos th' H').
      transitivity (Q2R (pi th) * h th * (Q2R (kern th th') * h th' / reach Theta Y dist (Fin e') pi kern pts datas lik th) * a th th'); [field; lra|]. rewrite Hb. field. lra. }
  destruct L as (c & a & Hc & Hb & Ht). pose (mvd := fun (g : Theta -> Y -> R) th y => total (map (fun th' => c th th' * (a th th' * close_mean g th' + (1 - a th th') * g th y)) Ts)). exists (mvd f).
  assert (I : posterior inner (mvd f) = posterior inner f) by (exact (P_Law5.kept Theta Y dist (Fin e') pi pts datas lik h_pos inner c a f Hc Hb)).
  split; [exact I|]. split; [intros m Hm; exact (same_inner Theta Y dist (Fin e') pi kern pts datas lik inner_pos m (mvd f) f Hm I)|].
  intros n steps alpha ef resample full aStep s zs qs d Hn Hco Hw Hq Hr He Hd Hz Hh.
  assert (Wm : exists m, weighted_num (fun z => mvd f (fst z) (snd z)) zs (map Fin qs) = Some m).
  { unfold weighted_num. replace (forallb _ (map Fin qs)) with true by (clear; induction qs as [|q qs IH]; [reflexivity|exact IH]). eexists. reflexivity. }
  destruct Wm as (m & Hm). exists m. split; [exact Hm|]. intros eta Heta.
  assert (HB : 0 <= B).
  { destruct zs as [|z zs]; [|apply Rle_trans with (Rabs (f (fst z) (snd z))); [apply Rabs_pos|apply Hf]]. exfalso. destruct Hco as ((rows & ys & ds & H1 & H2 & H3 & H4 & H5) & _). unfold next_weights in Hw. rewrite H1, H2, H3 in Hw. destruct (sm_reweight _ _ _ _ _ _ _ _ _ _ _) as [[e1 nw1]|]; [|discriminate]. injection Hw as _ X _. apply (f_equal (@length _)) in X. rewrite combine_length, H4, H5 in X. cbn in X. lia. }
  refine (population A Theta Y outs p law setp pdfv kupd kupdL kpdf prior simc dist dist1 bern choiceL uniq draw set_all kernel r n steps alpha ef resample full aStep s e' zs qs (fun z => f (fst z) (snd z)) B (fun z => mvd f (fst z) (snd z)) m d eta Hn Hco Hw Hq Hr He HB (fun z => Hf _ _) _ Hm Hd Heta).
  intros i [th y] q Ez Eq Hp. pose proof (map_nth_error fst _ _ Ez) as E1. pose proof (map_nth_error snd _ _ Ez) as E2. cbn [fst snd] in E1, E2. rewrite Forall_forall in Hz. pose proof (Hz _ (nth_error_In _ _ Ez)) as Hth. cbn [fst snd] in Hth.
  assert (L : forall g B', (forall th y, Rabs (g th y) <= B') -> Un_cv (fun k => mean outs p k (fun l => match moved_to A Theta Y setp pdfv kupd kupdL kpdf prior simc dist dist1 bern choiceL kernel r (Fin e') (mkpop (map fst zs) (map Fin qs)) (map snd zs) (m_cur _ _ s) i k l with Some (th', y') => g th' y' | None => 0 end)) (mvd g th y)).
  { intros g B' Hg. refine (cv_ext _ _ _ _ (tends_cv _ _ (Ht (mkpop (map fst zs) (map Fin qs)) (map snd zs) i th y (m_cur _ _ s) g B' Hth (Hh i th E1) E2 Hg))).
    intros k. apply mean_ext. intros l _. unfold moved_to, sm_accept. cbn [fst snd p_w p_rows]. rewrite (map_nth_error _ _ _ Eq), E1. cbn [nlt]. assert (Z : Qle_bool q 0 = false) by (destruct (Qle_bool q 0) eqn:X; [apply Qle_bool_iff in X; exfalso; apply (Qlt_irrefl 0), Qlt_le_trans with q; assumption|reflexivity]). rewrite Z. cbn [negb].
    destruct Hk as [-> | ->]; [destruct (mv1 _ _ _ _ _ _ _) as [[[[th' y'] cnt] c']|]|destruct (mv2 _ _ _ _ _ _ _) as [[[[th' y'] cnt] c']|]]; reflexivity. }
  split.
  - refine (cv_ext _ _ _ _ (L f B Hf)). intros k. apply mean_ext. intros l _. destruct (moved_to _ _ _ _ _ _ _ _ _ _ _ _ _ _ _ _ _ _ _ _ _ _ _) as [[th' y']|]; reflexivity.
  - pose proof (L (fun _ _ => 1) 1 ltac:(intros; cbv beta; rewrite Rabs_R1; lra)) as L1. unfold mvd in L1. rewrite (mix_one c a th (Hc th Hth)) in L1. refine (cv_ext _ _ _ _ L1). intros k. apply mean_ext. intros l _. destruct (moved_to _ _ _ _ _ _ _ _ _ _ _ _ _ _ _ _ _ _ _ _ _ _ _) as [[th' y']|]; reflexivity.
Qed.
End Hits.
Print Assumptions C94_hits.

(** Case: the example of P_Law5 on a circle of three parameters; the particles 0 and 1 with data 0 and 1, threshold 3/2, equal weights. *)
Definition case_state : sstate Z Z := mksst Z Z [3 # 2]%Q (Some [0; 1]%Z) [Fin (1 # 2); Fin (1 # 2)] (Some [0; 1]%Z) (Some [Fin 0; Fin 1]) None 0 0%Z [] [] None.
Definition case_step (kernel k : nat) (ls : list (list Z)) : res (sstate Z Z) :=
  next_step Z Z Z Moves.setp (fun th _ => Fin (Steps.pi th)) (Hits.kupd Steps.clamp) (Hits.kupdL Steps.clamp) (Hits.kpdf Steps.clamp) (fun l => (l, 0%Z)) Hits.simc Hits.dist (fun y => [Hits.dist y]) Hits.bern Hits.choiceL (fun _ => 0%nat) (fun _ _ _ => Err ValueError)
    kernel 3 2 5 (1 # 2) (3 # 2) 1 1 1 case_state k ls.
Example C94_hits_case : forall kernel, kernel = 1%nat \/ kernel = 2%nat -> exists moved m,
  posterior Z Z Hits.dist (Fin (3 # 2)) Steps.pi Hits.pts Hits.pts Hits.lik (fun _ => 1) moved = posterior Z Z Hits.dist (Fin (3 # 2)) Steps.pi Hits.pts Hits.pts Hits.lik (fun _ => 1) Hits.one /\
  m = (moved 0%Z 0%Z + moved 1%Z 1%Z) / 2 /\
  forall d eta, 0 < d -> 0 < eta -> exists K, forall k, (K <= k)%nat ->
    gens Moves.outs Moves.p 2 k (fun ls => if match case_step kernel k ls with Ok s' => off d (weighted_num (fun z => Hits.one (fst z) (snd z)) (particles Z Z s') (m_w _ _ s')) m | Err _ => true end then 1 else 0) <= 4 * 1 ^ 2 / (Q2R 1 * d ^ 2) + eta.
Proof.
  intros kernel Hk.
  destruct (C94_hits Z Z Z Moves.outs Moves.p Moves.law Moves.setp (fun th _ => Fin (Steps.pi th)) (Hits.kupd Steps.clamp) (Hits.kupdL Steps.clamp) (Hits.kpdf Steps.clamp) (fun l => (l, 0%Z)) Hits.simc Hits.dist (fun y => [Hits.dist y]) Hits.bern Hits.choiceL (fun _ => 0%nat) (fun _ _ _ => Err ValueError)
    (3 # 2) 1 Steps.pi (Hits.kern Steps.clamp) Hits.pts Hits.pts Hits.lik (fun _ _ => eq_refl) (fun _ _ => eq_refl) Hits.pi_nonneg (Hits.kern_law Steps.clamp Hits.clamp_in) Hits.lik_law (fun th _ => Hits.sims th) Hits.coins Hits.picks Hits.h_positive Hits.clamp_pos kernel Hits.one 1 Hk Hits.one_bound) as (moved & _ & He & Hl).
  assert (Hw : exists qs, next_weights Z Z (fun y => [Hits.dist y]) (fun _ => 0%nat) false 2 (1 # 2) (3 # 2) case_state = Some ((3 # 2)%Q, [(0, 0); (1, 1)]%Z, map Fin qs) /\ map Qred qs = [1 # 2; 1 # 2]%Q /\ nlt (ess (map Fin qs)) (Fin 1) = false)
    by (eexists [_; _]; split; [vm_compute; reflexivity|]; split; vm_compute; reflexivity).
  destruct Hw as (qs & Hw & Hq & Hess).
  assert (Q2 : exists a b, qs = [a; b] /\ (a == 1 # 2)%Q /\ (b == 1 # 2)%Q). { destruct qs as [|a [|b [|? ?]]]; try discriminate. injection Hq as H1 H2. exists a, b. split; [reflexivity|]. rewrite <- (Qred_correct a), <- (Qred_correct b), H1, H2. split; reflexivity. }
  destruct Q2 as (a & b & -> & Ha & Hb).
  assert (HM : weighted_num (fun z => moved (fst z) (snd z)) [(0, 0); (1, 1)]%Z (map Fin [a; b]) = Some ((moved 0%Z 0%Z + moved 1%Z 1%Z) / 2)).
  { assert (V : Q2R (1 # 2) = 1 / 2) by (unfold Q2R; cbn; lra). rewrite weighted_fin; cbn [map combine]; rewrite !total_cons; change (total []) with 0; cbn [fst snd]; rewrite (Qeq_eqR _ _ Ha), (Qeq_eqR _ _ Hb), V; [f_equal; field|lra]. }
  exists moved, ((moved 0%Z 0%Z + moved 1%Z 1%Z) / 2). split; [apply (He 1), Hits.inner_clamp|]. split; [reflexivity|]. intros d eta Hd Heta.
  destruct (Hl 2%nat 5%nat (1 # 2)%Q (3 # 2)%Q 1%Q 1%nat 1%nat case_state [(0, 0); (1, 1)]%Z [a; b] d) as (m & Hm & Hlaw); try exact Hw; try exact Hess; try exact Hd; [lia| | |reflexivity| | |].
  - split; [exists [0; 1]%Z, [0; 1]%Z, [Fin 0; Fin 1]; split; [reflexivity|]; split; [reflexivity|]; split; [reflexivity|]; split; reflexivity|discriminate].
  - constructor; [rewrite Ha; discriminate|]. constructor; [rewrite Hb; discriminate|constructor].
  - rewrite Hits.Ts_eq. constructor; [left; reflexivity|]. constructor; [right; left; reflexivity|constructor].
  - intros i th Hi. destruct i as [|[|i]]; cbn in Hi; [injection Hi as <-|injection Hi as <-|destruct i; discriminate]; (split; [apply (Hits.moved_law Steps.clamp Hits.clamp_in); reflexivity|]; split; [reflexivity|]; intros th' _; apply (Hits.moved_law Steps.clamp Hits.clamp_in); reflexivity).
  - rewrite HM in Hm. injection Hm as <-. exact (Hlaw eta Heta).
Qed.
