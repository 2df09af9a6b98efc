(** The models of the other schemes run the programs of M_Worker2 on a vector (C95). *)
From Coq Require Import Reals.
From Verif Require Import M_Base M_Num M_XReal M_Infer M_PMCABC M_RSMCABC M_APMCABC M_SMCABC M_SABC M_Subsim M_PMC M_MCMC M_Graph S_Graph M_Worker S_Worker L_Worker M_Worker2.
Open Scope nat_scope.

Section Vector.
Variable setp : Vec -> Vec -> bool * Vec.
Variable pdfv : Vec -> Vec -> num.
Variable prior : nat -> nat * Vec.
Variable simc : Vec -> nat -> nat * option Data.
Notation on_vector := (on_vector setp pdfv prior simc).
Notation pdfp := (M_Infer.pdf_of_prior Vec setp pdfv).
Lemma v_sim {A} (c : Data -> prog A) cur r : on_vector (w_sim c) cur r = let '(r', y) := simc cur r in match y with None => Err TypeError | Some y => on_vector (c y) cur r' end.
Proof. unfold w_sim. cbn [M_Worker.on_vector]. destruct (simc cur r) as [r' [y|]]; reflexivity. Qed.
Lemma v_ratio {A} th theta (c : num -> num -> prog A) cur r : on_vector (w_ratio th theta c) cur r = let '(a, c1) := pdfp th cur in let '(b, c2) := pdfp theta c1 in on_vector (c a b) c2 r.
Proof. unfold w_ratio. cbn [M_Worker.on_vector]. destruct (pdfp th cur) as [a c1]. destruct (pdfp theta c1) as [b c2]. reflexivity. Qed.

Section Pop.
Variable kupd : pop Vec -> nat -> nat -> nat * Vec.
Variable kupdL : pop Vec -> Vec -> nat -> nat * Vec.
Variable kpdf : pop Vec -> Vec -> Vec -> num.
Variable dist : Data -> num.
Variable dist1 : Data -> list num.
Variable dist_max : num.
Variable mkrng : Z -> nat.
Variable reseed : nat -> nat.
Variable choice : nat -> list num -> nat -> res (nat * nat).
Variable choiceU : nat -> nat -> res (nat * nat).
Variable choiceL : list nat -> nat -> res (nat * nat).
Variable bern : num -> nat -> res (nat * bool).
Variable rand : nat -> nat * num.
Variable nexp : num -> num.

Lemma v_rs_prior eps : forall fuel d counter cur r, exists r', on_vector (w_rs_prior dist eps fuel d counter) cur r =
  match rs_prior Vec nat Data prior simc dist eps fuel cur r d counter with Err e => Err e | Ok (th, d', a, k, cur') => Ok ((th, d', a, k), cur', r') end.
Proof.
  induction fuel as [|f IH]; intros d counter cur r; cbn [w_rs_prior rs_prior]; destruct (nlt eps d); try (exists r; reflexivity).
  cbn [M_Worker.on_vector]. destruct (prior r) as [r1 th]. rewrite v_sim. destruct (simc th r1) as [r2 [y|]]; [apply IH|exists r; reflexivity].
Qed.
Lemma v_rs_moves eps p dists i theta fuel : forall k d acc counter cur r, exists r', on_vector (w_rs_moves kupd kpdf dist bern eps p dists i theta fuel k d acc counter) cur r =
  match rs_moves Vec nat Data setp pdfv kupd kpdf simc dist bern eps p dists i theta fuel k cur r d acc counter with Err e => Err e | Ok (th, d', a, k, cur') => Ok ((th, d', a, k), cur', r') end.
Proof.
  induction k as [|k IH]; intros d acc counter cur r; cbn [w_rs_moves rs_moves]; [exists r; reflexivity|].
  rewrite vector_bind, v_propose. destruct (M_Infer.propose _ _ _ _ _ _ _ _ _ _ _) as [[[cur1 r1] th]|]; [|exists r; reflexivity].
  rewrite v_sim. destruct (simc cur1 r1) as [r2 [y|]]; [|exists r; reflexivity]. rewrite v_ratio. destruct (pdfp th cur1) as [new_prob cur2]. destruct (pdfp theta cur2) as [old_prob cur3].
  set (pa := min1 _).
  assert (Rej : forall q, exists r', on_vector (match dists with None => Done (Err AttributeError) | Some ds => match nth_error ds i with None => Done (Err IndexError)
      | Some d' => Put theta (fun _ => w_rs_moves kupd kpdf dist bern eps p dists i theta fuel k d' acc (S counter)) end end) cur3 q =
    match match dists with None => Err AttributeError | Some ds => match nth_error ds i with None => Err IndexError
      | Some d' => rs_moves Vec nat Data setp pdfv kupd kpdf simc dist bern eps p dists i theta fuel k (snd (setp theta cur3)) q d' acc (S counter) end end with
    Err e => Err e | Ok (th, d', a, k, cur') => Ok ((th, d', a, k), cur', r') end).
  { intros q. destruct dists as [ds|]; [|exists r; reflexivity]. destruct (nth_error ds i) as [d'|]; [|exists r; reflexivity]. cbn [M_Worker.on_vector]. destruct (setp theta cur3) as [b c]. apply IH. }
  destruct (nlt (dist y) eps); [|apply Rej]. cbn [M_Worker.on_vector]. destruct (bern pa r2) as [[r3 [|]]|]; [apply IH|apply Rej|exists r; reflexivity].
Qed.
Lemma v_rsmcabc eps R mgr dists fuel seed cur r : exists r', on_vector (w_rsmcabc kupd kpdf dist dist_max mkrng reseed choiceU bern eps R mgr dists fuel seed) cur r =
  match rs_accept Vec nat Data setp pdfv kupd kpdf prior simc dist dist_max mkrng reseed choiceU bern eps R mgr dists fuel seed cur with Err e => Err e | Ok (th, d', a, k, cur') => Ok ((th, d', a, k), cur', r') end.
Proof.
  unfold w_rsmcabc, w_seed, rs_accept. cbn [M_Worker.on_vector]. destruct mgr as [p|]; [|apply v_rs_prior]. cbn [M_Worker.on_vector]. destruct (choiceU (length (p_rows p)) _) as [[r1 i]|]; [|exists r; reflexivity].
  destruct (nth_error (p_rows p) i) as [theta|]; [|exists r; reflexivity]. apply v_rs_moves.
Qed.
Lemma v_apmcabc mgr fuel seed cur r : exists r', on_vector (w_apmcabc kupd kpdf dist mkrng reseed choice mgr fuel seed) cur r =
  match ap_accept Vec nat Data setp pdfv kupd kpdf prior simc dist mkrng reseed choice mgr fuel seed cur with Err e => Err e | Ok (th, d', w, k, cur') => Ok ((th, d', w, k), cur', r') end.
Proof.
  unfold w_apmcabc, w_seed, ap_accept. cbn [M_Worker.on_vector]. destruct mgr as [p|].
  - cbn [M_Worker.on_vector]. destruct (choice (length (p_w p)) (p_w p) _) as [[r1 i]|]; [|exists r; reflexivity]. rewrite vector_bind, v_propose. destruct (M_Infer.propose _ _ _ _ _ _ _ _ _ _ _) as [[[cur1 r2] th]|]; [|exists r; reflexivity].
    rewrite v_sim. destruct (simc cur1 r2) as [r3 [y|]]; [|exists r; reflexivity]. cbn [M_Worker.on_vector]. destruct (pdfp th cur1) as [v cur2]. eexists. reflexivity.
  - cbn [M_Worker.on_vector]. destruct (prior _) as [r1 th]. rewrite v_sim. destruct (simc th r1) as [r2 [y|]]; [|exists r; reflexivity]. eexists. reflexivity.
Qed.

Lemma v_until {A} (gen : prog (A * Data)) (gen' : Vec -> nat -> res (Vec * nat * (A * Data))) eps :
  (forall cur r, on_vector gen cur r = match gen' cur r with Err e => Err e | Ok (c, r', x) => Ok (x, c, r') end) ->
  forall fuel want trials cur r, on_vector (w_until dist gen eps want fuel trials) cur r =
    match until_hits Vec nat Data dist gen' eps want fuel cur r trials with Err e => Err e | Ok (c, r', l) => Ok (l, c, r') end.
Proof.
  intros Hg. induction fuel as [|f IH]; intros want trials cur r; destruct want as [|w]; cbn [w_until until_hits]; try reflexivity.
  rewrite vector_bind, Hg. destruct (gen' cur r) as [[[c r'] x]|]; [|reflexivity]. apply IH.
Qed.
Lemma v_sim1 {A} (a : A) cur r : on_vector (w_sim1 a) cur r = match sim1 Vec nat Data simc a cur r with Err e => Err e | Ok (c, r', x) => Ok (x, c, r') end.
Proof. unfold w_sim1, sim1. rewrite v_sim. destruct (simc cur r) as [r' [y|]]; reflexivity. Qed.
Lemma v_keep ys idx counter theta cur r : on_vector (w_keep ys idx counter theta) cur r =
  match M_SMCABC.keep Vec Data setp ys idx counter theta cur with Err e => Err e | Ok (th, y, k, c) => Ok ((th, y, k), c, r) end.
Proof.
  unfold w_keep, M_SMCABC.keep. destruct ys as [ys|]; [|reflexivity]. destruct (nth_error ys idx) as [y|]; [|reflexivity]. cbn [M_Worker.on_vector]. destruct (setp theta cur) as [b c]. reflexivity.
Qed.
Lemma v_move0 eps p ys fuel idx theta cur r : exists r', on_vector (w_move0 kupd kpdf dist1 bern eps p ys fuel idx theta) cur r =
  match move0 Vec nat Data setp pdfv kupd kpdf simc dist1 bern eps p ys fuel idx theta cur r with Err e => Err e | Ok (th, y, k, c) => Ok ((th, y, k), c, r') end.
Proof.
  unfold w_move0, move0. rewrite vector_bind, v_propose. destruct (M_Infer.propose _ _ _ _ _ _ _ _ _ _ _) as [[[cur1 r1] th]|]; [|exists r; reflexivity]. rewrite v_sim. unfold sim1. destruct (simc cur1 r1) as [r2 [y|]]; [|exists r; reflexivity].
  destruct ys as [ys|]; [|exists r; reflexivity]. destruct (nth_error ys idx) as [y_old|]; [|exists r; reflexivity]. rewrite v_ratio. unfold ratios. destruct (pdfp th cur1) as [a c1]. destruct (pdfp theta c1) as [b c2].
  cbn [M_Worker.on_vector]. destruct (bern _ r2) as [[r3 [|]]|]; [| |exists r; reflexivity]; cbn [M_Worker.on_vector]; [destruct (setp th c2)|destruct (setp theta c2)]; exists r3; reflexivity.
Qed.
Lemma v_move1 hits eps p ys fuel idx theta cur r : exists r', on_vector (w_move1 kupd kpdf dist choiceL bern hits eps p ys fuel idx theta) cur r =
  match move1 Vec nat Data setp pdfv kupd kpdf simc dist bern choiceL hits eps p ys fuel idx theta cur r with Err e => Err e | Ok (th, y, k, c) => Ok ((th, y, k), c, r') end.
Proof.
  unfold w_move1, move1. cbn [M_Worker.on_vector]. destruct (setp theta cur) as [b0 c0]. cbn [snd]. rewrite vector_bind, (v_until _ _ eps (v_sim1 tt)). destruct (until_hits _ _ _ _ _ _ _ _ _ _ _) as [[[cur1 r1] old]|]; [|exists r; reflexivity].
  rewrite vector_bind, v_propose. destruct (M_Infer.propose _ _ _ _ _ _ _ _ _ _ _) as [[[cur2 r2] th]|]; [|exists r; reflexivity].
  rewrite vector_bind, (v_until _ _ eps (v_sim1 tt)). destruct (until_hits _ _ _ _ _ _ _ _ _ _ _) as [[[cur3 r3] new]|]; [|exists r; reflexivity].
  rewrite v_ratio. unfold ratios. destruct (pdfp th cur3) as [a c1]. destruct (pdfp theta c1) as [b c2]. destruct (length new =? 1); [exists r; reflexivity|].
  cbn [M_Worker.on_vector]. destruct (bern _ r3) as [[r4 [|]]|]; [| |exists r; reflexivity].
  - cbn [M_Worker.on_vector]. destruct (setp th c2) as [b1 c3]. cbn [snd]. destruct (choiceL _ r4) as [[r5 J]|]; [|exists r; reflexivity]. destruct (nth_error new J) as [[u y]|]; [|exists r; reflexivity]. exists r5. reflexivity.
  - exists r4. apply v_keep.
Qed.
Lemma v_pert_sim {Pop} (up : Pop -> nat -> nat -> nat * Vec) fuel p idx cur r : on_vector (w_pert_sim up fuel p idx) cur r =
  match pert_sim Vec nat Data setp pdfv simc up fuel p idx cur r with Err e => Err e | Ok (c, r', x) => Ok (x, c, r') end.
Proof. unfold w_pert_sim, pert_sim. rewrite vector_bind, v_propose. destruct (M_Infer.propose _ _ _ _ _ _ _ _ _ _ _) as [[[cur1 r1] th]|]; [apply v_sim1|reflexivity]. Qed.
Lemma v_move2 hits eps p ys fuel idx theta cur r : exists r', on_vector (w_move2 kupd kupdL kpdf dist choiceL bern hits eps p ys fuel idx theta) cur r =
  match move2 Vec nat Data setp pdfv kupd kupdL kpdf simc dist bern choiceL hits eps p ys fuel idx theta cur r with Err e => Err e | Ok (th, y, k, c) => Ok ((th, y, k), c, r') end.
Proof.
  unfold w_move2, move2. rewrite vector_bind, (v_until _ _ eps (v_pert_sim kupd fuel p idx)). destruct (until_hits _ _ _ _ _ _ _ _ _ _ _) as [[[cur1 r1] primes]|]; [|exists r; reflexivity].
  cbn [M_Worker.on_vector]. destruct (choiceL _ r1) as [[r2 L]|]; [|exists r; reflexivity]. destruct (nth_error primes L) as [[th y]|]; [|exists r; reflexivity].
  rewrite vector_bind, (v_until _ _ eps (v_pert_sim (fun q (_ : nat) => kupdL (fst q) (snd q)) fuel (p, th) 0)). destruct (until_hits _ _ _ _ _ _ _ _ _ _ _) as [[[cur2 r3] back]|]; [|exists r; reflexivity].
  rewrite v_ratio. unfold ratios. destruct (pdfp th cur2) as [a c1]. destruct (pdfp theta c1) as [b c2]. destruct (length primes =? 1); [exists r; reflexivity|].
  cbn [M_Worker.on_vector]. destruct (bern _ r3) as [[r4 [|]]|]; [| |exists r; reflexivity].
  - cbn [M_Worker.on_vector]. destruct (setp th c2) as [b1 c3]. exists r4. reflexivity.
  - exists r4. apply v_keep.
Qed.
Lemma v_smcabc kernel hits eps mgr ys fuel si cur r : exists r', on_vector (w_smcabc kupd kupdL kpdf dist dist1 mkrng reseed choiceL bern kernel hits eps mgr ys fuel si) cur r =
  match sm_accept Vec nat Data setp pdfv kupd kupdL kpdf prior simc dist dist1 mkrng reseed bern choiceL kernel hits eps mgr ys fuel si cur with Err e => Err e | Ok (th, y, d, k, c) => Ok ((th, y, d, k), c, r') end.
Proof.
  unfold w_smcabc, w_seed, sm_accept. cbn [M_Worker.on_vector]. set (r0 := reseed _). set (idx := snd si). rewrite vector_bind.
  assert (G : forall (x : prog (Vec * Data * nat)) (x' : res (Vec * Data * nat * Vec)), (exists r', on_vector x cur r0 = match x' with Err e => Err e | Ok (th, y, k, c) => Ok ((th, y, k), c, r') end) ->
    exists r', match on_vector x cur r0 with Err e => Err e | Ok (a, c, q) => on_vector (let '(th, y, counter) := a in Done (Ok (th, y, dist y, counter))) c q end =
      match match x' with Err e => Err e | Ok (th, y, counter, c) => Ok (th, y, dist y, counter, c) end with Err e => Err e | Ok (th, y, d, k, c) => Ok ((th, y, d, k), c, r') end).
  { intros x x' (r' & E). exists r'. rewrite E. destruct x' as [[[[th y] k] c]|]; reflexivity. }
  apply G. destruct mgr as [p|].
  - destruct (nth_error (p_w p) idx) as [w|]; [|exists r; reflexivity]. destruct (nth_error (p_rows p) idx) as [theta|]; [|exists r; reflexivity]. destruct (nlt (Fin 0) w); [|exists r0; apply v_keep].
    destruct kernel as [|[|kernel]]; [apply v_move0|apply v_move1|apply v_move2].
  - cbn [M_Worker.on_vector]. destruct (prior r0) as [r1 th]. rewrite v_sim. unfold sim1. destruct (simc th r1) as [r2 [y|]]; [|exists r; reflexivity]. exists r2. reflexivity.
Qed.

Lemma v_sa_prior eps : forall fuel tried cur r, exists r', on_vector (w_sa_prior dist bern nexp eps fuel tried) cur r =
  match sa_prior Vec nat Data prior simc dist bern nexp eps fuel r tried with Err e => Err e | Ok (w, c) => Ok (w, c, r') end.
Proof.
  induction fuel as [|f IH]; intros tried cur r; cbn [w_sa_prior sa_prior]; [exists r; reflexivity|]. cbn [M_Worker.on_vector]. destruct (prior r) as [r1 th]. rewrite v_sim. destruct (simc th r1) as [r2 [y|]]; [|exists r; reflexivity].
  cbn [M_Worker.on_vector]. destruct (bern _ r2) as [[r3 [|]]|]; [exists r3; reflexivity|apply IH|exists r; reflexivity].
Qed.
Lemma v_sabc n eps mgr all sm fuel seed cur r : exists r', on_vector (w_sabc kupd dist mkrng reseed choiceU bern rand nexp n eps mgr all sm fuel seed) cur r =
  match sa_accept Vec nat Data setp pdfv kupd prior simc dist mkrng reseed choiceU bern rand nexp n eps mgr all sm fuel seed cur with Err e => Err e | Ok (w, c) => Ok (w, c, r') end.
Proof.
  unfold w_sabc, w_seed, sa_accept. cbn [M_Worker.on_vector]. destruct mgr as [p|]; [|apply v_sa_prior]. cbn [M_Worker.on_vector]. destruct (choiceU n _) as [[r0 i]|]; [|exists r; reflexivity].
  destruct (nth_error (p_rows p) i) as [theta|]; [|exists r; reflexivity]. rewrite vector_bind, v_propose. destruct (M_Infer.propose _ _ _ _ _ _ _ _ _ _ _) as [[[cur1 r1] th]|]; [|exists r; reflexivity].
  rewrite v_sim. destruct (simc cur1 r1) as [r2 [y|]]; [|exists r; reflexivity]. destruct all as [[|a0 all]|]; [exists r; reflexivity| |exists r; reflexivity]. rewrite v_ratio. destruct (pdfp th cur1) as [a c1]. destruct (pdfp theta c1) as [b c2].
  destruct (nth_error sm i) as [s|]; [|exists r; reflexivity]. cbn [M_Worker.on_vector]. destruct (rand r2) as [r3 u]. exists r3. destruct (nlt u _); reflexivity.
Qed.
End Pop.

Section Subsim.
Variable Cov : Type.
Variable kupd : kst Vec Cov -> nat -> nat -> nat * Vec.
Variable kpdf : kst Vec Cov -> Vec -> Vec -> num.
Variable dist : Data -> num.
Variable mkrng : Z -> nat.
Variable reseed : nat -> nat.
Variable bern : num -> nat -> res (nat * bool).
Lemma v_chain ann p i fuel : forall k theta d acc cur r, exists r', on_vector (w_chain Cov kupd kpdf dist bern ann p i fuel k theta d acc) cur r =
  match M_Subsim.chain Vec nat Data Cov setp pdfv kupd kpdf simc dist bern ann p i fuel k theta d cur r acc with Err e => Err e | Ok (l, c) => Ok (l, c, r') end.
Proof.
  induction k as [|k IH]; intros theta d acc cur r; cbn [w_chain M_Subsim.chain]; [exists r; reflexivity|]. destruct p as [q|]; [|exists r; reflexivity].
  rewrite vector_bind, v_propose. destruct (M_Infer.propose _ _ _ _ _ _ _ _ _ _ _) as [[[cur1 r1] th]|]; [|exists r; reflexivity].
  rewrite v_sim. destruct (simc cur1 r1) as [r2 [y|]]; [|exists r; reflexivity]. rewrite v_ratio. destruct (pdfp th cur1) as [a c1]. destruct (pdfp theta c1) as [b c2].
  cbn [M_Worker.on_vector]. destruct (bern _ r2) as [[r3 [|]]|]; [apply IH|apply IH|exists r; reflexivity].
Qed.
Lemma v_subsim cl ann bds p fuel si cur r : exists r', on_vector (w_subsim Cov kupd kpdf dist mkrng reseed bern cl ann bds p fuel si) cur r =
  match sb_accept Vec nat Data Cov setp pdfv kupd kpdf prior simc dist mkrng reseed bern cl ann bds p fuel si cur with Err e => Err e | Ok (l, k, c) => Ok ((l, k), c, r') end.
Proof.
  unfold w_subsim, w_seed, sb_accept. cbn [M_Worker.on_vector]. destruct bds as [rows|].
  - destruct (nth_error rows (snd si)) as [theta|]; [|exists r; reflexivity]. cbn [M_Worker.on_vector]. destruct (setp theta cur) as [b c]. cbn [snd]. rewrite v_sim. destruct (simc c _) as [r1 [y|]]; [|exists r; reflexivity].
    rewrite vector_bind. destruct (v_chain ann p (snd si) fuel (cl - 1) theta (dist y) [] c r1) as (r2 & E). rewrite E. destruct (M_Subsim.chain _ _ _ _ _ _ _ _ _ _ _ _ _ _ _ _ _ _ _ _ _) as [[l c2]|]; [exists r2; reflexivity|exists r; reflexivity].
  - cbn [M_Worker.on_vector]. destruct (prior _) as [r1 th]. rewrite v_sim. destruct (simc th r1) as [r2 [y|]]; [exists r2; reflexivity|exists r; reflexivity].
Qed.
Lemma v_cov_try cl ann bds p fuel seed cur r : exists r', on_vector (w_cov_try Cov kupd kpdf dist mkrng reseed bern cl ann bds p fuel seed) cur r =
  match cov_try Vec nat Data Cov setp pdfv kupd kpdf simc dist mkrng reseed bern cl ann bds p fuel seed cur with Err e => Err e | Ok (k, c) => Ok (k, c, r') end.
Proof.
  unfold w_cov_try, w_seed, cov_try. destruct bds as [|theta bds]; [exists r; reflexivity|]. cbn [M_Worker.on_vector]. rewrite vector_bind.
  destruct (v_chain ann (Some p) 0 fuel cl theta NaN [] cur (reseed (mkrng seed))) as (r2 & E). rewrite E. destruct (M_Subsim.chain _ _ _ _ _ _ _ _ _ _ _ _ _ _ _ _ _ _ _ _ _) as [[l c2]|]; [exists r2; reflexivity|exists r; reflexivity].
Qed.
End Subsim.

Section PMC.
Variable kpdf : wpop Vec -> Vec -> Vec -> xr.
Variable loglik : Data -> xr.
Variable mkrng : Z -> nat.
Lemma v_log_lik th seed cur r : exists r', on_vector (w_log_lik loglik mkrng th seed) cur r =
  match log_lik Vec nat Data setp pdfv simc loglik mkrng th seed cur with Err e => Err e | Ok (x, c) => Ok (x, c, r') end.
Proof.
  unfold w_log_lik, log_lik. cbn [M_Worker.on_vector]. destruct (setp th cur) as [b c]. cbn [snd]. rewrite v_sim. destruct (simc c _) as [r1 [y|]]; [|exists r; reflexivity]. cbn [M_Worker.on_vector]. destruct (pdfp th c) as [v c2]. exists r1. reflexivity.
Qed.
Lemma v_pm_weight n p th cur r : exists r', on_vector (w_pm_weight kpdf n p th) cur r =
  match pm_weight Vec setp pdfv kpdf n p th cur with Err e => Err e | Ok (x, c) => Ok (x, c, r') end.
Proof.
  unfold w_pm_weight, pm_weight. cbn [M_Worker.on_vector]. destruct (pdfp th cur) as [v c]. exists r. destruct (length (wp_rows p) <? n); [reflexivity|]. destruct (negb (length (wp_w p) =? n)); reflexivity.
Qed.
End PMC.
End Vector.

Section Careful.
Variables (g : graph) (o : list nat).
Notation fits := (fits g o).
Notation careful := (careful g o).
Lemma c_sim {A} (P : A -> Prop) c : (forall y, careful P (c y)) -> careful P (w_sim c).
Proof. intros H [y|]; cbn [S_Worker.careful]; auto. Qed.
Lemma c_ratio {A} (P : A -> Prop) th theta c : fits th -> fits theta -> (forall a b, careful P (c a b)) -> careful P (w_ratio th theta c).
Proof. intros H1 H2 H. unfold w_ratio. cbn [S_Worker.careful]. auto. Qed.

Section Pop.
Variable kupd : pop Vec -> nat -> nat -> nat * Vec.
Variable kupdL : pop Vec -> Vec -> nat -> nat * Vec.
Variable kpdf : pop Vec -> Vec -> Vec -> num.
Variable dist : Data -> num.
Variable dist1 : Data -> list num.
Variable dist_max : num.
Variable mkrng : Z -> nat.
Variable reseed : nat -> nat.
Variable choice : nat -> list num -> nat -> res (nat * nat).
Variable choiceU : nat -> nat -> res (nat * nat).
Variable choiceL : list nat -> nat -> res (nat * nat).
Variable bern : num -> nat -> res (nat * bool).
Variable rand : nat -> nat * num.
Variable nexp : num -> num.
Hypothesis Hk : forall p i r, fits (snd (kupd p i r)).
Definition rows_fit (mgr : option (pop Vec)) : Prop := forall p, mgr = Some p -> Forall fits (p_rows p).
Lemma row_fits mgr p i th : rows_fit mgr -> mgr = Some p -> nth_error (p_rows p) i = Some th -> fits th.
Proof. intros H E N. specialize (H p E). rewrite Forall_forall in H. apply H, (nth_error_In _ _ N). Qed.

Lemma c_rs_prior eps : forall fuel d counter, careful (fun x => fits (fst (fst (fst x)))) (w_rs_prior dist eps fuel d counter).
Proof.
  induction fuel as [|f IH]; intros d counter; cbn [w_rs_prior]; destruct (nlt eps d); cbn [S_Worker.careful]; auto. apply c_sim. intros y. apply IH.
Qed.
Lemma c_rs_moves eps p dists i theta fuel : fits theta -> forall k d acc counter, careful (fun x => fits (fst (fst (fst x)))) (w_rs_moves kupd kpdf dist bern eps p dists i theta fuel k d acc counter).
Proof.
  intros Ht. induction k as [|k IH]; intros d acc counter; cbn [w_rs_moves]; [cbn [S_Worker.careful]; auto|].
  apply (careful_bind g o fits); [apply c_propose, Hk|]. intros th Hth. apply c_sim. intros y. apply c_ratio; [exact Hth|exact Ht|]. intros a b. set (pa := min1 _).
  assert (R : careful (fun x => fits (fst (fst (fst x)))) (match dists with None => Done (Err AttributeError) | Some ds => match nth_error ds i with None => Done (Err IndexError)
      | Some d' => Put theta (fun _ => w_rs_moves kupd kpdf dist bern eps p dists i theta fuel k d' acc (S counter)) end end)).
  { destruct dists as [ds|]; [|exact I]. destruct (nth_error ds i) as [d'|]; [|exact I]. split; [exact Ht|]. intros _. apply IH. }
  destruct (nlt (dist y) eps); [|exact R]. cbn [S_Worker.careful]. intros r r' [|] _; [apply IH|exact R].
Qed.
Lemma c_rsmcabc eps R mgr dists fuel seed : rows_fit mgr -> careful (fun x => fits (fst (fst (fst x)))) (w_rsmcabc kupd kpdf dist dist_max mkrng reseed choiceU bern eps R mgr dists fuel seed).
Proof.
  intros Hm. unfold w_rsmcabc, w_seed. cbn [S_Worker.careful]. intros _ _ _ _. destruct mgr as [p|]; [|apply c_rs_prior]. cbn [S_Worker.careful]. intros r r' i _.
  destruct (nth_error (p_rows p) i) as [theta|] eqn:N; [|exact I]. apply c_rs_moves, (row_fits _ _ _ _ Hm eq_refl N).
Qed.
Lemma c_apmcabc mgr fuel seed : careful (fun x => fits (fst (fst (fst x)))) (w_apmcabc kupd kpdf dist mkrng reseed choice mgr fuel seed).
Proof.
  unfold w_apmcabc, w_seed. cbn [S_Worker.careful]. intros _ _ _ _. destruct mgr as [p|]; cbn [S_Worker.careful].
  - intros r r' i _. apply (careful_bind g o fits); [apply c_propose, Hk|]. intros th Hth. apply c_sim. intros y. cbn [S_Worker.careful]. auto.
  - apply c_sim. intros y. cbn [S_Worker.careful]. auto.
Qed.
Lemma c_until {A} (P : A -> Prop) (gen : prog (A * Data)) eps : careful (fun x => P (fst x)) gen -> forall fuel want trials, Forall (fun x => P (fst x)) trials ->
  careful (Forall (fun x => P (fst x))) (w_until dist gen eps want fuel trials).
Proof.
  intros Hg. induction fuel as [|f IH]; intros [|w] trials Ht; cbn [w_until]; try exact Ht; try exact I. apply (careful_bind g o (fun x => P (fst x))); [exact Hg|]. intros x Hx. apply IH. apply Forall_app. split; [exact Ht|]. repeat constructor. exact Hx.
Qed.
Lemma c_sim1 {A} (P : A -> Prop) (a : A) : P a -> careful (fun x => P (fst x)) (w_sim1 a).
Proof. intros H. apply c_sim. intros y. exact H. Qed.
Lemma c_sim_loop eps : forall fuel want trials, careful (fun _ => True) (w_until dist (w_sim1 tt) eps want fuel trials).
Proof.
  induction fuel as [|f IH]; intros [|w] trials; cbn [w_until]; try exact I. apply (careful_bind g o (fun _ => True)); [apply c_sim; intros y; exact I|]. intros x _. apply IH.
Qed.
Lemma c_keep ys idx counter theta : fits theta -> careful (fun x => fits (fst (fst x))) (w_keep ys idx counter theta).
Proof. intros H. unfold w_keep. destruct ys as [ys|]; [|exact I]. destruct (nth_error ys idx) as [y|]; [|exact I]. cbn [S_Worker.careful]. auto. Qed.
Lemma c_move0 eps p ys fuel idx theta : fits theta -> careful (fun x => fits (fst (fst x))) (w_move0 kupd kpdf dist1 bern eps p ys fuel idx theta).
Proof.
  intros Ht. unfold w_move0. apply (careful_bind g o fits); [apply c_propose, Hk|]. intros th Hth. apply c_sim. intros y. destruct ys as [ys|]; [|exact I]. destruct (nth_error ys idx) as [y_old|]; [|exact I].
  apply c_ratio; [exact Hth|exact Ht|]. intros a b. cbn [S_Worker.careful]. intros r r' [|] _; cbn [S_Worker.careful]; auto.
Qed.
Lemma c_move1 hits eps p ys fuel idx theta : fits theta -> careful (fun x => fits (fst (fst x))) (w_move1 kupd kpdf dist choiceL bern hits eps p ys fuel idx theta).
Proof.
  intros Ht. unfold w_move1. cbn [S_Worker.careful]. split; [exact Ht|]. intros _. apply (careful_bind g o (fun _ => True)); [apply c_sim_loop|]. intros old _.
  apply (careful_bind g o fits); [apply c_propose, Hk|]. intros th Hth. apply (careful_bind g o (fun _ => True)); [apply c_sim_loop|]. intros new _.
  apply c_ratio; [exact Hth|exact Ht|]. intros a b. destruct (length new =? 1); [exact I|]. cbn [S_Worker.careful]. intros r r' [|] _; [|apply c_keep, Ht]. cbn [S_Worker.careful]. split; [exact Hth|]. intros _ q q' J _.
  destruct (nth_error new J) as [[u y]|]; [|exact I]. cbn [S_Worker.careful]. auto.
Qed.
Lemma c_pert_sim {Pop} (up : Pop -> nat -> nat -> nat * Vec) fuel p idx : (forall p i r, fits (snd (up p i r))) -> careful (fun x => fits (fst x)) (w_pert_sim up fuel p idx).
Proof. intros H. apply (careful_bind g o fits); [apply c_propose, H|]. intros th Hth. apply (c_sim1 fits), Hth. Qed.
Hypothesis HkL : forall p th r, fits (snd (kupdL p th r)).
Lemma c_move2 hits eps p ys fuel idx theta : fits theta -> careful (fun x => fits (fst (fst x))) (w_move2 kupd kupdL kpdf dist choiceL bern hits eps p ys fuel idx theta).
Proof.
  intros Ht. unfold w_move2. apply (careful_bind g o (Forall (fun x => fits (fst x)))); [apply c_until; [apply c_pert_sim, Hk|constructor]|]. intros primes Hp. cbn [S_Worker.careful]. intros q q' L _.
  destruct (nth_error primes L) as [[th y]|] eqn:N; [|exact I]. assert (Hth : fits th) by (rewrite Forall_forall in Hp; apply (Hp (th, y)), (nth_error_In _ _ N)).
  apply (careful_bind g o (Forall (fun x => fits (fst x)))); [apply c_until; [apply c_pert_sim; intros [pp tt] i r; apply HkL|constructor]|]. intros back _.
  apply c_ratio; [exact Hth|exact Ht|]. intros a b. destruct (length primes =? 1); [exact I|]. cbn [S_Worker.careful]. intros r r' [|] _; [|apply c_keep, Ht]. cbn [S_Worker.careful]. auto.
Qed.
Lemma c_smcabc kernel hits eps mgr ys fuel si : rows_fit mgr -> careful (fun x => fits (fst (fst (fst x)))) (w_smcabc kupd kupdL kpdf dist dist1 mkrng reseed choiceL bern kernel hits eps mgr ys fuel si).
Proof.
  intros Hm. unfold w_smcabc, w_seed. cbn [S_Worker.careful]. intros _ _ _ _. apply (careful_bind g o (fun x => fits (fst (fst x)))); [|intros [[th y] c] H; exact H].
  destruct mgr as [p|]; [|cbn [S_Worker.careful]; apply c_sim; intros y; cbn [S_Worker.careful]; auto]. destruct (nth_error (p_w p) (snd si)) as [w|]; [|exact I]. destruct (nth_error (p_rows p) (snd si)) as [theta|] eqn:N; [|exact I].
  pose proof (row_fits _ _ _ _ Hm eq_refl N) as Ht. destruct (nlt (Fin 0) w); [|apply c_keep, Ht]. destruct kernel as [|[|kernel]]; [apply c_move0, Ht|apply c_move1, Ht|apply c_move2, Ht].
Qed.
Lemma c_sa_prior eps : forall fuel tried, careful (fun x => fits (w_th Vec x)) (w_sa_prior dist bern nexp eps fuel tried).
Proof.
  induction fuel as [|f IH]; intros tried; cbn [w_sa_prior S_Worker.careful]; [exact I|]. intros th Hth. apply c_sim. intros y. cbn [S_Worker.careful]. intros r r' [|] _; [exact Hth|apply IH].
Qed.
Lemma c_sabc n eps mgr all sm fuel seed : rows_fit mgr -> careful (fun x => fits (w_th Vec x)) (w_sabc kupd dist mkrng reseed choiceU bern rand nexp n eps mgr all sm fuel seed).
Proof.
  intros Hm. unfold w_sabc, w_seed. cbn [S_Worker.careful]. intros _ _ _ _. destruct mgr as [p|]; [|apply c_sa_prior]. cbn [S_Worker.careful]. intros r r' i _. destruct (nth_error (p_rows p) i) as [theta|] eqn:N; [|exact I].
  apply (careful_bind g o fits); [apply c_propose, Hk|]. intros th Hth. apply c_sim. intros y. destruct all as [[|a0 all]|]; [exact I| |exact I]. apply c_ratio; [exact Hth|apply (row_fits _ _ _ _ Hm eq_refl N)|]. intros a b.
  destruct (nth_error sm i) as [s|]; [|exact I]. cbn [S_Worker.careful]. intros q q' u _. destruct (nlt u _); exact Hth.
Qed.
End Pop.

Section Subsim.
Variable Cov : Type.
Variable kupd : kst Vec Cov -> nat -> nat -> nat * Vec.
Variable kpdf : kst Vec Cov -> Vec -> Vec -> num.
Variable dist : Data -> num.
Variable mkrng : Z -> nat.
Variable reseed : nat -> nat.
Variable bern : num -> nat -> res (nat * bool).
Hypothesis Hk : forall p i r, fits (snd (kupd p i r)).
Lemma c_chain ann p i fuel : forall k theta d acc, fits theta -> Forall (fun x => fits (snd (fst x))) acc -> careful (Forall (fun x => fits (snd (fst x)))) (w_chain Cov kupd kpdf dist bern ann p i fuel k theta d acc).
Proof.
  induction k as [|k IH]; intros theta d acc Ht Ha; cbn [w_chain]; [exact Ha|]. destruct p as [q|]; [|exact I]. apply (careful_bind g o fits); [apply c_propose, Hk|]. intros th Hth. apply c_sim. intros y.
  apply c_ratio; [exact Hth|exact Ht|]. intros a b. cbn [S_Worker.careful]. intros r r' [|] _; apply IH; auto; apply Forall_app; (split; [exact Ha|]); repeat constructor; assumption.
Qed.
Lemma c_subsim cl ann bds p fuel si : (forall rows, bds = Some rows -> Forall fits rows) -> careful (fun x => Forall (fun y => fits (fst y)) (fst x)) (w_subsim Cov kupd kpdf dist mkrng reseed bern cl ann bds p fuel si).
Proof.
  intros Hb. unfold w_subsim, w_seed. cbn [S_Worker.careful]. intros _ _ _ _. destruct bds as [rows|].
  - destruct (nth_error rows (snd si)) as [theta|] eqn:N; [|exact I]. assert (Ht : fits theta) by (specialize (Hb _ eq_refl); rewrite Forall_forall in Hb; apply Hb, (nth_error_In _ _ N)).
    cbn [S_Worker.careful]. split; [exact Ht|]. intros _. apply c_sim. intros y. apply (careful_bind g o (Forall (fun x => fits (snd (fst x))))); [apply c_chain; [exact Ht|constructor]|]. intros l Hl. cbn [S_Worker.careful fst].
    constructor; [exact Ht|]. rewrite Forall_forall in *. intros x Hx. apply in_map_iff in Hx. destruct Hx as (z & <- & Hz). exact (Hl z Hz).
  - cbn [S_Worker.careful]. intros th Hth. apply c_sim. intros y. cbn [S_Worker.careful fst]. repeat constructor. exact Hth.
Qed.
Lemma c_cov_try cl ann bds p fuel seed : Forall fits bds -> careful (fun _ => True) (w_cov_try Cov kupd kpdf dist mkrng reseed bern cl ann bds p fuel seed).
Proof.
  intros Hb. unfold w_cov_try. destruct bds as [|theta bds]; [exact I|]. unfold w_seed. cbn [S_Worker.careful]. intros _ _ _ _. apply (careful_bind g o (Forall (fun x => fits (snd (fst x))))); [|intros l _; exact I].
  apply c_chain; [apply (Forall_inv Hb)|constructor].
Qed.
End Subsim.

Section PMC.
Variable kpdf : wpop Vec -> Vec -> Vec -> xr.
Variable loglik : Data -> xr.
Variable mkrng : Z -> nat.
Lemma c_log_lik th seed : fits th -> careful (fun _ => True) (w_log_lik loglik mkrng th seed).
Proof. intros Ht. unfold w_log_lik. cbn [S_Worker.careful]. intros _ _ _ _. split; [exact Ht|]. intros _. apply c_sim. intros y. cbn [S_Worker.careful]. auto. Qed.
Lemma c_pm_weight n p th : fits th -> careful (fun _ => True) (w_pm_weight kpdf n p th).
Proof. intros Ht. unfold w_pm_weight. cbn [S_Worker.careful]. split; [exact Ht|]. intros v. destruct (length (wp_rows p) <? n); [exact I|]. destruct (negb (length (wp_w p) =? n)); exact I. Qed.
End PMC.
End Careful.

Section MCMC.
Variables F Cov : Type.
Variables fadd fsub fmul fdiv : F -> F -> F.
Variable fexp : F -> F.
Variable flt : F -> F -> bool.
Variable fzero : F -> bool.
Variable fof : num -> F.
Variable kupd : Vec -> Cov -> nat -> nat * Vec.
Variable loglik : Data -> F.
Variable tr : Vec -> res Vec.
Variable inv : Vec -> Vec.
Variable ldj : Vec -> res F.
Variable unif : nat -> nat * F.
Variable eye : Vec -> Cov.
Variable adapt : list Vec -> Cov.
Notation mh_step' := (w_mh_step F Cov fadd fsub fmul fdiv fexp flt fzero fof kupd loglik inv ldj unif adapt).
Notation mh_loop' := (w_mh_loop F Cov fadd fsub fmul fdiv fexp flt fzero fof kupd loglik inv ldj unif adapt).
Notation mh_run' := (w_mh_run F Cov fadd fsub fmul fdiv fexp flt fzero fof kupd loglik tr inv ldj unif eye adapt).
Notation mh_sample' := (w_mh_sample F Cov fadd fsub fmul fdiv fexp flt fzero fof kupd loglik tr inv ldj unif eye adapt).

Section V.
Variable setp : Vec -> Vec -> bool * Vec.
Variable pdfv : Vec -> Vec -> num.
Variable prior : nat -> nat * Vec.
Variable simc : Vec -> nat -> nat * option Data.
Notation on_vector := (on_vector setp pdfv prior simc).
Notation pdff := (fun th cur => fof (pdfv th cur)).
Notation step := (mh_step Vec nat Data F Cov fadd fsub fmul fdiv fexp flt fzero setp pdff kupd simc loglik inv ldj unif adapt).
Notation loop := (mh_loop Vec nat Data F Cov fadd fsub fmul fdiv fexp flt fzero setp pdff kupd simc loglik inv ldj unif adapt).
Notation sample := (mh_sample Vec nat Data F Cov fadd fsub fmul fdiv fexp flt fzero setp pdff kupd prior simc loglik tr inv ldj unif eye adapt).
Definition strip (c : chain Vec nat F Cov) : wchain F Cov := mkwc _ _ (c_pt _ _ _ _ c) (c_acc _ _ _ _ c) (c_sims _ _ _ _ c) (c_cov _ _ _ _ c) (c_burn _ _ _ _ c) (c_trace _ _ _ _ c).
Lemma v_sim_ll th cur r : on_vector (w_sim_ll F loglik th) cur r = match sim_ll Vec nat Data F setp simc loglik th cur r with Err e => Err e | Ok (r', ll, c) => Ok (ll, c, r') end.
Proof. unfold w_sim_ll, sim_ll. cbn [M_Worker.on_vector]. destruct (setp th cur) as [b c]. cbn [snd]. rewrite v_sim. destruct (simc c r) as [r' [y|]]; reflexivity. Qed.
Lemma v_mh_step burnin interval a c : on_vector (mh_step' burnin interval a (strip c)) (c_cur _ _ _ _ c) (c_rng _ _ _ _ c) =
  match step burnin interval a c with Err e => Err e | Ok c' => Ok (strip c', c_cur _ _ _ _ c', c_rng _ _ _ _ c') end.
Proof.
  destruct c as [s acc sims cov burn trace cur r]. unfold w_mh_step, mh_step, strip. cbn [c_pt c_acc c_sims c_cov c_burn c_trace c_cur c_rng wc_pt wc_acc wc_sims wc_cov wc_burn wc_trace M_Worker.on_vector].
  destruct (kupd (q_tr _ _ s) cov r) as [r1 y]. unfold M_Infer.pdf_of_prior. destruct (fzero (fof (pdfv (inv y) (snd (setp (inv y) cur))))); [reflexivity|].
  rewrite vector_bind, v_sim_ll. destruct (sim_ll _ _ _ _ _ _ _ _ _ _) as [[[r2 ll] cur2]|]; [|reflexivity]. destruct (ldj (inv y)) as [j|]; [|reflexivity]. cbn [M_Worker.on_vector]. destruct (unif r2) as [r3 u].
  destruct (burnin <=? a); [reflexivity|]. destruct interval as [[|k]|]; reflexivity.
Qed.
Lemma v_mh_loop burnin interval : forall todo a c, on_vector (mh_loop' burnin interval a todo (strip c)) (c_cur _ _ _ _ c) (c_rng _ _ _ _ c) =
  match loop burnin interval a todo c with Err e => Err e | Ok c' => Ok (strip c', c_cur _ _ _ _ c', c_rng _ _ _ _ c') end.
Proof.
  induction todo as [|k IH]; intros a c; cbn [w_mh_loop mh_loop]; [reflexivity|]. rewrite vector_bind, v_mh_step. destruct (step burnin interval a c) as [c'|]; [apply IH|reflexivity].
Qed.
Lemma v_mh_run n burnin interval journal th burn ll ns rate0 covs total cur r : on_vector (mh_run' n burnin interval journal th burn ll ns rate0 covs total) cur r =
  match (let cur1 := snd (setp th cur) in
      let pdf := fof (pdfv th cur1) in
      match tr th with Err e => Err e | Ok y =>
      match ldj th with Err e => Err e | Ok jd =>
      let m := match covs with Some m => m | None => eye y end in
      match loop burnin interval 0 (burnin + n) (mkch _ _ _ _ (mkpt _ _ th y ll pdf jd) 0 ns m burn [] cur1 r) with
      | Err e => Err e
      | Ok c =>
          if total =? 0 then Err ZeroDivisionError else
          let rate := ((rate0 + inject_Z (Z.of_nat (c_acc _ _ _ _ c))) / inject_Z (Z.of_nat total))%Q in
          let old := match journal with None => ([], [], []) | Some j => (j_params j, j_rates j, j_nsims j) end in
          Ok (mkmj (fst (fst old) ++ c_trace _ _ _ _ c) total (snd (fst old) ++ [rate]) (snd old ++ [c_sims _ _ _ _ c]) (q_ll _ _ (c_pt _ _ _ _ c)) (c_cov _ _ _ _ c) total, c)
      end end end) with Err e => Err e | Ok (j, c) => Ok (j, c_cur _ _ _ _ c, c_rng _ _ _ _ c) end.
Proof.
  unfold w_mh_run. cbn [M_Worker.on_vector]. unfold M_Infer.pdf_of_prior. destruct (tr th) as [y|]; [|reflexivity]. destruct (ldj th) as [jd|]; [|reflexivity]. cbv zeta. rewrite vector_bind.
  match goal with |- context [loop _ _ _ _ ?c] => pose proof (v_mh_loop burnin interval (burnin + n) 0 c) as V end. unfold strip at 1 in V. cbn [c_pt c_acc c_sims c_cov c_burn c_trace c_cur c_rng] in V. rewrite V.
  destruct (loop _ _ _ _ _) as [c|]; [|reflexivity]. destruct (total =? 0); reflexivity.
Qed.
Lemma v_mh_sample n burnin cov ini interval journal count0 cur r : on_vector (mh_sample' n burnin cov ini interval journal count0) cur r =
  match sample n burnin cov ini interval journal r cur count0 with Err e => Err e | Ok (j, c) => Ok (j, c_cur _ _ _ _ c, c_rng _ _ _ _ c) end.
Proof.
  unfold w_mh_sample, mh_sample. destruct journal as [j|].
  - destruct (last_opt (j_rates j)) as [rate|]; [|reflexivity]. destruct (last_opt (j_params j)) as [th|]; [|reflexivity]. destruct (last_opt (j_nsims j)) as [ns|]; [|reflexivity]. rewrite v_mh_run. reflexivity.
  - unfold w_mh_first. destruct ini as [th|].
    + rewrite vector_bind, v_sim_ll. destruct (sim_ll _ _ _ _ _ _ _ _ _ _) as [[[r2 ll] cur2]|]; [|reflexivity]. rewrite v_mh_run. reflexivity.
    + cbn [M_Worker.on_vector]. destruct (prior r) as [r1 th]. rewrite vector_bind, v_sim_ll. destruct (sim_ll _ _ _ _ _ _ _ _ _ _) as [[[r2 ll] cur2]|]; [|reflexivity]. rewrite v_mh_run. reflexivity.
Qed.
End V.

Section C.
Variables (g : graph) (o : list nat).
Notation fits := (fits g o).
Notation careful := (careful g o).
Hypothesis Hk : forall y m r, fits (inv (snd (kupd y m r))).
Lemma c_mh_loop burnin interval : forall todo a c, careful (fun _ => True) (mh_loop' burnin interval a todo c).
Proof.
  induction todo as [|k IH]; intros a c; cbn [w_mh_loop]; [exact I|]. apply (careful_bind g o (fun _ => True)); [|intros c' _; apply IH]. unfold w_mh_step. cbn [S_Worker.careful]. intros r r' y E.
  assert (Hy : fits (inv y)) by (injection E as E; specialize (Hk (q_tr _ _ (wc_pt _ _ c)) (wc_cov _ _ c) r); rewrite E in Hk; exact Hk).
  split; [exact Hy|]. intros v. destruct (fzero (fof v)); [exact I|]. apply (careful_bind g o (fun _ => True)).
  - unfold w_sim_ll. cbn [S_Worker.careful]. split; [exact Hy|]. intros _. apply c_sim. intros z. exact I.
  - intros ll _. destruct (ldj (inv y)) as [j|]; [|exact I]. cbn [S_Worker.careful]. intros q q' u _. destruct (burnin <=? a); [exact I|]. destruct interval as [[|i]|]; exact I.
Qed.
Lemma c_mh_run n burnin interval journal th burn ll ns rate0 covs total : fits th -> careful (fun _ => True) (mh_run' n burnin interval journal th burn ll ns rate0 covs total).
Proof.
  intros Ht. unfold w_mh_run. cbn [S_Worker.careful]. split; [exact Ht|]. intros v. destruct (tr th) as [y|]; [|exact I]. destruct (ldj th) as [jd|]; [|exact I]. apply (careful_bind g o (fun _ => True)); [apply c_mh_loop|].
  intros c _. destruct (total =? 0); exact I.
Qed.
Lemma c_mh_sample n burnin cov ini interval journal count0 : (forall th, ini = Some th -> fits th) -> (forall j th, journal = Some j -> In th (j_params j) -> fits th) -> careful (fun _ => True) (mh_sample' n burnin cov ini interval journal count0).
Proof.
  intros Hi Hj. unfold w_mh_sample. destruct journal as [j|].
  - destruct (last_opt (j_rates j)) as [rate|]; [|exact I]. destruct (last_opt (j_params j)) as [th|] eqn:E; [|exact I]. destruct (last_opt (j_nsims j)) as [ns|]; [|exact I]. apply c_mh_run, (Hj j th eq_refl).
    apply nth_error_In in E. apply in_rev, E.
  - assert (G : forall th, fits th -> careful (fun _ => True) (pbind (w_sim_ll F loglik th) (fun ll => mh_run' n burnin interval None th (if burnin =? 0 then [th] else []) ll (S count0) 0%Q cov n))).
    { intros th Ht. apply (careful_bind g o (fun _ => True)); [|intros ll _; apply c_mh_run, Ht]. unfold w_sim_ll. cbn [S_Worker.careful]. split; [exact Ht|]. intros _. apply c_sim. intros z. exact I. }
    unfold w_mh_first. destruct ini as [th|]; [apply G, Hi; reflexivity|]. cbn [S_Worker.careful]. exact G.
Qed.
End C.
End MCMC.
