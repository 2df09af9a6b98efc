(** C83: what the moves of SABC leave invariant, and what batches of them do. *)
From Coq Require Import Reals Lra Lia Qreals.
From Verif Require Import M_Base M_Num L_Num M_Infer L_Infer M_PMCABC M_RSMCABC M_SMCABC M_SABC S_SABC L_SABC M_XReal M_Stats L_PMC S_Stats L_Stats L_Distance L_PosDef L_Histogram S_Law P_Law L_Law P_Law3 P_Law4 S_Gen L_Gen L_Series L_Hits L_Coin S_Chain S_Anneal L_Anneal.
Open Scope R_scope.

Section Anneal.
Variables A Theta Y : Type.
Variable outs : list A.
Variable p : A -> R.
Hypothesis dlaw : Law outs p.
Variable setp : Theta -> Theta -> bool * Theta.
Variable pdfv : Theta -> Theta -> num.
Variable kupd : pop Theta -> nat -> list A -> list A * Theta.
Variable prior : list A -> list A * Theta.
Variable simc : Theta -> list A -> list A * option Y.
Variable dist : Y -> num.
Variable choiceU : nat -> list A -> res (list A * nat).
Variable bern : num -> list A -> res (list A * bool).
Variable rand : list A -> list A * num.
Variable nexp : num -> num.
Variable fsolve : num -> num.
Variables eps delta cutoff : num.
Variable resamp : list num -> res (list nat).
Variable all : list num.
Variable pi : Theta -> Q.
Variable kern : Theta -> Theta -> Q.
Variable W : num -> R.
Variable pts : list Theta.
Variable datas : list Y.
Variable lik : Theta -> Y -> R.
Notation Ts := (filter (inside Theta pi) pts).
Notation inner := (inner Theta kern Ts).
Notation attempt := (attempt Theta Y pi kern lik dist W Ts datas).
Notation batch := (batch Theta Y pi kern lik dist W Ts datas).
Notation member := (member Theta Y pi kern lik dist W Ts datas).
Notation weigh := (weigh Theta Y pi lik dist W Ts datas).
Notation simulated := (simulated A Theta Y simc).
Notation proper := (proper Theta Y dist pi kern pts datas).
Notation perturbs := (perturbs A Theta outs p kupd kern pts).
Notation chooses := (chooses A outs p choiceU).
Notation accept mk := (sa_accept Theta (list A) Y setp pdfv kupd prior simc dist mk (fun l => l) choiceU bern rand nexp).
Notation step mk := (sa_step Theta (list A) Y setp pdfv kupd prior simc dist mk (fun l => l) choiceU bern rand nexp fsolve).
Notation state := (state Theta eps all).
Hypothesis set_all : forall th cur, setp th cur = (true, th).
Hypothesis density : forall th cur, pdfv th cur = Fin (pi th).
Hypothesis density_nonneg : forall th, (0 <= pi th)%Q.
Hypothesis kern_law : forall th, Law pts (fun x => Q2R (kern th x)).
Hypothesis data_law : forall th, Law datas (lik th).
Hypothesis sim_law : forall th, In th Ts -> Produces outs p (simulated th) datas (lik th).
Hypothesis all_some : all <> [].
(** np.exp of a difference of smoothed distances over epsilon is the ratio of the weights of the distances *)
Hypothesis W_pos : forall d, In d (map dist datas) -> 0 < W d.
Hypothesis exp_law : forall d d', In d (map dist datas) -> In d' (map dist datas) -> exists z, nexp (ndiv (nsub (smooth all d) (smooth all d')) eps) = Fin z /\ Q2R z = W d' / W d.
(** rand is uniform on [0, 1) *)
Hypothesis rand_law : forall v, (0 <= v)%Q -> Tends outs p (fun _ l => if nlt (snd (rand l)) (Fin v) then 1 else 0) (Rmin 1 (Q2R v)).

(** C83 (a worker): it proposes from a random member and accepts with the ratio of prior density and weight, whatever the kernels' densities are *)
Theorem C83_law : forall pp w seed cur (F : nat -> bool -> Theta -> num -> R) B,
  pp <> [] -> (forall x, In x pp -> proper x) -> perturbs (mkpop (map fst pp) w) -> chooses (length pp) -> (forall i b th d, Rabs (F i b th d) <= B) ->
  Tends outs p (fun f l => match accept (fun _ => l) (length pp) eps (Some (mkpop (map fst pp) w)) (Some all) (map (smooth all) (map snd pp)) f seed cur with
      | Ok (x, _) => F (w_i Theta x) (w_acc Theta x) (w_th Theta x) (w_d Theta x) | Err _ => 0 end)
    (/ INR (length pp) * total (map (fun ix => attempt (snd ix) (fun b x' => F (fst ix) b (fst x') (if b then snd x' else PInf))) (combine (seq 0 (length pp)) pp))).
Proof.
  intros pp w seed cur F B H1 H2 H3 H4 HF.
  apply (worker_tends A Theta Y outs p dlaw setp pdfv kupd prior simc dist choiceU bern rand nexp eps all pi kern W pts datas lik set_all density density_nonneg kern_law sim_law all_some W_pos exp_law rand_law
    pp w seed cur (fun x _ _ => F (w_i Theta x) (w_acc Theta x) (w_th Theta x) (w_d Theta x)) (fun i b x' => F i b (fst x') (if b then snd x' else PInf)) B H1 H2 H3 H4); [intros; apply HF|].
  intros i x b x' _ _ _. apply Tends_const, dlaw.
Qed.
(** C83 (an iteration): m workers with independent generators all propose from the population at its start; each accepted proposal replaces the member it was proposed from, also if
    that was replaced by another worker's *)
Theorem C83_batch : forall pp w bds acc until count cur hist recs nsims epss stop m resample full t F B,
  pp <> [] -> (forall x, In x pp -> proper x) -> perturbs (mkpop (map fst pp) w) -> chooses (length pp) -> (0 < m)%nat -> (acc + m < resample)%nat -> (forall l, Rabs (F l) <= B) ->
  forall e, 0 < e -> exists K, forall k, (K <= k)%nat ->
  Rabs (gens outs p m k (fun ls => seen Theta F (step (fun z => nth (Z.to_nat z) ls []) (length pp) m resample delta cutoff full (S k) (S t) Z.of_nat resamp
    (state pp w bds acc until count cur hist recs nsims epss stop))) - batch pp m F pp) < e.
Proof.
  exact (batch_law A Theta Y outs p dlaw setp pdfv kupd prior simc dist choiceU bern rand nexp fsolve eps all pi kern W pts datas lik set_all density density_nonneg kern_law sim_law all_some W_pos exp_law rand_law delta cutoff resamp).
Qed.
(** C83 (one member): of an iteration *)
Theorem C83_member : forall pp i x f z m, (forall x, In x pp -> proper x) -> nth_error pp i = Some x -> batch pp m (fun q => f (nth i q z)) pp = member (length pp) m f x x.
Proof.
  intros pp i x f z m H1 H2. rewrite (batch_member Theta Y dist pi kern W pts datas lik data_law pp i x f z H1 H2 m pp eq_refl). f_equal. apply nth_error_nth, H2.
Qed.
(** C83 (one worker): with symmetric kernels, an iteration of one worker leaves invariant prior density times likelihood times weight times chance of perturbations inside the prior *)
Theorem C83_move : (forall th, In th Ts -> 0 < inner th) -> (forall th th', In th Ts -> In th' Ts -> (kern th th' == kern th' th)%Q) -> forall n f B, (0 < n)%nat -> (forall x, Rabs (f x) <= B) ->
  exists v : Theta * num -> R,
  (forall pp i x z w bds acc until count cur hist recs nsims epss stop resample full t, length pp = n -> (forall x, In x pp -> proper x) -> nth_error pp i = Some x -> perturbs (mkpop (map fst pp) w) -> chooses n ->
     (acc + 1 < resample)%nat -> forall e, 0 < e -> exists K, forall k, (K <= k)%nat ->
     Rabs (gens outs p 1 k (fun ls => seen Theta (fun q => f (nth i q z)) (step (fun z => nth (Z.to_nat z) ls []) n 1 resample delta cutoff full (S k) (S t) Z.of_nat resamp
       (state pp w bds acc until count cur hist recs nsims epss stop))) - v x) < e) /\
  weigh inner v = weigh inner f /\
  (forall c, (forall th, In th Ts -> inner th = c) -> weigh (fun _ => 1) v = weigh (fun _ => 1) f).
Proof.
  intros Hi Hs n f B Hn HF. exists (fun x => member n 1 f x x). split; [|apply symmetric_kept; assumption].
  intros pp i x z w bds acc until count cur hist recs nsims epss stop resample full t <- Hp Hx Hk Hc Hr e He. rewrite <- (C83_member pp i x f z 1 Hp Hx).
  apply C83_batch with (B := B); try assumption; [|lia|intros; apply HF]. intros ->. destruct i; discriminate.
Qed.
End Anneal.
Print Assumptions C83_law.
Print Assumptions C83_batch.
Print Assumptions C83_member.
Print Assumptions C83_move.

(** C83 (first population): members follow prior probability times likelihood times chance of acceptance exp(-distance / epsilon) *)
Theorem C83_first : forall (A Theta Y : Type) (outs : list A) (p : A -> R), Law outs p ->
  forall setp pdfv kupd prior simc dist choiceU bern rand nexp eps (pr : Theta -> R) pts datas (lik : Theta -> Y -> R) (ac : Y -> Q),
  Law pts pr /\ Produces outs p (fun _ l => Ok (prior l)) pts pr -> (forall th, Law datas (lik th)) -> (forall th, In th pts -> Produces outs p (simulated A Theta Y simc th) datas (lik th)) ->
  (forall y, In y datas -> nexp (ndiv (nopp (dist y)) eps) = Fin (ac y) /\ (0 <= ac y <= 1)%Q) ->
  (forall v, (0 <= v <= 1)%Q -> Produces outs p (fun _ l => bern (Fin v) l) [true; false] (fun b => if b then Q2R v else 1 - Q2R v)) ->
  0 < mass Theta Y pr lik ac dist pts datas (fun _ => 1) ->
  forall n all sm seed cur F B, (forall x, Rabs (F x) <= B) ->
  Tends outs p (fun f l => match sa_accept Theta (list A) Y setp pdfv kupd prior simc dist (fun _ => l) (fun l => l) choiceU bern rand nexp n eps None all sm f seed cur with
     | Ok (x, _) => F (w_th Theta x, w_d Theta x) | Err _ => 0 end) (mass Theta Y pr lik ac dist pts datas F / mass Theta Y pr lik ac dist pts datas (fun _ => 1)).
Proof. exact first_law. Qed.
Print Assumptions C83_first.

(** Cases: two parameters of equal prior density (and one outside the prior), data sets equal to the parameters, weights 1 and 1/2 of their distances 0 and 1; two members, the other
    one is (0, 0). *)
Module Pair.
Definition outs : list nat := [0; 1; 2; 3]%nat.
Definition p : nat -> R := fun _ => 1 / 4.
Definition bit (a : nat) : bool := (a <? 2)%nat.
Definition pi (th : nat) : Q := match th with 0%nat | 1%nat => (1 # 2)%Q | _ => 0%Q end.
Definition setp (th cur : nat) : bool * nat := (true, th).
Definition pdfv (th _ : nat) : num := Fin (pi th).
Definition simc (th : nat) (l : list nat) : list nat * option nat := match l with [] => ([], None) | _ :: l' => (l', Some (if (th =? 1)%nat then 1%nat else 0%nat)) end.
Definition dist (y : nat) : num := if (y =? 1)%nat then Fin 1 else Fin 0.
Definition lik (th y : nat) : R := if ((if (th =? 1)%nat then 1 else 0) =? y)%nat then 1 else 0.
Definition choiceU (n : nat) (l : list nat) : res (list nat * nat) := match l with [] => Err OutOfFuel | a :: l' => Ok (l', if bit a then 0%nat else 1%nat) end.
Definition bern (v : num) (l : list nat) : res (list nat * bool) := match v with Fin x => flip nat bit x l | _ => Err ValueError end.
Definition rand (l : list nat) : list nat * num := ([], Fin (frac nat bit l)).
Definition nexp (x : num) : num := match x with Fin q => if Qeq_bool q 1 then Fin 2 else if Qeq_bool q (-1) then Fin (1 # 2) else Fin 1 | _ => NaN end.
Definition all : list num := [Fin 0; Fin 1].
Definition W (d : num) : R := if neqb d (Fin 1) then 1 / 2 else 1.
Definition prior (l : list nat) : list nat * nat := match l with [] => ([], 0%nat) | a :: l' => (l', if bit a then 0%nat else 1%nat) end.
Lemma law : Law outs p.
Proof. split; [intros; unfold p; lra|]. unfold outs, p, total. cbn. lra. Qed.
Lemma fair : chance outs p bit = 1 / 2.
Proof. unfold chance, expect, outs, p, bit, total. cbn. lra. Qed.
Lemma produces_ext {X} (P : nat -> list nat -> res (list nat * X)) xs (u v : X -> R) : (forall x, In x xs -> u x = v x) -> Produces outs p P xs u -> Produces outs p P xs v.
Proof.
  intros H. apply Gives_weak.
  - intros x [Hx Hv]. split; [exact Hx|]. rewrite <- (H x Hx). exact Hv.
  - intros G w ->. apply total_ext. intros x Hx. rewrite (H x Hx). reflexivity.
Qed.
Lemma data_law th : Law [0; 1]%nat (lik th).
Proof. split; [intros x _; unfold lik; destruct (_ =? _)%nat; lra|]. cbn [map]. rewrite !total_cons. change (total []) with 0. unfold lik. destruct (th =? 1)%nat; cbn; lra. Qed.
Lemma sims th : Produces outs p (simulated nat nat nat simc th) [0; 1]%nat (lik th).
Proof.
  eapply produces_ext; [|apply (draw_produces nat outs p law Nat.eq_dec _ (fun _ => if (th =? 1)%nat then 1%nat else 0%nat) [0; 1]%nat)].
  - intros x _. cbn beta. unfold chance, expect, outs, p, lik. cbn [map]. rewrite !total_cons. change (total []) with 0. destruct (Nat.eq_dec _ x) as [E|E]; [rewrite (proj2 (Nat.eqb_eq _ _) E)|rewrite (proj2 (Nat.eqb_neq _ _) E)]; lra.
  - reflexivity.
  - constructor; [cbn; intuition discriminate|]. constructor; [intros []|constructor].
  - intros a _. destruct (th =? 1)%nat; cbn; auto.
Qed.
Lemma weights d d' : In d (map dist [0; 1]%nat) -> In d' (map dist [0; 1]%nat) -> exists z, nexp (ndiv (nsub (smooth all d) (smooth all d')) (Fin (1 # 2))) = Fin z /\ Q2R z = W d' / W d.
Proof. intros [<-|[<-|[]]] [<-|[<-|[]]]; eexists; (split; [reflexivity|]); unfold W; cbn; change (Qeq_bool 0 1) with false; change (Qeq_bool 1 1) with true; unfold Q2R; cbn; field. Qed.
Lemma weights_pos d : In d (map dist [0; 1]%nat) -> 0 < W d.
Proof. intros _. unfold W. destruct (neqb d (Fin 1)); lra. Qed.
Lemma prior_law : Law [0; 1]%nat (fun _ => 1 / 2) /\ Produces outs p (fun _ l => Ok (prior l)) [0; 1]%nat (fun _ => 1 / 2).
Proof.
  split; [split; [intros; lra|unfold total; cbn; lra]|]. apply (produces_ext _ _ (fun _ => / INR 2)); [intros; cbn; lra|]. apply (pair_produces nat outs p law bit fair). reflexivity.
Qed.
Lemma chooses2 : chooses nat outs p choiceU 2.
Proof. unfold chooses. apply (pair_produces nat outs p law bit fair). reflexivity. Qed.
(** states of members: parameters and their distance *)
Definition st (s : nat) : nat * num := (s, dist s).
Definition isone (x : nat * num) : R := if (fst x =? 1)%nat then 1 else 0.
(** kernels are given by what a draw makes of the parameters *)
Definition kupd (prop : nat -> nat -> nat) (q : pop nat) (i : nat) (l : list nat) : list nat * nat := match l with [] => ([], 0%nat) | a :: l' => (l', prop (nth i (p_rows q) 0%nat) a) end.
Definition kern (prop : nat -> nat -> nat) (th x : nat) : Q := Qred (fold_right (fun a s => if (prop th a =? x)%nat then (1 # 4) + s else s) 0 outs)%Q.
(** mean of [isone] of the first member after an iteration of m workers, k draws each *)
Definition after_step (prop : nat -> nat -> nat) (m s k : nat) : R :=
  gens outs p m k (fun ls => seen nat (fun q => isone (nth 0 q (st 0))) (sa_step nat (list nat) nat setp pdfv (kupd prop) prior simc dist (fun z => nth (Z.to_nat z) ls []) (fun l => l) choiceU bern rand nexp (fun r => r)
    2 m 9 (Fin 0) (Fin 0) 1 (S k) 1 Z.of_nat (fun _ => Err ValueError) (state nat (Fin (1 # 2)) all [st s; st 0] [Fin 1; Fin 1] None 0 0 0 0%nat [] [] [] [] false))).
Section Cases.
Variable prop : nat -> nat -> nat.
Hypothesis prop_in : forall th a, In (prop th a) [0; 1; 2]%nat.
Hypothesis inner_pos : forall s, In s [0; 1]%nat -> 0 < inner nat (kern prop) [0; 1]%nat s.
Lemma kern_chance th x : chance outs p (fun a => if Nat.eq_dec (prop th a) x then true else false) = Q2R (kern prop th x).
Proof.
  unfold kern. rewrite (Qeq_eqR _ _ (Qred_correct _)). unfold chance, expect, outs, p. cbn [map fold_right]. rewrite !total_cons. change (total []) with 0. assert (Q14 : Q2R (1 # 4) = 1 / 4) by (unfold Q2R; cbn; lra). assert (Q0 : Q2R 0 = 0) by (unfold Q2R; cbn; lra).
  assert (D : forall a, (if Nat.eq_dec (prop th a) x then true else false) = (prop th a =? x)%nat) by (intros a; destruct (Nat.eq_dec (prop th a) x) as [E|E]; symmetry; [apply Nat.eqb_eq, E|apply Nat.eqb_neq, E]). rewrite !D.
  repeat match goal with |- context [(?a =? ?b)%nat] => destruct (a =? b)%nat end; rewrite ?Q2R_plus, ?Q14, ?Q0; lra.
Qed.
Lemma three_nodup : NoDup [0; 1; 2]%nat.
Proof. constructor; [cbn; intuition discriminate|]. constructor; [cbn; intuition discriminate|]. constructor; [intros []|constructor]. Qed.
Lemma kern_law th : Law [0; 1; 2]%nat (fun x => Q2R (kern prop th x)).
Proof.
  assert (E : forall f : nat -> R, total (map (fun x => chance outs p (fun a => if Nat.eq_dec (prop th a) x then true else false) * f x) [0; 1; 2]%nat) = expect outs p (fun a => f (prop th a))) by (intros f; symmetry; apply (group outs p Nat.eq_dec); [exact three_nodup|intros a _; left; apply prop_in]).
  split; [intros x _; rewrite <- kern_chance; apply chance_range, law|]. specialize (E (fun _ => 1)). cbn beta in E. rewrite (expect_const _ _ _ _ law) in E. rewrite <- E. apply total_ext. intros x _. rewrite kern_chance. ring.
Qed.
Lemma kernels q : perturbs nat nat outs p (kupd prop) (kern prop) [0; 1; 2]%nat q.
Proof.
  intros i th Hi. eapply produces_ext; [|apply (draw_produces nat outs p law Nat.eq_dec _ (prop th) [0; 1; 2]%nat)].
  - intros x _. apply kern_chance.
  - intros f a l. cbn [kupd]. rewrite (nth_error_nth _ _ 0%nat Hi). reflexivity.
  - exact three_nodup.
  - intros a _. apply prop_in.
Qed.
Notation member_ := (member nat nat pi (kern prop) lik dist W [0; 1]%nat [0; 1]%nat).
Lemma law_of m s e : (0 < m < 9)%nat -> In s [0; 1]%nat -> 0 < e -> exists K, forall k, (K <= k)%nat -> Rabs (after_step prop m s k - member_ 2%nat m isone (st s) (st s)) < e.
Proof.
  intros Hm Hs He.
  assert (HP : forall x, In x [st s; st 0] -> proper nat nat dist pi (kern prop) [0; 1; 2]%nat [0; 1]%nat x).
  { intros x [<-|[<-|[]]].
    - split; [exact Hs|]. split; [apply inner_pos, Hs|]. apply (in_map dist _ s Hs).
    - split; [left; reflexivity|]. split; [apply inner_pos; left; reflexivity|]. left. reflexivity. }
  pose proof (C83_member nat nat dist pi (kern prop) W [0; 1; 2]%nat [0; 1]%nat lik data_law [st s; st 0] 0 (st s) isone (st 0) m HP eq_refl) as M. cbn [length] in M. change (filter (inside nat pi) [0; 1; 2]%nat) with [0; 1]%nat in M. rewrite <- M.
  refine (C83_batch nat nat nat outs p law setp pdfv (kupd prop) prior simc dist choiceU bern rand nexp (fun r => r) (Fin (1 # 2)) (Fin 0) (Fin 0) (fun _ => Err ValueError) all pi (kern prop) W [0; 1; 2]%nat [0; 1]%nat lik
    (fun _ _ => eq_refl) (fun _ _ => eq_refl) _ kern_law (fun th _ => sims th) _ weights_pos weights (uniform_law nat outs p law bit fair) [st s; st 0] [Fin 1; Fin 1] None 0 0 0 0%nat [] [] [] [] false m 9 1 0 (fun q => isone (nth 0 q (st 0))) 1 _ HP (kernels _) chooses2 _ _ _ e He).
  - intros [|[|]]; discriminate.
  - discriminate.
  - discriminate.
  - lia.
  - lia.
  - intros l. unfold isone. destruct (_ =? _)%nat; apply Rabs_le; lra.
Qed.
Lemma tries s G : attempt nat nat pi (kern prop) lik dist W [0; 1]%nat [0; 1]%nat (st s) G =
  Q2R (kern prop s 0) / inner nat (kern prop) [0; 1]%nat s * (keep nat pi W (st s) (st 0) * G true (st 0) + (1 - keep nat pi W (st s) (st 0)) * G false (st 0)) +
  Q2R (kern prop s 1) / inner nat (kern prop) [0; 1]%nat s * (keep nat pi W (st s) (st 1) * G true (st 1) + (1 - keep nat pi W (st s) (st 1)) * G false (st 1)).
Proof. unfold attempt. cbn [map]. change (fst (st s)) with s. change (0%nat, dist 0) with (st 0). change (1%nat, dist 1) with (st 1). rewrite !total_cons. change (total []) with 0. unfold lik. cbn [Nat.eqb]. ring. Qed.
End Cases.
Lemma keeps : keep nat pi W (st 0) (st 0) = 1 /\ keep nat pi W (st 1) (st 1) = 1 /\ keep nat pi W (st 0) (st 1) = 1 / 2 /\ keep nat pi W (st 1) (st 0) = 1.
Proof.
  assert (H : Q2R (1 # 2) = 1 / 2) by (unfold Q2R; cbn; lra). assert (W0 : W (dist 0) = 1) by reflexivity. assert (W1 : W (dist 1) = 1 / 2) by reflexivity. unfold keep, st. cbn [fst snd]. rewrite !W0, !W1. unfold pi. rewrite !H. split; [|split; [|split]].
  - rewrite Rmin_left; lra.
  - rewrite Rmin_left; lra.
  - rewrite Rmin_right; lra.
  - rewrite Rmin_left; lra.
Qed.
(** perturbations that are tosses of a coin; that leave the prior from 1; that prefer 0 *)
Definition toss (_ a : nat) : nat := if (a <? 2)%nat then 0%nat else 1%nat.
Definition edge (th a : nat) : nat := match th with 0%nat => if (a =? 0)%nat then 1 else 0 | 1%nat => if (a =? 0)%nat then 0 else if (a =? 1)%nat then 1 else 2 | _ => if (a <? 2)%nat then 1 else 2 end%nat.
Definition skew (th a : nat) : nat := match th with 0%nat => if (a =? 0)%nat then 1 else 0 | _ => if (a =? 0)%nat then 1 else 0 end%nat.
Lemma q14 : Q2R (1 # 4) = 1 / 4. Proof. unfold Q2R; cbn; lra. Qed.
Lemma q12 : Q2R (1 # 2) = 1 / 2. Proof. unfold Q2R; cbn; lra. Qed.
Lemma q34 : Q2R (3 # 4) = 3 / 4. Proof. unfold Q2R; cbn; lra. Qed.
Lemma inner2 prop s : inner nat (kern prop) [0; 1]%nat s = Q2R (kern prop s 0) + Q2R (kern prop s 1).
Proof. unfold inner. cbn [map]. rewrite !total_cons. change (total []) with 0. ring. Qed.
Lemma toss_kern s : kern toss s 0 = (1 # 2)%Q /\ kern toss s 1 = (1 # 2)%Q.
Proof. split; reflexivity. Qed.
Lemma edge_kern : kern edge 0 0 = (3 # 4)%Q /\ kern edge 0 1 = (1 # 4)%Q /\ kern edge 1 0 = (1 # 4)%Q /\ kern edge 1 1 = (1 # 4)%Q.
Proof. repeat split; reflexivity. Qed.
Lemma skew_kern s : kern skew s 0 = (3 # 4)%Q /\ kern skew s 1 = (1 # 4)%Q.
Proof. destruct s; split; reflexivity. Qed.
(** mean of f over the parameters with probabilities 2/3 and 1/3, proportional to prior density times weight *)
Definition target (f : nat -> R) : R := 2 / 3 * f 0%nat + 1 / 3 * f 1%nat.
Lemma target_weigh f : weigh nat nat pi lik dist W [0; 1]%nat [0; 1]%nat (fun _ => 1) f / weigh nat nat pi lik dist W [0; 1]%nat [0; 1]%nat (fun _ => 1) (fun _ => 1) = target (fun s => f (st s)).
Proof.
  unfold weigh, target. cbn [map]. rewrite !total_cons. change (total []) with 0. unfold lik. cbn [Nat.eqb]. change (0%nat, dist 0) with (st 0). change (1%nat, dist 1) with (st 1). unfold pi. rewrite !q12.
  change (W (dist 0)) with 1. change (W (dist 1)) with (1 / 2). field.
Qed.
Notation member_ prop := (member nat nat pi (kern prop) lik dist W [0; 1]%nat [0; 1]%nat).
(** one worker and tosses keep the target *)
Example one_worker : exists v : nat -> R, (forall s, In s [0; 1]%nat -> Un_cv (after_step toss 1 s) (v s)) /\ target v = target (fun s => isone (st s)).
Proof.
  exists (fun s => member_ toss 2%nat 1%nat isone (st s) (st s)). split.
  - intros s Hs e He. apply (law_of toss); [intros th a; unfold toss; destruct (a <? 2)%nat; cbn; auto|intros s' _; rewrite inner2, (proj1 (toss_kern s')), (proj2 (toss_kern s')), q12; lra|lia|exact Hs|exact He].
  - unfold target. cbn [member]. rewrite !tries. cbn [member]. destruct keeps as (-> & -> & -> & ->). rewrite !inner2, ?(proj1 (toss_kern 0)), ?(proj2 (toss_kern 0)), ?(proj1 (toss_kern 1)), ?(proj2 (toss_kern 1)), !q12. unfold isone, st. cbn [fst Nat.eqb INR]. field.
Qed.
(** the first population: 2/3 of the members are 0 *)
Example first_members : forall n all sm seed cur, Tends outs p (fun f l => match sa_accept nat (list nat) nat setp pdfv (kupd toss) prior simc dist (fun _ => l) (fun l => l) choiceU bern rand nexp n (Fin 1) None all sm f seed cur with
     | Ok (x, _) => isone (w_th nat x, w_d nat x) | Err _ => 0 end) (1 / 3).
Proof.
  intros n all0 sm seed cur. set (ac := fun y : nat => if (y =? 1)%nat then (1 # 2)%Q else 1%Q).
  assert (M : forall F, mass nat nat (fun _ => 1 / 2) lik ac dist [0; 1]%nat [0; 1]%nat F = 1 / 2 * F (st 0) + 1 / 4 * F (st 1)).
  { intros F. unfold mass. cbn [map]. rewrite !total_cons. change (total []) with 0. unfold lik, ac. cbn [Nat.eqb]. rewrite q12. replace (Q2R 1) with 1 by (unfold Q2R; cbn; lra). fold (st 0) (st 1). change (0%nat, dist 0) with (st 0). change (1%nat, dist 1) with (st 1). field. }
  replace (1 / 3) with (mass nat nat (fun _ => 1 / 2) lik ac dist [0; 1]%nat [0; 1]%nat isone / mass nat nat (fun _ => 1 / 2) lik ac dist [0; 1]%nat [0; 1]%nat (fun _ => 1)) by (rewrite !M; unfold isone, st; cbn [fst Nat.eqb]; field).
  apply (C83_first nat nat nat outs p law setp pdfv (kupd toss) prior simc dist choiceU bern rand nexp (Fin 1) (fun _ => 1 / 2) [0; 1]%nat [0; 1]%nat lik ac prior_law data_law (fun th _ => sims th)) with (B := 1).
  - intros y [<-|[<-|[]]]; (split; [reflexivity|split; discriminate]).
  - exact (flip_gives nat outs p law bit fair).
  - rewrite M. lra.
  - intros x. unfold isone. destruct (_ =? _)%nat; apply Rabs_le; lra.
Qed.
End Pair.
(** C83: after an iteration of two workers (n_update is the number of members by default) the first member is 1 with probability 11/32 instead of 1/3, though the kernel is symmetric and
    never leaves the prior: members that reject more often are replaced more often by the second worker *)
Theorem C83_batch_refuted : exists v : nat -> R, (forall s, In s [0; 1]%nat -> Un_cv (Pair.after_step Pair.toss 2 s) (v s)) /\
  Pair.target (fun s => Pair.isone (Pair.st s)) = 1 / 3 /\ Pair.target v = 11 / 32.
Proof.
  exists (fun s => member nat nat Pair.pi (Pair.kern Pair.toss) Pair.lik Pair.dist Pair.W [0; 1]%nat [0; 1]%nat 2%nat 2%nat Pair.isone (Pair.st s) (Pair.st s)). split.
  - intros s Hs e He. apply (Pair.law_of Pair.toss); [intros th a; unfold Pair.toss; destruct (a <? 2)%nat; cbn; auto|intros s' _; rewrite Pair.inner2, (proj1 (Pair.toss_kern s')), (proj2 (Pair.toss_kern s')), Pair.q12; lra|lia|exact Hs|exact He].
  - split; [unfold Pair.target, Pair.isone, Pair.st; cbn [fst Nat.eqb]; lra|]. unfold Pair.target. cbn [member]. rewrite !Pair.tries. cbn [member]. destruct Pair.keeps as (-> & -> & -> & ->). rewrite !Pair.inner2, ?(proj1 (Pair.toss_kern 0)), ?(proj2 (Pair.toss_kern 0)), ?(proj1 (Pair.toss_kern 1)), ?(proj2 (Pair.toss_kern 1)), !Pair.q12.
    unfold Pair.isone, Pair.st. cbn [fst Nat.eqb INR]. field.
Qed.
Print Assumptions C83_batch_refuted.
(** C83: one worker, a symmetric kernel that leaves the prior from 1 *)
Theorem C83_bounded_refuted : exists v : nat -> R, (forall s, In s [0; 1]%nat -> Un_cv (Pair.after_step Pair.edge 1 s) (v s)) /\
  (forall x y, In x [0; 1; 2]%nat -> In y [0; 1; 2]%nat -> Pair.kern Pair.edge x y = Pair.kern Pair.edge y x) /\
  Pair.target (fun s => Pair.isone (Pair.st s)) = 1 / 3 /\ Pair.target v = 7 / 24.
Proof.
  destruct Pair.edge_kern as (E00 & E01 & E10 & E11).
  exists (fun s => member nat nat Pair.pi (Pair.kern Pair.edge) Pair.lik Pair.dist Pair.W [0; 1]%nat [0; 1]%nat 2%nat 1%nat Pair.isone (Pair.st s) (Pair.st s)). split; [|split; [|split]].
  - intros s Hs e He. apply (Pair.law_of Pair.edge); [intros [|[|th]] [|[|a]]; cbn; auto|intros s' [<-|[<-|[]]]; rewrite Pair.inner2, ?E00, ?E01, ?E10, ?E11, ?Pair.q34, ?Pair.q14; lra|lia|exact Hs|exact He].
  - intros x y [<-|[<-|[<-|[]]]] [<-|[<-|[<-|[]]]]; reflexivity.
  - unfold Pair.target, Pair.isone, Pair.st; cbn [fst Nat.eqb]; lra.
  - unfold Pair.target. cbn [member]. rewrite !Pair.tries. cbn [member]. destruct Pair.keeps as (-> & -> & -> & ->). rewrite !Pair.inner2, ?E00, ?E01, ?E10, ?E11, !Pair.q34, !Pair.q14.
    unfold Pair.isone, Pair.st. cbn [fst Nat.eqb INR]. field.
Qed.
Print Assumptions C83_bounded_refuted.
(** C83: one worker, a kernel inside the prior that prefers 0 *)
Theorem C83_skew_refuted : exists v : nat -> R, (forall s, In s [0; 1]%nat -> Un_cv (Pair.after_step Pair.skew 1 s) (v s)) /\
  (forall s, inner nat (Pair.kern Pair.skew) [0; 1]%nat s = 1) /\
  Pair.target (fun s => Pair.isone (Pair.st s)) = 1 / 3 /\ Pair.target v = 1 / 4.
Proof.
  exists (fun s => member nat nat Pair.pi (Pair.kern Pair.skew) Pair.lik Pair.dist Pair.W [0; 1]%nat [0; 1]%nat 2%nat 1%nat Pair.isone (Pair.st s) (Pair.st s)). split; [|split; [|split]].
  - intros s Hs e He. apply (Pair.law_of Pair.skew); [intros [|th] [|a]; cbn; auto|intros s' _; rewrite Pair.inner2, (proj1 (Pair.skew_kern s')), (proj2 (Pair.skew_kern s')), Pair.q34, Pair.q14; lra|lia|exact Hs|exact He].
  - intros s. rewrite Pair.inner2, (proj1 (Pair.skew_kern s)), (proj2 (Pair.skew_kern s)), Pair.q34, Pair.q14. lra.
  - unfold Pair.target, Pair.isone, Pair.st; cbn [fst Nat.eqb]; lra.
  - unfold Pair.target. cbn [member]. rewrite !Pair.tries. cbn [member]. destruct Pair.keeps as (-> & -> & -> & ->). rewrite !Pair.inner2, ?(proj1 (Pair.skew_kern 0)), ?(proj2 (Pair.skew_kern 0)), ?(proj1 (Pair.skew_kern 1)), ?(proj2 (Pair.skew_kern 1)), !Pair.q34, !Pair.q14.
    unfold Pair.isone, Pair.st. cbn [fst Nat.eqb INR]. field.
Qed.
Print Assumptions C83_skew_refuted.
