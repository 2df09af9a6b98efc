(** C81: what the chains of ABCsubsim leave invariant. *)
From Coq Require Import Reals Lra Lia Qreals.
From Verif Require Import M_Base M_Num L_Num M_Infer L_Infer M_PMCABC M_RSMCABC M_Subsim M_XReal M_Stats L_PMC S_Stats L_Stats L_Distance L_PosDef L_Histogram S_Law P_Law L_Law P_Law3 P_Law4 S_Gen L_Gen L_Series L_Hits L_Coin S_Chain.
Open Scope R_scope.

Section Chains.
Variables A Theta Y Cov : Type.
Notation kst := (kst Theta Cov).
Variable outs : list A.
Variable p : A -> R.
Hypothesis dlaw : Law outs p.
Variable setp : Theta -> Theta -> bool * Theta.
Variable pdfv : Theta -> Theta -> num.
Variable kupd : kst -> nat -> list A -> list A * Theta.
Variable kpdf : kst -> Theta -> Theta -> num.
Variable simc : Theta -> list A -> list A * option Y.
Variable dist : Y -> num.
Variable bern : num -> list A -> res (list A * bool).
Variable ann : num.
Variable pi : Theta -> Q.
Variable kern : Theta -> Theta -> Q.
Variable pts : list Theta.
Variable datas : list Y.
Variable lik : Theta -> Y -> R.
Hypothesis set_all : forall th cur, setp th cur = (true, th).
Hypothesis density : forall th cur, pdfv th cur = Fin (pi th).
Hypothesis density_nonneg : forall th, (0 <= pi th)%Q.
Notation Ts := (filter (inside Theta pi) pts).
Hypothesis kern_law : forall th, Law pts (fun x => Q2R (kern th x)).
Hypothesis kern_pos : forall th th', In th Ts -> In th' Ts -> (0 < kern th th')%Q.
Hypothesis data_law : forall th, Law datas (lik th).
Definition simulated (th : Theta) (_ : nat) (l : list A) : res (list A * Y) := match simc th l with (l', Some y) => Ok (l', y) | (_, None) => Err TypeError end.
Hypothesis sim_law : forall th, In th Ts -> Produces outs p (simulated th) datas (lik th).
Hypothesis coin : forall v, (0 <= v <= 1)%Q -> Produces outs p (fun _ l => bern (Fin v) l) [true; false] (fun b => if b then Q2R v else 1 - Q2R v).
Definition closer (y : Y) : bool := nlt (dist y) ann.
Notation ratio := (ratio Theta pi kern).
Notation inner := (inner Theta kern Ts).
Notation hit := (hit Theta Y lik closer datas).
Notation path := (path Theta Y pi kern lik closer dist Ts datas).
Notation moves := (moves Theta Y pi kern lik closer Ts datas).
Notation weigh := (weigh Theta Y pi lik closer Ts datas).
(** row i of the parameters of the kernels q is th *)
Definition row_is (q : kst) (i : nat) (th : Theta) : Prop :=
  Produces outs p (fun _ l => Ok (kupd q i l)) pts (fun x => Q2R (kern th x)) /\ (forall x y, kpdf q x y = Fin (kern x y)).

Lemma Ts_in th : In th Ts -> In th pts /\ ~ (pi th == 0)%Q.
Proof. intros H. apply filter_In in H. destruct H as [H1 H2]. split; [exact H1|]. intros X. unfold inside in H2. apply Qeq_bool_iff in X. rewrite X in H2. discriminate. Qed.
Lemma prior_pos th : In th Ts -> 0 < Q2R (pi th).
Proof. intros H. apply Ts_in in H. destruct H as [_ H]. apply Q2R_pos. specialize (density_nonneg th). apply Qle_lteq in density_nonneg. destruct density_nonneg as [X|X]; [exact X|]. exfalso. apply H. symmetry. exact X. Qed.
Lemma kern_posR th th' : In th Ts -> In th' Ts -> 0 < Q2R (kern th th').
Proof. intros H H'. apply Q2R_pos, kern_pos; assumption. Qed.
Lemma inner_within th : within Theta pi pts (fun x => Q2R (kern th x)) = inner th.
Proof. unfold within, S_Chain.inner, chance, expect. clear. induction pts as [|x l IH]; [reflexivity|]. cbn [map filter]. rewrite total_cons, IH. destruct (inside Theta pi x); cbn [map]; [rewrite total_cons; ring|ring]. Qed.
Lemma inner_pos th : In th Ts -> 0 < inner th.
Proof.
  intros H. unfold S_Chain.inner. assert (G : forall l, incl l Ts -> 0 <= total (map (fun x => Q2R (kern th x)) l)).
  { induction l as [|x l IH]; intros Hl; [unfold total; cbn; lra|]. cbn [map]. rewrite total_cons. pose proof (kern_posR th x H (Hl x (or_introl eq_refl))). specialize (IH (fun y Hy => Hl y (or_intror Hy))). lra. }
  destruct (in_split _ _ H) as (l1 & l2 & E). rewrite E, map_app, total_app. cbn [map]. rewrite total_cons.
  assert (I1 : incl l1 Ts) by (rewrite E; intros x Hx; apply in_or_app; left; exact Hx). assert (I2 : incl l2 Ts) by (rewrite E; intros x Hx; apply in_or_app; right; right; exact Hx).
  pose proof (G l1 I1). pose proof (G l2 I2). pose proof (kern_posR th th H H). lra.
Qed.
Lemma ratio_range th th' : In th Ts -> In th' Ts -> 0 <= ratio th th' <= 1.
Proof.
  intros H H'. unfold S_Chain.ratio. split; [|apply Rmin_l]. apply Rmin_glb; [lra|]. pose proof (prior_pos th H). pose proof (prior_pos th' H'). pose proof (kern_posR th th' H H'). pose proof (kern_posR th' th H' H).
  apply Rmult_le_pos; apply Rmult_le_pos; try lra; apply Rlt_le, Rinv_0_lt_compat; lra.
Qed.
Lemma ratio_value th th' b : In th Ts -> In th' Ts -> exists v, nmul (min1 (nmul (ndiv (Fin (pi th')) (Fin (pi th))) (ndiv (Fin (kern th' th)) (Fin (kern th th'))))) (if b : bool then Fin 1 else Fin 0) = Fin v /\
  Q2R v = (if b then ratio th th' else 0) /\ (0 <= v <= 1)%Q.
Proof.
  intros H H'. pose proof (ratio_range th th' H H') as RR. assert (K0 : ~ (kern th th' == 0)%Q) by (intros X; pose proof (kern_pos th th' H H') as Y0; rewrite X in Y0; discriminate).
  pose proof (proj2 (Ts_in th H)) as P0. rewrite !ndiv_fin by assumption. cbn [nmul]. set (z := (pi th' / pi th * (kern th' th / kern th th'))%Q).
  assert (Hz : Q2R z = Q2R (pi th') / Q2R (pi th) * (Q2R (kern th' th) / Q2R (kern th th'))) by (unfold z; rewrite Q2R_mult, !Q2R_div by assumption; reflexivity).
  assert (O1 : Q2R 1 = 1) by (unfold Q2R; cbn; lra). assert (O0 : Q2R 0 = 0) by (unfold Q2R; cbn; lra).
  assert (M : exists u, min1 (Fin z) = Fin u /\ Q2R u = ratio th th').
  { unfold min1. cbn [nlt]. unfold S_Chain.ratio. rewrite <- Hz. destruct (Qle_bool 1 z) eqn:Ez; cbn [negb].
    - exists 1%Q. split; [reflexivity|]. apply Qle_bool_iff, Qle_Rle in Ez. rewrite O1 in *. rewrite Rmin_left by exact Ez. reflexivity.
    - assert (L : (z < 1)%Q) by (apply Qnot_le_lt; intros X; apply Qle_bool_iff in X; congruence). exists z. split; [reflexivity|]. rewrite Rmin_right; [reflexivity|]. apply Rlt_le. rewrite <- O1. apply Qlt_Rlt, L. }
  destruct M as (u & Eu & Hu). rewrite Eu. assert (V : exists v, nmul (Fin u) (if b then Fin 1 else Fin 0) = Fin v /\ Q2R v = (if b then ratio th th' else 0)).
  { destruct b; cbn [nmul]; eexists; (split; [reflexivity|]); rewrite Q2R_mult, Hu, ?O1, ?O0; ring. }
  destruct V as (v & Ev & Hv). exists v. split; [exact Ev|]. split; [exact Hv|]. split; apply Rle_Qle; rewrite Hv, ?O0, ?O1; destruct b; lra.
Qed.

Notation run q i k th d cur F := (fun fuel l => match chain Theta (list A) Y Cov setp pdfv kupd kpdf simc dist bern ann (Some q) i fuel k th d cur l [] with Ok (l', _) => F l' | Err _ => 0 end).
Notation go F q i k th d acc := (fun cur fuel l => match chain Theta (list A) Y Cov setp pdfv kupd kpdf simc dist bern ann (Some q) i fuel k th d cur l acc with Ok (l', _) => F l' | Err _ => 0 end).
Lemma chain_tends q i start F B : In start Ts -> row_is q i start -> (forall l, Rabs (F l) <= B) ->
  forall k th d cur acc, In th Ts -> Tends outs p (go F q i k th d acc cur) (path start F k th d acc).
Proof.
  intros Hs (Hd & Hq) HF. assert (Bpos : 0 <= B) by (apply Rle_trans with (Rabs (F [])); [apply Rabs_pos|apply HF]).
  assert (Bg : forall k th d acc cur fuel l, Rabs (go F q i k th d acc cur fuel l) <= B) by (intros; cbn beta; destruct (chain _ _ _ _ _ _ _ _ _ _ _ _ _ _ _ _ _ _ _ _ _) as [[l' ?]|]; [apply HF|rewrite Rabs_R0; exact Bpos]).
  induction k as [|k IH]; intros th d cur acc H; [cbn [chain S_Chain.path]; apply Tends_const, dlaw|]. cbn [S_Chain.path].
  set (tl := fun th' y (cur3 : Theta) (b : bool) => if b then go F q i k th' (dist y) (acc ++ [(true, th', dist y)]) cur3 else go F q i k th d (acc ++ [(false, th, d)]) cur3).
  set (pa := fun th' y => nmul (min1 (nmul (ndiv (Fin (pi th')) (Fin (pi th))) (ndiv (Fin (kern th' th)) (Fin (kern th th'))))) (if closer y then Fin 1 else Fin 0)).
  apply (Tends_ext _ outs p (after (propose1 A Theta kst setp pdfv kupd q i cur) (fun z => after (simulated (fst z)) (fun y => after (fun _ l => bern (pa (snd z) y) l) (fun b => tl (snd z) y th b))))).
  { intros fuel l _. cbn [chain]. unfold after at 1, propose1. destruct (propose _ _ _ _ _ _ _ _ _ _ _) as [[[c1 r1] th']|]; [|reflexivity]. cbn [fst snd].
    unfold after at 1, simulated. destruct (simc c1 r1) as [r2 [y|]]; [|reflexivity]. unfold pdf_of_prior. rewrite !set_all, !density, !Hq. cbn [snd]. unfold after. fold (closer y). fold (pa th' y).
    destruct (bern (pa th' y) r2) as [[r3 [|]]|]; reflexivity. }
  assert (Bt : forall th' y b fu l, Rabs (tl th' y th b fu l) <= B) by (intros th' y [|] fu l; unfold tl; apply Bg).
  refine (propose_gives A Theta kst outs p dlaw setp pdfv kupd q i pi pts (fun x => Q2R (kern start x)) (kern_law start) set_all density Hd _ cur _ (fun z => total (map (fun y => lik (snd z) y *
     ((if closer y then ratio th (snd z) else 0) * path start F k (snd z) (dist y) (acc ++ [(true, snd z, dist y)]) + (1 - (if closer y then ratio th (snd z) else 0)) * path start F k th d (acc ++ [(false, th, d)]))) datas)) B _ _ _ _).
  - rewrite inner_within. apply inner_pos, Hs.
  - intros z fu l. apply after_bound; [exact Bpos|]. intros y fu2 l2. apply after_bound; [exact Bpos|]. intros; apply Bt.
  - intros [c th'] (Ec & H' & _). cbn [fst snd] in *. subst c.
    refine (sim_law th' H' _ (fun y => (if closer y then ratio th th' else 0) * path start F k th' (dist y) (acc ++ [(true, th', dist y)]) + (1 - (if closer y then ratio th th' else 0)) * path start F k th d (acc ++ [(false, th, d)])) B _ _ _ eq_refl).
    + intros y fu l. apply after_bound; [exact Bpos|]. intros; apply Bt.
    + intros y _. destruct (ratio_value th th' (closer y) H H') as (v & Ev & Hv & V01). unfold pa. rewrite Ev, <- Hv.
      refine (coin v V01 _ (fun b => if b then path start F k th' (dist y) (acc ++ [(true, th', dist y)]) else path start F k th d (acc ++ [(false, th, d)])) B _ _ _ _).
      * intros; apply Bt.
      * intros [|] _; unfold tl; apply IH; assumption.
      * cbn [map]. rewrite !total_cons. change (total []) with 0. ring.
  - cbn [fst snd]. rewrite inner_within. reflexivity.
Qed.
(** C81 (law): all moves of a chain are proposed from its first parameters *)
Theorem C81_law : forall q i start k d cur F B, In start Ts -> row_is q i start -> (forall l, Rabs (F l) <= B) ->
  Tends outs p (run q i k start d cur F) (path start F k start d []).
Proof. intros. apply chain_tends with (B := B); assumption. Qed.

Lemma path_last start f : forall k th d acc z, (acc = [] -> z = th) -> (acc <> [] -> last (map (fun e => snd (fst e)) acc) z = th) ->
  path start (fun l => f (last (map (fun e : bool * Theta * num => snd (fst e)) l) z)) k th d acc = moves start k f th.
Proof.
  induction k as [|k IH]; intros th d acc z H1 H2; cbn [S_Chain.path S_Chain.moves].
  - f_equal. destruct acc as [|e acc]; [exact (H1 eq_refl)|apply H2; discriminate].
  - apply total_ext. intros th' _. f_equal.
    assert (NE : forall e : bool * Theta * num, acc ++ [e] <> []) by (intros e X; apply app_eq_nil in X; destruct X; discriminate).
    assert (L : forall e : bool * Theta * num, last (map (fun e => snd (fst e)) (acc ++ [e])) z = snd (fst e)) by (intros e; rewrite map_app; apply last_last).
    rewrite (total_ext _ (fun y => lik th' y * (ratio th th' * (moves start k f th' - moves start k f th) * (if closer y then 1 else 0) + moves start k f th))).
    + change (expect datas (lik th') (fun y => ratio th th' * (moves start k f th' - moves start k f th) * (if closer y then 1 else 0) + moves start k f th) = ratio th th' * hit th' * moves start k f th' + (1 - ratio th th' * hit th') * moves start k f th).
      rewrite expect_plus, expect_scale, (expect_const _ _ _ _ (data_law th')). unfold S_Chain.hit, chance. ring.
    + intros y _. cbv zeta. rewrite !IH by (first [intros X; exfalso; exact (NE _ X)|intros _; apply L]). destruct (closer y); ring.
Qed.
(** C81 (parameters): the law of the parameters after k moves *)
Theorem C81_last : forall q i start k d cur f B, In start Ts -> row_is q i start -> (forall th, Rabs (f th) <= B) ->
  Tends outs p (run q i k start d cur (fun l => f (last (map (fun e => snd (fst e)) l) start))) (moves start k f start).
Proof.
  intros q i start k d cur f B Hs Hd Hf. rewrite <- (path_last start f k start d [] start (fun _ => eq_refl) (fun X => match X eq_refl with end)).
  apply chain_tends with (B := B); try assumption. intros l. apply Hf.
Qed.
Lemma flow th th' : In th Ts -> In th' Ts -> Q2R (pi th) * Q2R (kern th th') * ratio th th' = Q2R (pi th') * Q2R (kern th' th) * ratio th' th.
Proof.
  intros H H'. pose proof (prior_pos th H) as P1. pose proof (prior_pos th' H') as P2. pose proof (kern_posR th th' H H') as K1. pose proof (kern_posR th' th H' H) as K2. unfold S_Chain.ratio.
  set (x := Q2R (pi th)) in *. set (x' := Q2R (pi th')) in *. set (k := Q2R (kern th th')) in *. set (k' := Q2R (kern th' th)) in *.
  rewrite !Rmin_scale by (apply Rmult_le_pos; lra). rewrite Rmin_comm. f_equal; field; lra.
Qed.
(** moves with proposal weights u *)
Lemma kept (c : Theta -> R) (u : Theta -> Theta -> R) (g f : Theta -> R) : (forall th, In th Ts -> total (map (u th) Ts) = 1) ->
  (forall th th', In th Ts -> In th' Ts -> Q2R (pi th) * c th * u th th' * ratio th th' = Q2R (pi th') * c th' * u th' th * ratio th' th) ->
  (forall th, In th Ts -> g th = total (map (fun th' => u th th' * (ratio th th' * hit th' * f th' + (1 - ratio th th' * hit th') * f th)) Ts)) ->
  weigh c g = weigh c f.
Proof.
  intros H1 H2 H3. apply Rminus_diag_uniq. rewrite <- (balanced Ts (fun th th' => Q2R (pi th) * c th * hit th * u th th' * (ratio th th' * hit th')) f).
  2:{ intros th th' H H'. transitivity (hit th * hit th' * (Q2R (pi th) * c th * u th th' * ratio th th')); [ring|]. rewrite (H2 th th' H H'). ring. }
  unfold S_Chain.weigh. match goal with |- total (map ?s Ts) - total (map ?t Ts) = _ => transitivity (total (map (fun th => s th + -1 * t th) Ts)); [rewrite total_plus, total_scale; ring|] end.
  apply total_ext. intros th H. rewrite (H3 th H).
  transitivity (Q2R (pi th) * c th * hit th * (total (map (fun th' => u th th' * (ratio th th' * hit th' * f th' + (1 - ratio th th' * hit th') * f th)) Ts) + -1 * (f th * total (map (u th) Ts)))); [rewrite (H1 th H); ring|].
  rewrite <- (total_scale (u th)), <- total_scale, <- total_plus, <- total_scale. apply total_ext. intros th' _. ring.
Qed.
Lemma inner_sum th : In th Ts -> total (map (fun th' => Q2R (kern th th') / inner th) Ts) = 1.
Proof. intros H. pose proof (inner_pos th H). rewrite (total_ext _ (fun x => / inner th * Q2R (kern th x))) by (intros; unfold Rdiv; ring). rewrite total_scale. fold (inner th). apply Rinv_l. lra. Qed.
Lemma first_kept : forall f, weigh inner (fun th => moves th 1 f th) = weigh inner f /\
  (forall m, (forall th, In th Ts -> inner th = m) -> weigh (fun _ => 1) (fun th => moves th 1 f th) = weigh (fun _ => 1) f).
Proof.
  intros f. assert (H3 : forall th, In th Ts -> moves th 1 f th = total (map (fun th' => Q2R (kern th th') / inner th * (ratio th th' * hit th' * f th' + (1 - ratio th th' * hit th') * f th)) Ts)) by reflexivity.
  split; [|intros m Hm]; apply (kept _ (fun th th' => Q2R (kern th th') / inner th) _ _ inner_sum); try exact H3; intros th th' H H'; pose proof (flow th th' H H') as E; pose proof (inner_pos th H); pose proof (inner_pos th' H').
  - transitivity (Q2R (pi th) * Q2R (kern th th') * ratio th th'); [field; lra|]. rewrite E. field. lra.
  - rewrite (Hm th H), (Hm th' H') in *. transitivity (/ m * (Q2R (pi th) * Q2R (kern th th') * ratio th th')); [field; lra|]. rewrite E. field. lra.
Qed.
Lemma independent_kept : (forall th th' x, In th Ts -> In th' Ts -> kern th x = kern th' x) -> forall k f, weigh (fun _ => 1) (fun th => moves th k f th) = weigh (fun _ => 1) f.
Proof.
  intros Hk k f. assert (I : forall a b, In a Ts -> In b Ts -> inner a = inner b) by (intros a b Ha Hb; unfold S_Chain.inner; apply total_ext; intros x _; rewrite (Hk a b x Ha Hb); reflexivity).
  assert (S1 : forall k a b, In a Ts -> In b Ts -> forall th, moves a k f th = moves b k f th).
  { clear k. induction k as [|k IH]; intros a b Ha Hb th; [reflexivity|]. cbn [S_Chain.moves]. apply total_ext. intros th' _. rewrite (Hk a b th' Ha Hb), (I a b Ha Hb), !(IH a b Ha Hb). reflexivity. }
  induction k as [|k IH]; [reflexivity|]. rewrite <- IH. apply (kept _ (fun th th' => Q2R (kern th th') / inner th) _ _ inner_sum).
  - intros th th' H H'. pose proof (flow th th' H H') as E. pose proof (inner_pos th H). rewrite (I th' th H' H). transitivity (/ inner th * (Q2R (pi th) * Q2R (kern th th') * ratio th th')); [field; lra|]. rewrite E. field. lra.
  - intros th H. cbn [S_Chain.moves]. apply total_ext. intros th' H'. rewrite (S1 k th th' H H'). reflexivity.
Qed.
(** C81 (first move): the first move of a chain leaves invariant prior times chance of close data times chance of perturbations inside the prior *)
Theorem C81_first : forall f B, (forall th, Rabs (f th) <= B) -> exists v : Theta -> R,
  (forall q i th d cur, In th Ts -> row_is q i th -> Tends outs p (run q i 1%nat th d cur (fun l => f (last (map (fun e => snd (fst e)) l) th))) (v th)) /\
  weigh inner v = weigh inner f /\
  (forall m, (forall th, In th Ts -> inner th = m) -> weigh (fun _ => 1) v = weigh (fun _ => 1) f).
Proof. intros f B Hf. exists (fun th => moves th 1 f th). split; [intros; apply C81_last with (B := B); assumption|apply first_kept]. Qed.
(** C81 (chains): all moves do, if perturbations do not depend on what is perturbed *)
Theorem C81_independent : (forall th th' x, In th Ts -> In th' Ts -> kern th x = kern th' x) -> forall k f B, (forall th, Rabs (f th) <= B) -> exists v : Theta -> R,
  (forall q i th d cur, In th Ts -> row_is q i th -> Tends outs p (run q i k th d cur (fun l => f (last (map (fun e => snd (fst e)) l) th))) (v th)) /\
  weigh (fun _ => 1) v = weigh (fun _ => 1) f.
Proof. intros Hk k f B Hf. exists (fun th => moves th k f th). split; [intros; apply C81_last with (B := B); assumption|apply independent_kept, Hk]. Qed.
End Chains.
Print Assumptions C81_law.
Print Assumptions C81_last.
Print Assumptions C81_first.
Print Assumptions C81_independent.

(** Cases: two parameters with prior probabilities 2/3 and 1/3, of which one perturbation in four gives the other; every data set is close. *)
Module Two.
Definition outs : list nat := [0; 1; 2; 3]%nat.
Definition p : nat -> R := fun _ => 1 / 4.
Definition bit (a : nat) : bool := (a <? 2)%nat.
Definition pi (th : bool) : Q := if th then (2 # 3)%Q else (1 # 3)%Q.
Definition setp (th cur : bool) : bool * bool := (true, th).
Definition prop (th : bool) (a : nat) : bool := if (a =? 0)%nat then negb th else th.
Definition q : kst bool unit := mkkst [true; false] [tt].
Definition row (i : nat) : bool := nth i (k_from q) true.
Definition kupd (q : kst bool unit) (i : nat) (l : list nat) : list nat * bool := match l with [] => ([], true) | a :: l' => (l', prop (nth i (k_from q) true) a) end.
Definition kern (th x : bool) : Q := if eqb th x then (3 # 4)%Q else (1 # 4)%Q.
Definition kpdf (_ : kst bool unit) (x y : bool) : num := Fin (kern x y).
Definition simc (th : bool) (l : list nat) : list nat * option bool := match l with [] => ([], None) | _ :: l' => (l', Some th) end.
Definition dist (_ : bool) : num := Fin 0.
Definition bern (v : num) (l : list nat) : res (list nat * bool) := match v with Fin x => flip nat bit x l | _ => Err ValueError end.
Definition lik (th y : bool) : R := if eqb th y then 1 else 0.
(** k moves of the chain that starts at row i *)
Definition moved (k i : nat) (f : bool -> R) (fuel : nat) (l : list nat) : R :=
  match chain bool (list nat) bool unit setp (fun th _ => Fin (pi th)) kupd kpdf simc dist bern (Fin 1) (Some q) i fuel k (row i) (Fin 0) true l [] with
  | Ok (l', _) => f (last (map (fun e => snd (fst e)) l') (row i)) | Err _ => 0 end.
Lemma law : Law outs p.
Proof. split; [intros; unfold p; lra|]. unfold outs, p, total. cbn. lra. Qed.
Lemma fair : chance outs p bit = 1 / 2.
Proof. unfold chance, expect, outs, p, bit, total. cbn. lra. Qed.
Lemma q34 : Q2R (3 # 4) = 3 / 4. Proof. unfold Q2R; cbn; lra. Qed.
Lemma q14 : Q2R (1 # 4) = 1 / 4. Proof. unfold Q2R; cbn; lra. Qed.
Lemma q23 : Q2R (2 # 3) = 2 / 3. Proof. unfold Q2R; cbn; lra. Qed.
Lemma q13 : Q2R (1 # 3) = 1 / 3. Proof. unfold Q2R; cbn; lra. Qed.
Lemma nodup : NoDup [true; false].
Proof. constructor; [cbn; intuition discriminate|]. constructor; [intros []|constructor]. Qed.
Lemma all_in (b : bool) : In b [true; false].
Proof. destruct b; cbn; auto. Qed.
Lemma kern_law th : Law [true; false] (fun x => Q2R (kern th x)).
Proof. split; [intros x _; unfold kern; destruct (eqb th x); rewrite ?q34, ?q14; lra|]. cbn [map]. rewrite !total_cons. change (total []) with 0. unfold kern. destruct th; cbn [eqb]; rewrite q34, q14; lra. Qed.
Lemma data_law th : Law [true; false] (lik th).
Proof. split; [intros x _; unfold lik; destruct (eqb th x); lra|]. cbn [map]. rewrite !total_cons. change (total []) with 0. unfold lik. destruct th; cbn [eqb]; lra. Qed.
Lemma produces_ext {X} (P : nat -> list nat -> res (list nat * X)) xs (u v : X -> R) : (forall x, In x xs -> u x = v x) -> Produces outs p P xs u -> Produces outs p P xs v.
Proof.
  intros H. apply Gives_weak.
  - intros x [Hx Hv]. split; [exact Hx|]. rewrite <- (H x Hx). exact Hv.
  - intros G w ->. apply total_ext. intros x Hx. rewrite (H x Hx). reflexivity.
Qed.
Lemma one_draw_law (P : nat -> list nat -> res (list nat * bool)) (g : nat -> bool) : (forall f a l, P f (a :: l) = Ok (l, g a)) ->
  Produces outs p P [true; false] (fun x => chance outs p (fun a => if Bool.bool_dec (g a) x then true else false)).
Proof. intros H. exact (draw_produces nat outs p law Bool.bool_dec P g [true; false] H nodup (fun a _ => all_in (g a))). Qed.
Lemma rows i : row_is nat bool unit outs p kupd kpdf kern [true; false] q i (row i).
Proof.
  split; [|reflexivity]. eapply produces_ext; [|apply (one_draw_law _ (prop (row i))); reflexivity]. intros x _. cbn beta.
  unfold chance, expect, outs, p, prop, kern. cbn [map Nat.eqb]. rewrite !total_cons. change (total []) with 0. destruct (row i), x; cbn [negb eqb]; unfold Q2R; cbn; lra.
Qed.
Lemma sims th : Produces outs p (simulated nat bool bool simc th) [true; false] (lik th).
Proof.
  eapply produces_ext; [|apply (one_draw_law _ (fun _ => th)); reflexivity]. intros x _. cbn beta.
  unfold chance, expect, outs, p, lik. cbn [map]. rewrite !total_cons. change (total []) with 0. destruct th, x; cbn; lra.
Qed.
Lemma coins v : (0 <= v <= 1)%Q -> Produces outs p (fun _ l => bern (Fin v) l) [true; false] (fun b => if b then Q2R v else 1 - Q2R v).
Proof. exact (flip_gives nat outs p law bit fair v). Qed.
Notation moves_ := (moves bool bool pi kern lik (closer bool dist (Fin 1)) [true; false] [true; false]).
Lemma law_of k i f : Tends outs p (moved k i f) (moves_ (row i) k f (row i)).
Proof.
  apply (C81_last nat bool bool unit outs p law setp (fun th _ => Fin (pi th)) kupd kpdf simc dist bern (Fin 1) pi kern [true; false] [true; false] lik
    (fun _ _ => eq_refl) (fun _ _ => eq_refl)) with (B := Rmax (Rabs (f true)) (Rabs (f false))).
  - intros []; discriminate.
  - exact kern_law.
  - intros [] [] _ _; reflexivity.
  - exact data_law.
  - intros th _. apply sims.
  - exact coins.
  - apply all_in.
  - apply rows.
  - intros []; [apply Rmax_l|apply Rmax_r].
Qed.
Lemma hits th : hit bool bool lik (closer bool dist (Fin 1)) [true; false] th = 1.
Proof. unfold hit, chance, expect, closer. cbn [map dist nlt]. rewrite !total_cons. change (total []) with 0. unfold lik. destruct th; cbn; lra. Qed.
Lemma inners th : inner bool kern [true; false] th = 1.
Proof. exact (proj2 (kern_law th)). Qed.
Lemma ratios : ratio bool pi kern true true = 1 /\ ratio bool pi kern false false = 1 /\ ratio bool pi kern true false = 1 / 2 /\ ratio bool pi kern false true = 1.
Proof.
  unfold ratio, pi, kern. cbn [eqb]. rewrite ?q34, ?q14, ?q23, ?q13. split; [|split; [|split]].
  - rewrite Rmin_left; lra.
  - rewrite Rmin_left; lra.
  - rewrite Rmin_right; lra.
  - rewrite Rmin_left; lra.
Qed.
Lemma step start k f th : moves_ start (S k) f th =
  Q2R (kern start true) * (ratio bool pi kern th true * moves_ start k f true + (1 - ratio bool pi kern th true) * moves_ start k f th) +
  Q2R (kern start false) * (ratio bool pi kern th false * moves_ start k f false + (1 - ratio bool pi kern th false) * moves_ start k f th).
Proof. cbn [moves]. cbn [map]. rewrite !total_cons. change (total []) with 0. rewrite !hits, !inners. field. Qed.
(** one move keeps the posterior *)
Example one_move : exists v : nat -> R, (forall i, Tends outs p (moved 1 i (fun th => if th then 5 else 7)) (v i)) /\ 2 / 3 * v 0%nat + 1 / 3 * v 1%nat = 17 / 3.
Proof.
  destruct (C81_first nat bool bool unit outs p law setp (fun th _ => Fin (pi th)) kupd kpdf simc dist bern (Fin 1) pi kern [true; false] [true; false] lik
    (fun _ _ => eq_refl) (fun _ _ => eq_refl) ltac:(intros []; discriminate) kern_law ltac:(intros [] [] _ _; reflexivity) data_law (fun th _ => sims th) coins (fun th => if th then 5 else 7) 7) as (v & H1 & _ & H2).
  { intros []; rewrite Rabs_right; lra. }
  exists (fun i => v (row i)). split; [intros i; apply (H1 q i (row i)); [apply all_in|apply rows]|].
  specialize (H2 1 (fun th _ => inners th)). change (filter (inside bool pi) [true; false]) with [true; false] in H2. unfold weigh in H2. cbn [map] in H2. rewrite !total_cons, !hits in H2. change (total []) with 0 in H2.
  change (row 0) with true. change (row 1) with false. unfold pi in H2. rewrite q23, q13 in H2. lra.
Qed.
(** any number of moves keeps it, when perturbations are tosses of a coin *)
Definition toss (_ : kst bool unit) (_ : nat) (l : list nat) : list nat * bool := match l with [] => ([], true) | a :: l' => (l', bit a) end.
Example tosses : forall k, exists v : bool -> R,
  (forall th, Tends outs p (fun fuel l => match chain bool (list nat) bool unit setp (fun th _ => Fin (pi th)) toss (fun _ _ _ => Fin (1 # 2)) simc dist bern (Fin 1) (Some q) 0 fuel k th (Fin 0) true l [] with
     | Ok (l', _) => (fun th : bool => if th then 5 else 7) (last (map (fun e => snd (fst e)) l') th) | Err _ => 0 end) (v th)) /\ 2 / 3 * v true + 1 / 3 * v false = 17 / 3.
Proof.
  intros k. assert (H12 : Q2R (1 # 2) = 1 / 2) by (unfold Q2R; cbn; lra).
  assert (KL : forall th : bool, Law [true; false] (fun _ => Q2R (1 # 2))) by (intros th; split; [intros x _; lra|cbn [map]; rewrite !total_cons; change (total []) with 0; lra]).
  destruct (C81_independent nat bool bool unit outs p law setp (fun th _ => Fin (pi th)) toss (fun _ _ _ => Fin (1 # 2)) simc dist bern (Fin 1) pi (fun _ _ => (1 # 2)%Q) [true; false] [true; false] lik
    (fun _ _ => eq_refl) (fun _ _ => eq_refl) ltac:(intros []; discriminate) KL ltac:(intros [] [] _ _; reflexivity) data_law (fun th _ => sims th) coins (fun _ _ _ _ _ => eq_refl) k (fun th => if th then 5 else 7) 7) as (v & H1 & H2).
  { intros []; rewrite Rabs_right; lra. }
  exists v. split.
  - intros th. apply (H1 q 0%nat th (Fin 0) true (all_in th)). split; [|reflexivity]. eapply produces_ext; [|apply (one_draw_law _ bit); reflexivity]. intros x _. cbn beta.
    unfold chance, expect, outs, p, bit. cbn [map Nat.ltb Nat.leb]. rewrite !total_cons. change (total []) with 0. rewrite H12. destruct x; cbn; lra.
  - change (filter (inside bool pi) [true; false]) with [true; false] in H2. unfold weigh in H2. cbn [map] in H2. rewrite !total_cons, !hits in H2. change (total []) with 0 in H2. unfold pi in H2. rewrite q23, q13 in H2. lra.
Qed.
End Two.
(** the first move keeps the probability 1/3 of the second parameters; after the second move it is 5/16 *)
Theorem C81_second_refuted : exists v : nat -> nat -> R,
  (forall k i, Tends Two.outs Two.p (Two.moved k i (fun th => if th then 0 else 1)) (v k i)) /\
  Q2R (Two.pi (Two.row 0)) * v 0%nat 0%nat + Q2R (Two.pi (Two.row 1)) * v 0%nat 1%nat = 1 / 3 /\
  Q2R (Two.pi (Two.row 0)) * v 1%nat 0%nat + Q2R (Two.pi (Two.row 1)) * v 1%nat 1%nat = 1 / 3 /\
  Q2R (Two.pi (Two.row 0)) * v 2%nat 0%nat + Q2R (Two.pi (Two.row 1)) * v 2%nat 1%nat = 5 / 16.
Proof.
  exists (fun k i => moves bool bool Two.pi Two.kern Two.lik (closer bool Two.dist (Fin 1)) [true; false] [true; false] (Two.row i) k (fun th => if th then 0 else 1) (Two.row i)).
  split; [intros k i; apply Two.law_of|]. change (Two.row 0) with true. change (Two.row 1) with false. destruct Two.ratios as (R1 & R2 & R3 & R4).
  rewrite !Two.step, R1, R2, R3, R4. cbn [moves]. unfold Two.pi, Two.kern. cbn [eqb]. rewrite !Two.q34, !Two.q14, !Two.q23, !Two.q13. split; [lra|]. split; lra.
Qed.
Print Assumptions C81_second_refuted.
