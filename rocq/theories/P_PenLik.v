(** C66: the approximate likelihood by penalised logistic regression. *)
From Coq Require Import Reals Lia Lra.
From Verif Require Import M_Base M_Num M_XReal M_MMD M_Stats M_KNN M_PenLik S_Stats S_Distance L_PMC L_Stats L_Distance L_PosDef S_PenLik.
Open Scope R_scope.

Section PenLik.
Variable rng : Type.
Variable theta : Type.
Variable prior : rng -> theta * rng.
Variable draw : nat -> theta -> rng -> list R * rng.
Notation fill := (fill rng theta draw).
Notation models_loop := (models_loop rng theta draw).
Notation reference := (reference rng theta prior draw).

Lemma last_app_none {A} (l : list A) x d : last (l ++ [x]) d = x.
Proof. induction l as [|y l IH]; [reflexivity|]. cbn [app last]. destruct (l ++ [x]) eqn:E; [destruct l; discriminate|]. rewrite <- E in *. exact IH. Qed.
Lemma last_repeat {A} (x d : A) n : last (repeat x (S n)) d = x.
Proof. induction n as [|n IH]; [reflexivity|]. change (repeat x (S (S n))) with (x :: repeat x (S n)). cbn [last]. cbn [repeat] in *. exact IH. Qed.
Lemma last_app_r {A} (l l' : list A) d : l' <> [] -> last (l ++ l') d = last l' d.
Proof. intros H. induction l as [|y l IH]; [reflexivity|]. cbn [app last]. destruct (l ++ l') eqn:E; [destruct l; [contradiction|discriminate]|exact IH]. Qed.
(** Filling: with k slots left, k more draws. *)
Lemma fill_spec k th : forall left fuel done g, (left <= fuel)%nat -> (done <> [] \/ left <> 0%nat) -> 
  exists rows g', fill fuel k th (map Some done ++ repeat None left) (length done) g = Ok (map Some (done ++ rows), g') /\ length rows = left /\ Draws (draw k) th g rows.
Proof.
  induction left as [|left IH]; intros fuel done g Hf Hne.
  - exists [], g. cbn [repeat]. rewrite !app_nil_r. split; [|split; [reflexivity|exists [g]; split; [reflexivity|split; [reflexivity|intros [|i] r H; discriminate]]]].
    destruct Hne as [Hne|Hne]; [|lia]. destruct (exists_last Hne) as (l & x & ->). destruct fuel; cbn [M_PenLik.fill]; rewrite map_app; cbn [map]; rewrite last_app_none; destruct (map Some l ++ [Some x]) eqn:E; try reflexivity; destruct l; discriminate.
  - destruct fuel as [|fuel]; [lia|]. destruct (draw k th g) as [row g1] eqn:ED.
    destruct (IH fuel (done ++ [row]) g1 ltac:(lia) ltac:(left; destruct done; discriminate)) as (rows & g' & E & L & (gs & G1 & G2 & G3)).
    exists (row :: rows), g'. split; [|split; [cbn; lia|]].
    + cbn [M_PenLik.fill]. rewrite last_app_r by (cbn; discriminate). rewrite last_repeat. rewrite ED. rewrite app_length, map_length, repeat_length. 
      destruct (Nat.ltb_spec (length done) (length done + S left)) as [_|H]; [|lia].
      assert (E1 : firstn (length done) (map Some done ++ repeat None (S left)) = map Some done). { rewrite <- (map_length (@Some (list R)) done). rewrite firstn_app, Nat.sub_diag, firstn_O, app_nil_r. apply firstn_all. }
      assert (E2 : skipn (S (length done)) (map Some done ++ repeat None (S left)) = repeat (@None (list R)) left). { rewrite <- (map_length (@Some (list R)) done). clear. induction (map Some done) as [|y l IH]; [reflexivity|exact IH]. }
      rewrite E1, E2. rewrite map_app, app_length in E. cbn [map length] in E. rewrite <- app_assoc in E. replace (length done + 1)%nat with (S (length done)) in E by lia. cbn [app] in E. rewrite E.
      rewrite <- app_assoc. cbn [app]. destruct (map Some done ++ repeat None (S left)) eqn:EE; [destruct done; discriminate|]. reflexivity.
    + exists (g :: gs). split; [cbn [length]; lia|]. split; [reflexivity|]. intros [|i] r H.
      * cbn in H. injection H as <-. exists g, g1. split; [reflexivity|split; [exact G2|exact ED]].
      * cbn in H. destruct (G3 i r H) as (a & b & A & B & C). exists a, b. split; [exact A|split; [exact B|exact C]].
Qed.
Lemma models_ok fuel n th : (1 <= n <= fuel)%nat -> forall ks g, exists l g', models_loop fuel n ks th g = Ok (l, g') /\
  match ks with [] => True | k :: _ => exists rows, length rows = n /\ Draws (draw k) th g rows /\ hd_error l = Some (squeeze (length (nth 0 rows [])) rows) end.
Proof.
  intros Hn. induction ks as [|k ks IH]; intros g; [exists [], g; split; [reflexivity|trivial]|]. cbn [M_PenLik.models_loop].
  destruct (fill_spec k th n fuel [] g ltac:(lia) ltac:(right; lia)) as (rows & g1 & E & L & D). cbn [map app length] in E. rewrite E. cbn [rthen fst snd].
  destruct (IH g1) as (l & g' & E' & _). rewrite E'. cbn [rthen fst snd]. eexists _, _. split; [reflexivity|]. exists rows. split; [assumption|split; [assumption|]]. cbn [hd_error]. rewrite map_map, map_id. reflexivity.
Qed.
(** The reference data: n draws of the first model, one after the other, all with the one parameter value drawn from the prior; the
    loop ends after n rounds. *)
Theorem C66_reference : forall fuel n_models n g, (1 <= n_models)%nat -> (1 <= n <= fuel)%nat ->
  exists rows, length rows = n /\ Draws (draw 0) (fst (prior g)) (snd (prior g)) rows /\ reference fuel n_models n g = Ok (squeeze (length (nth 0 rows [])) rows).
Proof.
  intros fuel nm n g Hm Hn. unfold M_PenLik.reference. destruct (prior g) as [th g'] eqn:EP. destruct nm as [|nm]; [lia|]. cbn [seq].
  destruct (models_ok fuel n th Hn (0%nat :: seq 1 nm) g') as (l & g2 & E & rows & L & D & HD). exists rows. split; [assumption|split; [exact D|]]. rewrite E. cbn [rthen fst]. destruct l; [discriminate|]. cbn in HD. congruence.
Qed.
(** Without models or without simulations there is nothing to index. *)
Theorem C66_empty : forall fuel n_models n g, n_models = 0%nat \/ n = 0%nat -> reference fuel n_models n g = Err IndexError.
Proof. intros fuel nm n g H. unfold M_PenLik.reference. destruct (prior g) as [th g']. destruct nm as [|nm]; [reflexivity|]. destruct H as [H| ->]; [discriminate|]. cbn [seq M_PenLik.models_loop]. destruct fuel; reflexivity. Qed.

Variable fit : list (list R) -> list R -> list nat -> res (R * list R).
Notation penlog := (penlog fit).
(** The value, with at least two simulations and two statistics: the logarithm of the odds that each observation belongs to the
    simulations rather than to the reference data, under the fitted logistic model, added up. *)
Theorem C66_value : forall n f d obs sim rows b w, (2 <= n)%nat -> (1 <= f)%nat -> (2 <= d)%nat -> length sim = n -> length rows = n -> Forall (fun r => length r = d) rows ->
  fit (sim ++ rows) (repeat 0 n ++ repeat 1 n) (groups f n) = Ok (b, w) ->
  penlog n f d (squeeze d rows) obs sim = Ok (total (map (fun o => ln ((1 - logistic b w o) / logistic b w o)) obs)).
Proof.
  intros n f d obs sim rows b w Hn Hf Hd HS HL HR EF. unfold M_PenLik.penlog, squeeze. rewrite HS, Nat.eqb_refl. cbn [negb].
  destruct (Nat.eqb_spec (length rows) 1); [lia|]. destruct (Nat.eqb_spec d 1); [lia|]. cbn [concatenate].
  assert (FB : forallb (fun r => (length r =? d)%nat) rows = true) by (apply forallb_forall; intros r Hr; apply Nat.eqb_eq; rewrite Forall_forall in HR; apply HR; assumption). rewrite FB. cbn [rthen].
  destruct (Nat.eqb_spec f 0); [lia|]. rewrite EF. cbn [rthen fst snd]. f_equal. change rsuml with total. rewrite <- (Rmult_1_l (total _)), <- Ropp_mult_distr_l_reverse, <- total_scale. apply total_ext. intros o _. change (total (map _ (combine w o))) with (inner w o).
  unfold logistic. set (z := b + inner w o). assert (0 < exp (- z)) by apply exp_pos. replace ((1 - / (1 + exp (- z))) / / (1 + exp (- z))) with (exp (- z)) by (field; lra). rewrite ln_exp. ring.
Qed.
(** A different number of simulations is refused. *)
Theorem C66_count : forall n f d ref obs sim, length sim <> n -> penlog n f d ref obs sim = Err RuntimeError.
Proof. intros n f d ref obs sim H. unfold M_PenLik.penlog. destruct (Nat.eqb_spec (length sim) n); [contradiction|reflexivity]. Qed.
(** An error of the fit is passed on. *)
Theorem C66_fit_error : forall n f d obs sim rows e, (2 <= n)%nat -> (1 <= f)%nat -> (2 <= d)%nat -> length sim = n -> length rows = n -> Forall (fun r => length r = d) rows ->
  fit (sim ++ rows) (repeat 0 n ++ repeat 1 n) (groups f n) = Err e -> penlog n f d (squeeze d rows) obs sim = Err e.
Proof.
  intros n f d obs sim rows e Hn Hf Hd HS HL HR EF. unfold M_PenLik.penlog, squeeze. rewrite HS, Nat.eqb_refl. cbn [negb].
  destruct (Nat.eqb_spec (length rows) 1); [lia|]. destruct (Nat.eqb_spec d 1); [lia|]. cbn [concatenate].
  assert (FB : forallb (fun r => (length r =? d)%nat) rows = true) by (apply forallb_forall; intros r Hr; apply Nat.eqb_eq; rewrite Forall_forall in HR; apply HR; assumption). rewrite FB. cbn [rthen].
  destruct (Nat.eqb_spec f 0); [lia|]. rewrite EF. reflexivity.
Qed.
(** False: that it works for one statistic, or for one simulation. The squeezed reference data have fewer than two axes, and the object
    raises ValueError in every call with the right number of simulations. *)
Theorem C66_one_statistic_refuted : forall fuel n_models n f d g a obs sim, (1 <= n_models)%nat -> (1 <= n <= fuel)%nat ->
  (forall k th g, length (fst (draw k th g)) = d) -> (d = 1 \/ n = 1)%nat -> reference fuel n_models n g = Ok a -> length sim = n ->
  penlog n f d a obs sim = Err ValueError.
Proof.
  intros fuel nm n f d g a obs sim Hm Hn Hd H1 E HS. destruct (C66_reference fuel nm n g Hm Hn) as (rows & L & (gs & G1 & G2 & G3) & E'). rewrite E' in E. injection E as <-.
  assert (HD : length (nth 0 rows []) = d). { destruct rows as [|r rows]; [cbn in L; lia|]. destruct (G3 0%nat r eq_refl) as (x & y & _ & _ & ED). cbn [nth]. rewrite <- (Hd 0%nat (fst (prior g)) x), ED. reflexivity. }
  rewrite HD. unfold M_PenLik.penlog, squeeze. rewrite HS, Nat.eqb_refl. cbn [negb]. rewrite L. destruct (Nat.eqb_spec n 1) as [E1|E1]; destruct (Nat.eqb_spec d 1) as [E2|E2]; try reflexivity. lia.
Qed.
End PenLik.
Print Assumptions C66_reference.
Print Assumptions C66_empty.
Print Assumptions C66_value.
Print Assumptions C66_count.
Print Assumptions C66_fit_error.
Print Assumptions C66_one_statistic_refuted.

(** False: that the reference data come from the marginal distribution, with a prior draw for each. For a noise-free model all
    reference data are equal, even if no two draws from the prior are. *)
Theorem C66_marginal_refuted : ~ (forall (prior : nat -> R * nat) (draw : nat -> R -> nat -> list R * nat) n g rows,
  (forall g g', g <> g' -> fst (prior g) <> fst (prior g')) -> (forall k th g, draw k th g = ([th; th], S g)) -> (2 <= n)%nat ->
  reference nat R prior draw n 1 n g = Ok (A2 rows) -> NoDup rows).
Proof.
  intros H. specialize (H (fun g => (INR g, S g)) (fun k th g => ([th; th], S g)) 2%nat 0%nat [[INR 0; INR 0]; [INR 0; INR 0]]).
  assert (N : NoDup [[INR 0; INR 0]; [INR 0; INR 0]]).
  { apply H; [intros g g' Hg; cbn [fst]; apply not_INR; assumption|reflexivity|lia|reflexivity]. }
  apply NoDup_cons_iff in N. apply (proj1 N). left. reflexivity.
Qed.
Print Assumptions C66_marginal_refuted.

Module Toy.
Definition prior (g : nat) : R * nat := (INR g, S g).
Definition draw (k : nat) (th : R) (g : nat) : list R * nat := ([th; INR g], S g).
Example C66_case_reference : reference nat R prior draw 5 2 3 4%nat = Ok (A2 [[INR 4; INR 5]; [INR 4; INR 6]; [INR 4; INR 7]]).
Proof. reflexivity. Qed.
Definition fit (X : list (list R)) (y : list R) (gr : list nat) : res (R * list R) := Ok (1, [2; 3]).
Example C66_case : penlog fit 2 10 2 (A2 [[1; 2]; [3; 4]]) [[1; 1]; [0; 5]] [[0; 0]; [7; 7]] = Ok (- 22).
Proof. unfold penlog. cbn. f_equal. ring. Qed.
Definition draw1 (k : nat) (th : R) (g : nat) : list R * nat := ([th + INR g], S g).
Example C66_case_one : exists a, reference nat R prior draw1 5 1 3 4%nat = Ok a /\ penlog fit 3 10 1 a [[1]] [[1]; [2]; [3]] = Err ValueError.
Proof. eexists. split; reflexivity. Qed.
End Toy.
