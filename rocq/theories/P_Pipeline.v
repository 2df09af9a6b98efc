(** C68: learned statistics are applied to new data as in training; saving and loading. *)
From Coq Require Import Reals Lra String.
From Coq Require Import List.
From Verif Require Import M_Base M_Num M_XReal M_Transform M_Scaler P_Scaler M_Stats S_Stats L_PMC L_Stats M_Journal M_Learn M_Pipeline S_Pipeline.
Import ListNotations.
Open Scope nat_scope.

(** *** Helpers *)
Lemma map_id_on {A} (f : A -> A) l : Forall (fun x => f x = x) l -> map f l = l.
Proof. induction 1; cbn [map]; congruence. Qed.
Lemma to32_exact f32 m : Exact32 f32 m -> to32 f32 m = m.
Proof.
  intros H. destruct m as [w rows]. unfold to32. cbn [mcols mrows] in *. f_equal. apply map_id_on. eapply Forall_impl; [|exact H]. cbv beta. intros row Hr. apply map_id_on. eapply Forall_impl; [|exact Hr].
  cbv beta. intros [r| | |] Hx; cbn [r32]; try reflexivity. now rewrite (Hx r eq_refl).
Qed.
Lemma list_ext_error {A} : forall l l' : list A, (forall j, nth_error l j = nth_error l' j) -> l = l'.
Proof. induction l as [|x l IH]; intros [|y l'] H; [reflexivity | discriminate (H 0) | discriminate (H 0)|]. pose proof (H 0) as H0. injection H0 as ->. f_equal. apply IH. intros j. exact (H (S j)). Qed.
Lemma nth_error_combine {A B} : forall (a : list A) (b : list B) j, nth_error (combine a b) j = match nth_error a j, nth_error b j with Some x, Some y => Some (x, y) | _, _ => None end.
Proof. induction a as [|x a IH]; intros [|y b] [|j]; cbn [combine nth_error]; try reflexivity; [destruct (nth_error a j); reflexivity | apply IH]. Qed.
Lemma poly1 m : poly 1 false m = m.
Proof. reflexivity. Qed.

(** scalers work row by row *)
Lemma scale_rows f32 s m y : scale f32 s m = Ok y -> exists g, mcols y = mcols m /\ mrows y = map g (mrows m) /\ forall m' y', scale f32 s m' = Ok y' -> mcols y' = mcols m' /\ mcols m' = mcols m /\ mrows y' = map g (mrows m').
Proof.
  intros H. destruct s as [ps|bs ps].
  - exists (mm_row ps). unfold scale in *. destruct (checked m && (mcols m =? length ps)) eqn:E; [|discriminate]. apply andb_prop in E as [_ E]. apply Nat.eqb_eq in E. injection H as <-. cbn [mcols mrows].
    split; [reflexivity|]. split; [reflexivity|]. intros m' y' H'. destruct (checked m' && (mcols m' =? length ps)) eqn:E'; [|discriminate]. apply andb_prop in E' as [_ E']. apply Nat.eqb_eq in E'. injection H' as <-. cbn [mcols mrows]. split; [reflexivity|]. split; [congruence | reflexivity].
  - exists (fun row => match ps with Some p => mm_row p (each (fwd f32) bs row) | None => each (fwd f32) bs row end). unfold scale, sc_transform in *.
    destruct (mcols m =? length bs) eqn:E; [|discriminate]. apply Nat.eqb_eq in E. cbn [negb] in H. destruct (sc_check f32 bs (mrows m)); [|discriminate]. injection H as <-. cbn [mcols mrows].
    split; [reflexivity|]. split; [destruct ps; [rewrite map_map|]; reflexivity|]. intros m' y' H'. destruct (mcols m' =? length bs) eqn:E'; [|discriminate]. apply Nat.eqb_eq in E'. cbn [negb] in H'. destruct (sc_check f32 bs (mrows m')); [|discriminate]. injection H' as <-. cbn [mcols mrows].
    split; [reflexivity|]. split; [congruence|]. destruct ps; [rewrite map_map|]; reflexivity.
Qed.

(** what MinMaxScaler learns about a feature *)
Lemma mm_fit_exact x l : exists lo hi s m, Extremes (x :: l) lo hi /\ mm_fit 0 1 (map XR (x :: l)) = (XR s, XR m) /\ forall y, (y * s + m)%R = position lo hi y.
Proof.
  unfold mm_fit. cbn [map fold_left xmin2n xmax2n]. destruct (fold_min l x) as (lo & -> & Hlx & Hl & Hlin). destruct (fold_max l x) as (hi & -> & Hhx & Hh & Hhin). cbn [xsub xadd xopp]. exists lo, hi.
  assert (HE : Extremes (x :: l) lo hi).
  { split; [destruct Hlin as [->|H]; [left; reflexivity | right; exact H]|]. split; [destruct Hhin as [->|H]; [left; reflexivity | right; exact H]|]. constructor; [lra|]. rewrite Forall_forall in *. intros y Hy. specialize (Hl y Hy). specialize (Hh y Hy). lra. }
  destruct (Req_EM_T (hi + - lo) 0) as [E|E].
  - rewrite xdiv_fin by lra. cbn [xmul xopp xadd]. eexists. eexists. split; [exact HE|]. split; [reflexivity|]. intros y. unfold position. destruct (Req_EM_T hi lo); lra.
  - rewrite xdiv_fin by exact E. cbn [xmul xopp xadd]. eexists. eexists. split; [exact HE|]. split; [reflexivity|]. intros y. unfold position. destruct (Req_EM_T hi lo); [lra|]. field. lra.
Qed.
(** [row] with every component replaced by its position *)
Definition positions (los his : list R) (row : list R) : list R := map (fun j => position (nth j los 0%R) (nth j his 0%R) (nth j row 0%R)) (seq 0 (length row)).
Lemma mm_row_positions (ps : list (xr * xr)) los his row : length ps = length row ->
  (forall j, j < length row -> exists s m, nth_error ps j = Some (XR s, XR m) /\ forall y, (y * s + m)%R = position (nth j los 0%R) (nth j his 0%R) y) ->
  mm_row ps (map XR row) = map XR (positions los his row).
Proof.
  intros Hl H. unfold mm_row, positions. apply list_ext_error. intros j. rewrite !nth_error_map'. destruct (Nat.lt_ge_cases j (length row)) as [Hj|Hj].
  - destruct (H j Hj) as (s & m & E & Hy). assert (Ec : nth_error (combine ps (map XR row)) j = Some ((XR s, XR m), XR (nth j row 0%R))).
    { rewrite nth_error_combine, E, nth_error_map', (nth_error_nth' row 0%R Hj). reflexivity. }
    rewrite Ec, nth_error_seq' by exact Hj. cbn [fst snd xmul xadd]. rewrite Hy. reflexivity.
  - assert (E1 : nth_error (combine ps (map XR row)) j = None) by (apply nth_error_None; rewrite combine_length, map_length; lia). assert (E2 : nth_error (seq 0 (length row)) j = None) by (apply nth_error_None; rewrite seq_length; exact Hj). rewrite E1, E2. reflexivity.
Qed.
Lemma finite_rows X : existsb (existsb infinite) (map (map XR) X) = false.
Proof. induction X as [|r X IH]; [reflexivity|]. cbn [map existsb]. rewrite IH, orb_false_r. induction r as [|v r IHr]; [reflexivity | exact IHr]. Qed.
Lemma choose2 (P : nat -> R -> R -> Prop) n : (forall j, j < n -> exists a b, P j a b) -> exists l l', forall j, j < n -> P j (nth j l 0%R) (nth j l' 0%R).
Proof.
  revert P. induction n as [|n IH]; intros P H; [exists [], []; intros j Hj; lia|]. destruct (H 0 (Nat.lt_0_succ n)) as (a & b & H0). destruct (IH (fun j => P (S j))) as (l & l' & Hl); [intros j Hj; apply H; lia|].
  exists (a :: l), (b :: l'). intros [|j] Hj; [exact H0 | apply Hl; lia].
Qed.
Lemma fit_positions f32 w X q : fit_minmax (real_mat w X) = Ok q -> Forall (fun r => length r = w) X ->
  exists los his, (forall j, j < w -> Extremes (feature X j) (nth j los 0%R) (nth j his 0%R))
  /\ (forall Y, Y <> [] -> Forall (fun r => length r = w) Y -> scale f32 q (real_mat w Y) = Ok (real_mat w (map (positions los his) Y))).
Proof.
  unfold fit_minmax. intros H HX. destruct (checked (real_mat w X)) eqn:Ec; [|discriminate]. injection H as <-. unfold checked, real_mat in Ec. cbn [mcols mrows] in *. apply andb_prop in Ec as [Ec _]. apply andb_prop in Ec as [Ec Ew].
  destruct X as [|x X]; [discriminate Ec|]. clear Ec.
  assert (Hj : forall j, j < w -> exists lo hi, Extremes (feature (x :: X) j) lo hi /\ exists s m, mm_fit 0 1 (M_Scaler.column (map (map XR) (x :: X)) j) = (XR s, XR m) /\ forall y, (y * s + m)%R = position lo hi y).
  { intros j Hj. pose proof (column_mat (x :: X) j 0%R) as Hc. unfold P_Scaler.mat in Hc. rewrite Hc by (eapply Forall_impl; [|exact HX]; cbv beta; intros r ->; exact Hj). cbn [map]. destruct (mm_fit_exact (nth j x 0%R) (map (fun r => nth j r 0%R) X)) as (lo & hi & s & m & HE & Em & Hy).
    exists lo, hi. split; [exact HE|]. exists s, m. split; [exact Em | exact Hy]. }
  destruct (choose2 _ w Hj) as (los & his & Hlh). exists los, his. split; [intros j Hjw; apply (Hlh j Hjw)|]. intros Y HY HYw. unfold scale, real_mat. cbn [mcols mrows]. rewrite map_length, seq_length, Nat.eqb_refl, andb_true_r. unfold checked. cbn [mcols mrows]. rewrite finite_rows.
  assert (E0 : length (map (map XR) Y) =? 0 = false) by (rewrite map_length; destruct Y; [congruence | reflexivity]). rewrite E0. rewrite Ew. cbn [negb andb]. f_equal. f_equal. rewrite !map_map. apply map_ext_in. intros r Hr.
  rewrite Forall_forall in HYw. specialize (HYw r Hr). apply mm_row_positions; [rewrite map_length, seq_length; congruence|]. intros j Hjr. rewrite HYw in Hjr. destruct (Hlh j Hjr) as (_ & s & m & Em & Hy). exists s, m. split; [|exact Hy].
  rewrite nth_error_map', nth_error_seq' by exact Hjr. cbn [Nat.add]. rewrite Em. reflexivity.
Qed.

Section C68.
  Variable f32 : R -> R.
  Variable draw : Z -> res (list (list xr) * option (list (list (list xr)))).
  Variable randints : nat -> list Z.
  Variable label : Type.
  Variable labels : mat -> res label.
  Variable initial : nclass -> sdict.
  Variable optimise : tdata label -> nat -> nclass -> sdict -> res sdict.
  Notation train_nn := (train_nn f32 draw randints label labels initial optimise).
  Notation init := (init draw randints).

  Lemma train_nn_inv sc n nval k p s pv sv scaled arg epochs t : train_nn sc n nval k p s pv sv scaled arg epochs = Ok t ->
    exists l target sims y yv osc x xv c w b w', init sc n nval k p s pv sv = Ok l /\ train l = Some (target, sims)
    /\ (scaled = false -> osc = None) /\ (scaled = true -> exists q, fit_minmax sims = Ok q /\ osc = Some q)
    /\ optscale f32 osc sims = Ok x
    /\ (forall pm sm, validation l = Some (pm, sm) -> exists z, optscale f32 osc sm = Ok z /\ xv = Some z) /\ (validation l = None -> xv = None)
    /\ (arg = GivenNet c w b \/ (exists h, arg = Sizes h /\ c = default_class relu (mcols x) (mcols target) h /\ w = initial c /\ b = true))
    /\ optimise (mktdata label (to32 f32 x) y (option_map (to32 f32) xv) yv) epochs c w = Ok w'
    /\ t = mktrained label (Plain c w' (mode_after b epochs (match xv with Some _ => true | None => false end))) osc sc (mktdata label (to32 f32 x) y (option_map (to32 f32) xv) yv).
  Proof.
    intros H. unfold M_Pipeline.train_nn in H. destruct (init sc n nval k p s pv sv) as [l|]; [|discriminate]. destruct (train l) as [[target sims]|] eqn:El; [|discriminate].
    destruct (labels target) as [y|]; [|discriminate].
    destruct (match validation l with Some (pm, _) => match labels pm with Err e => Err e | Ok y => Ok (Some y) end | None => Ok None end) as [yv|]; [|discriminate].
    destruct (if scaled then match fit_minmax sims with Err e => Err e | Ok s => Ok (Some s) end else Ok None) as [osc|] eqn:Eo; [|discriminate].
    destruct (optscale f32 osc sims) as [x|] eqn:Ex; [|discriminate].
    destruct (match validation l with Some (_, sm) => match optscale f32 osc sm with Err e => Err e | Ok x => Ok (Some x) end | None => Ok None end) as [xv|] eqn:Exv; [|discriminate].
    destruct (match arg with GivenNet c w b => Ok (c, w, b) | Sizes h => let c := default_class relu (mcols x) (mcols target) h in Ok (c, initial c, true) | OtherArg => Err RuntimeError end) as [[[c w] b]|] eqn:Ea; [|discriminate].
    cbv zeta in H. destruct (optimise _ epochs c w) as [w'|] eqn:Ep; [|discriminate]. injection H as <-.
    exists l, target, sims, y, yv, osc, x, xv, c, w, b, w'. split; [reflexivity|]. split; [exact El|]. split; [|split; [|split; [exact Ex|split; [|split; [|split; [|split; [exact Ep | reflexivity]]]]]]].
    - intros ->. now injection Eo as <-.
    - intros ->. destruct (fit_minmax sims) as [q|]; [|discriminate]. injection Eo as <-. exists q. split; reflexivity.
    - intros pm sm Hv. rewrite Hv in Exv. destruct (optscale f32 osc sm) as [z|]; [|discriminate]. injection Exv as <-. exists z. split; reflexivity.
    - intros Hv. rewrite Hv in Exv. now injection Exv as <-.
    - destruct arg as [c0 w0 b0|h|]; [left; injection Ea as -> -> ->; reflexivity | right; exists h; cbv zeta in Ea; injection Ea as <- <- <-; auto | discriminate].
  Qed.

  (** C68.  Whatever the network's class, its training and the data: once the trained network is in evaluation mode, the learned statistics give every simulation that was used
      in training exactly the network's output on the input it was trained with.  (With a scaler: for statistics that float32 represents; see C68_offset_refuted.) *)
  Theorem C68_served : forall sc n nval k p s pv sv scaled arg epochs t l target sims c w f d m out,
    train_nn sc n nval k p s pv sv scaled arg epochs = Ok t -> init sc n nval k p s pv sv = Ok l -> train l = Some (target, sims) ->
    t_net label t = Plain c w false -> Computes c w f ->
    statistics sc d = Ok m -> (scaled = true -> Exact32 f32 m) -> embedding f32 (get_statistics label t) d = Ok out ->
    forall i r, nth_error (mrows m) i = Some r ->
    forall j, nth_error (mrows sims) j = Some r -> exists x, nth_error (mrows (inputs label (t_data label t))) j = Some x /\ nth_error (mrows out) i = Some (f x).
  Proof.
    intros sc n nval k p s pv sv scaled arg epochs t l target sims c w f d m out H Hl Ht Hn Hf Hm Hx Hout i r Hi j Hj.
    destruct (train_nn_inv _ _ _ _ _ _ _ _ _ _ _ _ H) as (l' & target' & sims' & y & yv & osc & x & xv & c' & w0 & b & w' & E1 & E2 & E3 & E4 & E5 & E6 & E7 & _ & E8 & ->).
    rewrite Hl in E1. injection E1 as <-. rewrite Ht in E2. injection E2 as <- <-. cbn [t_net t_data inputs] in *. unfold get_statistics in Hout. cbn [t_net t_scaler t_calc] in Hout.
    unfold embedding in Hout. cbn [nprev nnet ndegree ncross nsd] in Hout. rewrite Hm in Hout. injection Hn as -> -> Hmode. rewrite Hmode in Hout. clear H Hl Ht E6 E7 E8.
    destruct osc as [q|].
    - assert (Hs : scaled = true) by (destruct scaled; [reflexivity | discriminate (E3 eq_refl)]). rewrite (to32_exact f32 m (Hx Hs)) in Hout. cbn [optscale] in E5. cbn [forward] in Hout.
      destruct (scale f32 q m) as [z|e] eqn:Ez; [|destruct e; discriminate]. unfold to32 in Hout at 1. cbn [mcols mrows] in Hout. destruct (negb (mcols z =? nin c)); [discriminate|]. cbn [rescale] in Hout. rewrite poly1 in Hout. injection Hout as <-. cbn [mrows to32].
      destruct (scale_rows _ _ _ _ E5) as (g & _ & Ex & Hg). destruct (Hg _ _ Ez) as (_ & _ & Ezr). exists (map (r32 f32) (g r)). rewrite Hf. rewrite Ex, Ezr, !map_map, !nth_error_map', Hi, Hj. split; reflexivity.
    - cbn [optscale] in E5. injection E5 as <-. cbn [forward] in Hout. unfold to32 in Hout at 1. cbn [mcols] in Hout. destruct (negb (mcols m =? nin c)); [discriminate|]. cbn [rescale] in Hout. rewrite poly1 in Hout. injection Hout as <-. cbn [mrows].
      exists (map (r32 f32) r). rewrite Hf. cbn [to32 mrows]. rewrite map_map, !nth_error_map', Hi, Hj. split; reflexivity.
  Qed.

  (** ... in particular the learned statistics of the simulations given for training are the network's outputs on its training inputs. *)
  Theorem C68_training_data : forall sc n nval k pm sm pv sv scaled arg epochs t c w f,
    train_nn sc n nval k (Some (Array2 pm)) (Some (Array2 sm)) pv sv scaled arg epochs = Ok t ->
    t_net label t = Plain c w false -> Computes c w f -> nin c = mcols (inputs label (t_data label t)) ->
    (scaled = true -> forall m, statistics sc (PList (map Vec (mrows sm))) = Ok m -> Exact32 f32 m) ->
    embedding f32 (get_statistics label t) (PList (map Vec (mrows sm))) = Ok (mkmat (nout c) (map f (mrows (inputs label (t_data label t))))).
  Proof.
    intros sc n nval k pm sm pv sv scaled arg epochs t c w f H Hn Hf Hin Hx.
    destruct (train_nn_inv _ _ _ _ _ _ _ _ _ _ _ _ H) as (l & target & sims & y & yv & osc & x & xv & c' & w0 & b & w' & E1 & E2 & E3 & E4 & E5 & E6 & E7 & _ & E8 & ->).
    assert (Hm : statistics sc (PList (map Vec (mrows sm))) = Ok sims).
    { unfold M_Learn.init in E1. destruct (negb _) in E1; [discriminate|]. destruct (negb _) in E1; [discriminate|]. destruct (generate draw randints sc n nval k _ _) as [l0|]; [|discriminate].
      cbn [provided] in E1. destruct (negb (length (mrows sm) =? length (mrows pm))); [discriminate|]. destruct (statistics sc (PList (map Vec (mrows sm)))) as [st|]; [|discriminate].
      assert (Et : train l = Some (pm, st)). { destruct pv as [a|]; [|injection E1 as <-; reflexivity]. destruct sv as [a'|]; [|injection E1 as <-; reflexivity]. destruct (provided sc a a') as [dd|]; [|discriminate]. injection E1 as <-. reflexivity. }
      rewrite Et in E2. now injection E2 as _ <-. }
    cbn [t_net t_data inputs] in *. injection Hn as -> -> Hmode. unfold get_statistics, embedding. cbn [t_net t_scaler t_calc nprev nnet ndegree ncross nsd]. rewrite Hm, Hmode.
    destruct osc as [q|].
    - assert (Hs : scaled = true) by (destruct scaled; [reflexivity | discriminate (E3 eq_refl)]). rewrite (to32_exact f32 sims (Hx Hs _ Hm)). cbn [optscale] in E5. cbn [forward]. rewrite E5. rewrite Hin, Nat.eqb_refl. cbn [negb rescale]. rewrite poly1, Hf. reflexivity.
    - cbn [optscale] in E5. injection E5 as <-. cbn [forward]. rewrite Hin, Nat.eqb_refl. cbn [negb rescale]. rewrite poly1, Hf. reflexivity.
  Qed.

  (** C68.  The scaler is learned from the training simulations only: every statistic is replaced by its position between the smallest and the largest value in the training
      set, and the same two values are used for the validation set and for all data the learned statistics are computed of. *)
  Theorem C68_scaling : forall sc n nval k p s pv sv arg epochs t l target w X, train_nn sc n nval k p s pv sv true arg epochs = Ok t -> init sc n nval k p s pv sv = Ok l ->
    train l = Some (target, real_mat w X) -> Forall (fun r => length r = w) X ->
    exists los his, (forall j, j < w -> Extremes (feature X j) (nth j los 0%R) (nth j his 0%R))
    /\ inputs label (t_data label t) = to32 f32 (real_mat w (map (positions los his) X))
    /\ (forall pm V, valid l = Some (pm, real_mat w V) -> mrows pm <> [] -> Forall (fun r => length r = w) V -> V <> [] -> vinputs label (t_data label t) = Some (to32 f32 (real_mat w (map (positions los his) V))))
    /\ (forall Y, Y <> [] -> Forall (fun r => length r = w) Y -> forward f32 (nnet (get_statistics label t)) (real_mat w Y) = forward f32 (t_net label t) (to32 f32 (real_mat w (map (positions los his) Y)))).
  Proof.
    intros sc n nval k p s pv sv arg epochs t l target w X H Hl Ht HX.
    destruct (train_nn_inv _ _ _ _ _ _ _ _ _ _ _ _ H) as (l' & target' & sims' & y & yv & osc & x & xv & c & w0 & b & w' & E1 & E2 & _ & E4 & E5 & E6 & _ & _ & _ & ->).
    rewrite Hl in E1. injection E1 as <-. rewrite Ht in E2. injection E2 as <- <-. destruct (E4 eq_refl) as (q & Eq & ->). cbn [optscale] in *. destruct (fit_positions f32 w X q Eq HX) as (los & his & Hex & Hsc). exists los, his. split; [exact Hex|].
    assert (HX0 : X <> []) by (intros ->; unfold fit_minmax in Eq; cbn in Eq; discriminate). rewrite (Hsc X HX0 HX) in E5. injection E5 as <-. cbn [t_data inputs vinputs]. split; [reflexivity|]. split.
    - intros pm V Hv Hpm HV HV0. assert (Ev : validation l = Some (pm, real_mat w V)) by (unfold validation; rewrite Hv; destruct (mrows pm); [congruence | reflexivity]). destruct (E6 _ _ Ev) as (z & Ez & ->). rewrite (Hsc V HV0 HV) in Ez. injection Ez as <-. reflexivity.
    - intros Y HY HYw. unfold get_statistics. cbn [t_scaler t_net nnet]. cbn [forward]. rewrite (Hsc Y HY HYw). reflexivity.
  Qed.

  (** C68.  In which mode training leaves the network: after at least one epoch it is in evaluation mode if and only if there was a validation set. *)
  Theorem C68_mode : forall sc n nval k p s pv sv scaled arg epochs t l, train_nn sc n nval k p s pv sv scaled arg epochs = Ok t -> init sc n nval k p s pv sv = Ok l -> 0 < epochs ->
    exists c w b, t_net label t = Plain c w b /\ (b = false <-> exists pm sm row, valid l = Some (pm, sm) /\ In row (mrows pm)).
  Proof.
    intros sc n nval k p s pv sv scaled arg epochs t l H Hl He.
    destruct (train_nn_inv _ _ _ _ _ _ _ _ _ _ _ _ H) as (l' & target & sims & y & yv & osc & x & xv & c & w0 & b & w' & E1 & _ & _ & _ & _ & E6 & E7 & _ & _ & ->).
    rewrite Hl in E1. injection E1 as <-. cbn [t_net]. exists c, w'. eexists. split; [reflexivity|]. unfold mode_after. destruct epochs as [|e]; [lia|]. cbn [Nat.eqb].
    unfold validation in *. destruct (valid l) as [[pm sm]|].
    - destruct (mrows pm) as [|row rows] eqn:Er; cbn [length Nat.eqb] in *.
      + rewrite (E7 eq_refl). split; [discriminate|]. intros (pm' & sm' & row & Hv & Hin). injection Hv as <- <-. rewrite Er in Hin. destruct Hin.
      + destruct (E6 pm sm eq_refl) as (z & _ & ->). split; [|reflexivity]. intros _. exists pm, sm, row. split; [reflexivity|]. rewrite Er. left; reflexivity.
    - rewrite (E7 eq_refl). split; [discriminate|]. intros (pm' & sm' & row & Hv & _). discriminate.
  Qed.

  Variable optimise2 : mat -> mat -> option (mat * mat) -> nclass -> sdict -> netarg -> nat -> res sdict.
  Notation train_ef := (train_ef f32 draw randints initial optimise2).
  Lemma train_ef_inv sc n nval p s pv sv lo up ss sp act dim arg parg epochs e : train_ef sc n nval p s pv sv lo up ss sp act dim arg parg epochs = Ok e ->
    exists l pars sims osc x xv c w, init sc n nval 1 p s pv sv = Ok l /\ train l = Some (pars, sims)
    /\ (osc = None <-> lo = None /\ up = None /\ ss = false)
    /\ optscale f32 osc sims = Ok x
    /\ (forall pm sm, validation l = Some (pm, sm) -> exists z, optscale f32 osc sm = Ok z /\ xv = Some z) /\ (validation l = None -> xv = None)
    /\ e = mkexpfam (Plain c w false) osc sc sims (option_map snd (validation l)) (to32 f32 x) (option_map (to32 f32) xv).
  Proof.
    intros H. unfold M_Pipeline.train_ef in H. destruct (negb (bounds_ok lo up)); [discriminate|]. destruct (init sc n nval 1 p s pv sv) as [l|]; [|discriminate]. destruct (train l) as [[pars sims]|] eqn:El; [|discriminate]. cbv zeta in H.
    destruct (match lo, up, ss with
              | None, None, false => Ok None
              | _, _, _ => match tf_init (bound_list lo (mcols sims)) (bound_list up (mcols sims)) with
                           | Err e => Err e
                           | Ok bs => match fit_bounded f32 bs ss sims with Err e => Err e | Ok s => Ok (Some s) end
                           end
              end) as [osc|] eqn:Eo; [|discriminate].
    destruct (optscale f32 osc sims) as [x|] eqn:Ex; [|discriminate].
    destruct (match validation l with Some (_, sm) => match optscale f32 osc sm with Err e => Err e | Ok x => Ok (Some x) end | None => Ok None end) as [xv|] eqn:Exv; [|discriminate].
    destruct (if sp then match fit_minmax pars with Err e => Err e | Ok s => Ok (Some s) end else Ok None) as [psc|]; [|discriminate].
    destruct (optscale f32 psc pars) as [y|]; [|discriminate].
    destruct (match validation l with Some (pm, _) => match optscale f32 psc pm with Err e => Err e | Ok x => Ok (Some x) end | None => Ok None end) as [yv|]; [|discriminate].
    assert (Hfin : exists c w, e = mkexpfam (Plain c w false) osc sc sims (option_map snd (validation l)) (to32 f32 x) (option_map (to32 f32) xv)).
    { assert (Hgen : forall c w0, match optimise2 (to32 f32 x) (to32 f32 y) (match xv, yv with Some a, Some b => Some (to32 f32 a, to32 f32 b) | _, _ => None end) c w0 parg epochs with
                       | Err e => Err e | Ok w' => Ok (mkexpfam (Plain c w' false) osc sc sims (option_map snd (validation l)) (to32 f32 x) (option_map (to32 f32) xv)) end = Ok e ->
                       exists c w, e = mkexpfam (Plain c w false) osc sc sims (option_map snd (validation l)) (to32 f32 x) (option_map (to32 f32) xv)).
      { intros c w0 Hc. destruct (optimise2 _ _ _ _ _ _ _) as [w'|]; [|discriminate]. injection Hc as <-. exists c, w'. reflexivity. }
      destruct arg as [c0 w0 b0|h|], parg as [c1 w1 b1|h1|]; try discriminate H; cbv iota in H; cbv zeta in H; exact (Hgen _ _ H). }
    destruct Hfin as (c & w & ->). exists l, pars, sims, osc, x, xv, c, w. split; [reflexivity|]. split; [exact El|]. split; [|split; [exact Ex|split; [|split; [|reflexivity]]]].
    - destruct lo as [a|], up as [a'|], ss;
        try (destruct (tf_init _ _) as [bs|]; [|discriminate]; destruct (fit_bounded _ _ _ _) as [q|]; [|discriminate]; injection Eo as <-); try (split; [discriminate | intros (?E1 & ?E2 & ?E3); discriminate]).
      injection Eo as <-. split; [auto | reflexivity].
    - intros pm sm Hv. rewrite Hv in Exv. destruct (optscale f32 osc sm) as [z|]; [|discriminate]. injection Exv as <-. exists z. split; reflexivity.
    - intros Hv. rewrite Hv in Exv. now injection Exv as <-.
  Qed.

  (** the network's output on what it is given for [m] when the scaler is [osc] *)
  Lemma discard_forward osc m ref x c w f n : optscale f32 osc ref = Ok x -> Computes c w f -> (osc <> None -> Exact32 f32 m) -> n = match osc with Some s => Scaled (Discard (Plain c w false)) s | None => Discard (Plain c w false) end ->
    forall y, forward f32 n (to32 f32 m) = Ok y -> exists g, mcols y = nout c - 1 /\ mrows y = map (fun r => removelast (f (g r))) (mrows m) /\ mrows (to32 f32 x) = map g (mrows ref).
  Proof.
    intros Ex Hf Hm -> y Hy. destruct osc as [q|].
    - rewrite (to32_exact f32 m) in Hy by (apply Hm; discriminate). cbn [optscale] in Ex. cbn [forward] in Hy. destruct (scale f32 q m) as [z|] eqn:Ez; [|discriminate]. destruct (negb _); [discriminate|]. injection Hy as <-. cbn [mcols mrows].
      destruct (scale_rows _ _ _ _ Ex) as (g & _ & Exr & Hg). destruct (Hg _ _ Ez) as (_ & _ & Ezr). exists (fun r => map (r32 f32) (g r)). split; [reflexivity|]. rewrite Hf. cbn [to32 mrows]. rewrite Ezr, Exr, !map_map. split; reflexivity.
    - cbn [optscale] in Ex. injection Ex as <-. cbn [forward] in Hy. destruct (negb _); [discriminate|]. injection Hy as <-. cbn [mcols mrows]. exists (map (r32 f32)). split; [reflexivity|]. rewrite Hf. cbn [to32 mrows]. rewrite !map_map. split; reflexivity.
  Qed.

  (** C68.  The exponential family: training ends in evaluation mode whether or not there is a validation set.  The learned statistics of a training simulation are the outputs
      of the network on the input it was trained with, without the last one; with rescale_statistics, divided by the standard deviation of that output over the validation
      inputs (the training inputs, if there are none).  The previous statistics are applied once. *)
  Theorem C68_expfam : forall sc n nval p s pv sv lo up ss sp act dim arg parg epochs e l pars sims rs st d m out,
    train_ef sc n nval p s pv sv lo up ss sp act dim arg parg epochs = Ok e -> init sc n nval 1 p s pv sv = Ok l -> train l = Some (pars, sims) ->
    get_statistics_ef f32 e rs = Ok st -> statistics sc d = Ok m -> embedding f32 st d = Ok out ->
    let ref := match e_valid e with Some v => v | None => sims end in let refin := match e_vinputs e with Some v => v | None => e_inputs e end in
    (~ (lo = None /\ up = None /\ ss = false) -> Exact32 f32 m /\ (rs = true -> Exact32 f32 ref)) -> (rs = true -> Rect ref /\ mrows ref <> []) ->
    exists c w, e_net e = Plain c w false /\ forall f, Computes c w f ->
    forall i r, nth_error (mrows m) i = Some r ->
    forall j, nth_error (mrows sims) j = Some r -> exists x, nth_error (mrows (e_inputs e)) j = Some x
    /\ nth_error (mrows out) i = Some (if rs then divided (removelast (f x)) (map (fun k => xstd (map (fun z => nth k (removelast (f z)) XNaN) (mrows refin))) (seq 0 (nout c - 1))) else removelast (f x)).
  Proof.
    intros sc n nval p s pv sv lo up ss sp act dim arg parg epochs e l pars sims rs st d m out H Hl Ht Hst Hm Hout ref refin Hx Hr.
    destruct (train_ef_inv _ _ _ _ _ _ _ _ _ _ _ _ _ _ _ _ _ H) as (l' & pars' & sims' & osc & x & xv & c & w & E1 & E2 & Eo & E5 & E6 & E7 & ->).
    rewrite Hl in E1. injection E1 as <-. rewrite Ht in E2. injection E2 as <- <-. cbn [e_net e_valid e_vinputs e_inputs e_train e_scaler e_calc] in *. exists c, w. split; [reflexivity|]. intros f Hf i r Hi j Hj.
    assert (Hx' : osc <> None -> Exact32 f32 m) by (intros Ho; apply Hx; intros E; apply Ho, Eo, E).
    unfold get_statistics_ef in Hst. cbn [e_net e_valid e_vinputs e_inputs e_train e_scaler e_calc] in Hst. cbv zeta in Hst. set (N := match osc with Some s => Scaled (Discard (Plain c w false)) s | None => Discard (Plain c w false) end) in *.
    destruct rs.
    - destruct (Hr eq_refl) as (Hrect & Href). unfold new_embedding in Hst. fold ref in Hst.
      assert (Hci : check_input (PList (map Vec (mrows ref))) = Ok ref).
      { rewrite (input_vecs (mcols ref) (mrows ref) Href Hrect). destruct ref; reflexivity. }
      destruct (embedding f32 (mknstats N 1 false None None) (PList (map Vec (mrows ref)))) as [rm|] eqn:Er; [|discriminate]. injection Hst as <-. cbn [nnet ndegree ncross nsd] in Hout.
      unfold embedding in Er. cbn [nprev nnet ndegree ncross nsd] in Er. rewrite Hci in Er. destruct (forward f32 N (to32 f32 ref)) as [ry|e'] eqn:Ery; [|destruct e'; discriminate]. cbn [rescale] in Er. rewrite poly1 in Er. injection Er as <-.
      unfold embedding in Hout. cbn [nprev nnet ndegree ncross nsd] in Hout. rewrite Hm in Hout. destruct (forward f32 N (to32 f32 m)) as [y|e'] eqn:Ey; [|destruct e'; discriminate]. rewrite poly1 in Hout. unfold rescale in Hout.
      destruct (negb (mcols y =? length (std0 ry))); [discriminate|]. injection Hout as <-. cbn [mrows].
      destruct (discard_forward osc m sims x c w f N E5 Hf Hx' eq_refl y Ey) as (g & Hyc & Hyr & Hg).
      assert (Hxr : exists zr, optscale f32 osc ref = Ok zr /\ refin = to32 f32 zr).
      { unfold ref, refin. destruct (validation l) as [[pm sm]|] eqn:Ev; cbn [option_map snd].
        - destruct (E6 pm sm eq_refl) as (z & Ez & ->). exists z. split; [exact Ez | reflexivity].
        - rewrite (E7 eq_refl). exists x. split; [exact E5 | reflexivity]. }
      destruct Hxr as (zr & Ezr & Erin). destruct (discard_forward osc ref ref zr c w f N Ezr Hf) with (y := ry) as (g' & Hrc & Hrr & Hg'); [intros Ho; apply Hx; [intros E; apply Ho, Eo, E | reflexivity] | reflexivity | exact Ery|].
      exists (g r). rewrite Hg, nth_error_map', Hj. split; [reflexivity|]. rewrite Hyr, map_map, nth_error_map', Hi. unfold divided. do 4 f_equal. unfold std0. rewrite Hrc. apply map_ext. intros k'. unfold M_Stats.column. rewrite Hrr, Erin, Hg', !map_map. reflexivity.
    - injection Hst as <-. unfold embedding in Hout. cbn [nprev nnet ndegree ncross nsd] in Hout. rewrite Hm in Hout. destruct (forward f32 N (to32 f32 m)) as [y|e'] eqn:Ey; [|destruct e'; discriminate]. cbn [rescale] in Hout. rewrite poly1 in Hout. injection Hout as <-.
      destruct (discard_forward osc m sims x c w f N E5 Hf Hx' eq_refl y Ey) as (g & Hyc & Hyr & Hg). exists (g r). rewrite Hg, nth_error_map', Hj. split; [reflexivity|]. rewrite Hyr, nth_error_map', Hi. reflexivity.
  Qed.

  (** C68.  Default networks: as many inputs as there are statistics, as many outputs as there are parameters; for the exponential family the embedding dimension (by default the number of
      parameters) plus the one output that is dropped, so that there are as many learned statistics as the embedding dimension says. *)
  Theorem C68_default_networks : forall sc n nval p s pv sv lo up ss sp act dim h parg epochs e l pars sims,
    train_ef sc n nval p s pv sv lo up ss sp act dim (Sizes h) parg epochs = Ok e -> init sc n nval 1 p s pv sv = Ok l -> train l = Some (pars, sims) ->
    let D := match dim with Some d => d | None => mcols pars end in
    (exists w, e_net e = Plain (default_class act (mcols sims) (D + 1) h) w false)
    /\ forall rs st d out, get_statistics_ef f32 e rs = Ok st -> embedding f32 st d = Ok out -> mcols out = D.
  Proof.
    intros sc n nval p s pv sv lo up ss sp act dim h parg epochs e l pars sims H Hl Ht D.
    assert (Hn : exists w, e_net e = Plain (default_class act (mcols sims) (D + 1) h) w false).
    { unfold M_Pipeline.train_ef in H. destruct (negb (bounds_ok lo up)); [discriminate|]. rewrite Hl, Ht in H. cbv zeta in H.
      destruct (match lo, up, ss with None, None, false => Ok None | _, _, _ => _ end) as [osc|]; [|discriminate].
      destruct (optscale f32 osc sims) as [x|] eqn:Ex; [|discriminate]. assert (Ew : mcols x = mcols sims). { destruct osc as [q|]; cbn [optscale] in Ex; [|injection Ex as <-; reflexivity]. destruct (scale_rows _ _ _ _ Ex) as (g & Eg & _). exact Eg. }
      destruct (match validation l with Some (_, sm) => match optscale f32 osc sm with Err e => Err e | Ok x => Ok (Some x) end | None => Ok None end) as [xv|]; [|discriminate].
      destruct (if sp then match fit_minmax pars with Err e => Err e | Ok s => Ok (Some s) end else Ok None) as [psc|]; [|discriminate].
      destruct (optscale f32 psc pars) as [y|] eqn:Ey; [|discriminate]. assert (Ewy : mcols y = mcols pars). { destruct psc as [q|]; cbn [optscale] in Ey; [|injection Ey as <-; reflexivity]. destruct (scale_rows _ _ _ _ Ey) as (g & Eg & _). exact Eg. }
      destruct (match validation l with Some (pm, _) => match optscale f32 psc pm with Err e => Err e | Ok x => Ok (Some x) end | None => Ok None end) as [yv|]; [|discriminate].
      rewrite Ew, Ewy in H. fold D in H. destruct parg as [c1 w1 b1|h1|]; [| |discriminate]; cbv iota in H; destruct (optimise2 _ _ _ _ _ _ _) as [w'|]; try discriminate; injection H as <-; exists w'; reflexivity. }
    split; [exact Hn|]. destruct Hn as (w & Hn). intros rs st d out Hst Hout.
    assert (Hnet : forall m y, forward f32 (match e_scaler e with Some s => Scaled (Discard (e_net e)) s | None => Discard (e_net e) end) m = Ok y -> mcols y = D).
    { intros m y Hy. rewrite Hn in Hy. destruct (e_scaler e) as [q|]; cbn [forward] in Hy; [destruct (scale f32 q m); [|discriminate]|]; (destruct (negb _); [discriminate|]; injection Hy as <-; cbn [mcols default_class nout]; lia). }
    assert (Hgen : forall sd prev, embedding f32 (mknstats (match e_scaler e with Some s => Scaled (Discard (e_net e)) s | None => Discard (e_net e) end) 1 false sd prev) d = Ok out -> mcols out = D).
    { intros sd prev Ho. unfold embedding in Ho. cbn [nprev nnet ndegree ncross nsd] in Ho. destruct (match prev with Some p => statistics p d | None => check_input d end) as [m|]; [|discriminate].
      destruct (forward f32 _ (to32 f32 m)) as [y|e'] eqn:Ey; [|destruct e'; discriminate]. rewrite poly1 in Ho. apply Hnet in Ey. destruct sd as [sd|]; cbn [rescale] in Ho; [destruct (negb _); [discriminate|]|]; injection Ho as <-; exact Ey. }
    unfold get_statistics_ef in Hst. cbv zeta in Hst. destruct rs.
    - unfold new_embedding in Hst. destruct (embedding _ _ _) as [rm|]; [|discriminate]. injection Hst as <-. cbn [nnet ndegree ncross nsd] in Hout. exact (Hgen _ _ Hout).
    - injection Hst as <-. exact (Hgen _ _ Hout).
  Qed.
End C68.
Print Assumptions C68_served.
Print Assumptions C68_training_data.
Print Assumptions C68_scaling.
Print Assumptions C68_mode.
Print Assumptions C68_expfam.
Print Assumptions C68_default_networks.
