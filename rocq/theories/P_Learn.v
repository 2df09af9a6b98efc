(** C62: the training data for learning statistics pair each parameter with its own simulations; the linear method. *)
From Coq Require Import Reals Lra.
From Verif Require Import M_Base M_Num M_XReal M_Stats M_Journal S_Stats L_PMC L_Stats P_Stats L_Journal2 M_Learn.
Open Scope nat_scope.

(** *** Helpers *)
Lemma flat_map_len_const {A B} (f : A -> list B) k l : (forall x, In x l -> length (f x) = k) -> length (flat_map f l) = length l * k.
Proof. induction l as [|x l IH]; intros H; [reflexivity|]. cbn [flat_map length]. rewrite app_length, (H x (or_introl eq_refl)), IH; [lia|]. intros y Hy. apply H. now right. Qed.
Lemma combine_app' {A B} : forall (a a' : list A) (b b' : list B), length a = length b -> combine (a ++ a') (b ++ b') = combine a b ++ combine a' b'.
Proof. induction a as [|x a IH]; intros a' [|y b] b' H; try discriminate; [reflexivity|]. cbn [app combine]. f_equal. apply IH. now injection H. Qed.
Lemma combine_repeat {A B} (x : A) (ys : list B) : combine (repeat x (length ys)) ys = map (fun y => (x, y)) ys.
Proof. induction ys as [|y ys IH]; [reflexivity|]. cbn [length repeat combine map]. now rewrite IH. Qed.
Lemma F2_map_eq {A B} (f : A -> res B) l ys : Forall2 (fun x y => f x = Ok y) l ys -> length l = length ys.
Proof. induction 1; cbn; congruence. Qed.

Section C62.
  Variable draw : Z -> res (list (list xr) * option (list (list (list xr)))).
  Variable randints : nat -> list Z.
  (** [d] is what the workers draw for the seeds: parameters and the simulations of the one root model *)
  Definition drawn (k w np : nat) (seeds : list Z) (ds : list (list (list xr) * list (list xr))) : Prop :=
    Forall2 (fun s d => draw s = Ok (fst d, Some [snd d])) seeds ds
    /\ forall d, In d ds -> length (snd d) = k /\ length (fst d) = np /\ forall v, In v (fst d) -> length v = w.

  Lemma general sc n nval k w np q (row : list xr -> list xr) ds : 0 < k -> 2 <= n + nval -> (Z.of_nat (n + nval) * Z.of_nat (n + nval) <= 2147483648)%Z -> length (randints (n + nval)) = n + nval ->
    drawn k w np (randints (n + nval)) ds ->
    (forall d y, In d ds -> In y (snd d) -> length (row y) = q) ->
    (forall d, In d ds -> statistics sc (PList [Vec (concat (snd d))]) = Ok (mkmat (k * q) [concat (map row (snd d))])) ->
    exists P S Pv Sv, init draw randints sc n nval k None None None None = Ok (mklearned (Some (P, S)) (Some (Pv, Sv)))
    /\ length (mrows P) = n * k /\ length (mrows S) = n * k /\ length (mrows Pv) = nval * k /\ length (mrows Sv) = nval * k
    /\ combine (mrows P ++ mrows Pv) (mrows S ++ mrows Sv) = flat_map (fun d => map (fun y => (concat (fst d), row y)) (snd d)) ds.
  Proof.
    intros Hk Hn Hz Hlen (Hd & Hs) Hrow Hst. set (N := n + nval) in *.
    assert (HN : length ds = N). { rewrite <- Hlen. symmetry. clear -Hd. induction Hd; cbn; congruence. }
    assert (E1 : mapR (sample_one draw sc) (randints N) = Ok (map (fun d => (fst d, mkmat (k * q) [concat (map row (snd d))])) ds)).
    { apply mapR_Ok. clear -Hd Hst. induction Hd as [|s d ss ds Hsd _ IH]; [constructor|]. cbn [map]. constructor.
      - unfold sample_one. rewrite Hsd. cbn [map]. rewrite (Hst d (or_introl eq_refl)). reflexivity.
      - apply IH. intros d' Hin. apply Hst. now right. }
    destruct ds as [|d0 ds'] eqn:Eds; [cbn in HN; lia|]. rewrite <- Eds in *. assert (Hd0 : In d0 ds) by (rewrite Eds; now left). pose proof (Hs d0 Hd0) as (_ & Hp0 & Hw0).
    assert (E2 : stack_params (map fst ds) = Ok (mkmat (np * length (nth 0 (fst d0) [])) (map (fun d => concat (fst d)) ds))).
    { unfold stack_params. rewrite Eds. cbn [map]. rewrite <- Hp0 at 1.
      assert (F : forallb (fun q0 => (length q0 =? length (fst d0)) && forallb (fun v => length v =? length (nth 0 (fst d0) [])) q0) (fst d0 :: map fst ds') = true).
      { change (fst d0 :: map fst ds') with (map fst (d0 :: ds')). rewrite <- Eds. apply forallb_forall. intros p Hp. apply in_map_iff in Hp. destruct Hp as (d & <- & Hin). destruct (Hs d Hin) as (_ & A & B). apply andb_true_iff. split; [apply Nat.eqb_eq; lia|]. apply forallb_forall. intros v Hv. apply Nat.eqb_eq. rewrite (B v Hv).
        destruct (fst d0) as [|v0 p0] eqn:E0; [cbn in Hp0; subst np; destruct (fst d); [contradiction | discriminate]|]. cbn [nth]. symmetry. apply Hw0. now left. }
      rewrite F. f_equal. f_equal. now rewrite map_map. }
    assert (E3 : vstack (map (fun d => mkmat (k * q) [concat (map row (snd d))]) ds) = Ok (mkmat (k * q) (map (fun d => concat (map row (snd d))) ds))).
    { unfold vstack. rewrite Eds. cbn [map mcols]. assert (F : forallb (fun m' => mcols m' =? k * q) (map (fun d : list (list xr) * list (list xr) => mkmat (k * q) [concat (map row (snd d))]) ds') = true).
      { apply forallb_forall. intros m Hm. apply in_map_iff in Hm. destruct Hm as (d & <- & _). apply Nat.eqb_refl. }
      rewrite F. f_equal. f_equal. cbn [flat_map mrows app]. f_equal. clear. induction ds' as [|d ds IH]; [reflexivity|]. cbn [map flat_map mrows app]. now rewrite IH. }
    set (rows := flat_map (fun d => map row (snd d)) ds).
    assert (Hrows : Forall (fun v => length v = q) rows). { apply Forall_forall. intros v Hv. apply in_flat_map in Hv. destruct Hv as (d & Hin & Hv). apply in_map_iff in Hv. destruct Hv as (y & <- & Hy). now apply (Hrow d). }
    assert (Lrows : length rows = N * k). { unfold rows. rewrite (flat_map_len_const _ k); [now rewrite HN|]. intros d Hin. rewrite map_length. apply (Hs d Hin). }
    assert (E4 : reshape (N * k) (mkmat (k * q) (map (fun d => concat (map row (snd d))) ds)) = Ok (mkmat q rows)).
    { unfold reshape. cbn [mrows]. assert (Ec : concat (map (fun d => concat (map row (snd d))) ds) = concat rows).
      { unfold rows. clear. induction ds as [|d ds IH]; [reflexivity|]. cbn [map concat flat_map]. rewrite concat_app. now f_equal. }
      rewrite Ec, (concat_len q rows Hrows), Lrows. assert (N * k <> 0) by (apply Nat.neq_mul_0; lia). rewrite (proj2 (Nat.eqb_neq _ _)) by assumption. rewrite (Nat.mul_comm (N * k) q), Nat.mod_mul, Nat.div_mul by assumption. cbn [Nat.eqb]. rewrite <- Lrows, (chunk_concat q rows Hrows). reflexivity. }
    set (ps := flat_map (fun d => repeat (concat (fst d)) k) ds).
    assert (Lps : length ps = N * k). { unfold ps. rewrite (flat_map_len_const _ k); [now rewrite HN|]. intros d _. apply repeat_length. }
    assert (E5 : repeat_rows k (mkmat (np * length (nth 0 (fst d0) [])) (map (fun d => concat (fst d)) ds)) = mkmat (np * length (nth 0 (fst d0) [])) ps).
    { unfold repeat_rows. cbn [mcols mrows]. f_equal. unfold ps. clear. induction ds as [|d ds IH]; [reflexivity|]. cbn [map flat_map]. now rewrite IH. }
    exists (take (n * k) (mkmat (np * length (nth 0 (fst d0) [])) ps)), (take (n * k) (mkmat q rows)), (drop (n * k) (mkmat (np * length (nth 0 (fst d0) [])) ps)), (drop (n * k) (mkmat q rows)).
    split.
    { unfold init. cbn [Bool.eqb negb]. unfold generate. fold N. rewrite (proj2 (Nat.eqb_neq N 0)) by lia. rewrite (proj2 (Nat.eqb_neq N 1)) by lia. rewrite (proj2 (Z.ltb_ge _ _)) by exact Hz. cbn [orb]. rewrite E1, !map_map. cbn [fst snd].
      change (map (fun x => fst x) ds) with (map fst ds). rewrite E2, E3, E4, E5. reflexivity. }
    unfold take, drop. cbn [mrows]. rewrite !firstn_length, !skipn_length, Lps, Lrows. split; [unfold N; nia|]. split; [unfold N; nia|]. split; [unfold N; nia|]. split; [unfold N; nia|].
    rewrite !firstn_skipn. unfold ps, rows. assert (Hk' : forall d, In d ds -> length (snd d) = k) by (intros d Hin; apply (Hs d Hin)). clear -Hk'. induction ds as [|d ds IH]; [reflexivity|]. cbn [flat_map]. rewrite combine_app' by (rewrite repeat_length, map_length; symmetry; apply Hk'; now left). f_equal; [|apply IH; intros d' Hin; apply Hk'; now right].
    rewrite <- (Hk' d (or_introl eq_refl)). rewrite <- (map_length row (snd d)), combine_repeat, map_map. reflexivity.
  Qed.

  (** With statistics that keep the data as they are, the training and validation pairs are, in order, every parameter with each of its k simulations. *)
  Theorem C62_pairs :
    forall deg n nval k w np q ds, deg <= 1 -> 0 < k -> 2 <= n + nval -> (Z.of_nat (n + nval) * Z.of_nat (n + nval) <= 2147483648)%Z -> length (randints (n + nval)) = n + nval ->
    drawn k w np (randints (n + nval)) ds -> (forall d y, In d ds -> In y (snd d) -> length y = q) ->
    exists P S Pv Sv, init draw randints (mkstats Ident deg false None None) n nval k None None None None = Ok (mklearned (Some (P, S)) (Some (Pv, Sv)))
    /\ length (mrows P) = n * k /\ length (mrows S) = n * k /\ length (mrows Pv) = nval * k /\ length (mrows Sv) = nval * k
    /\ combine (mrows P ++ mrows Pv) (mrows S ++ mrows Sv) = flat_map (fun d => map (fun y => (concat (fst d), y)) (snd d)) ds.
  Proof.
    intros deg n nval k w np q ds Hdeg Hk Hn Hz Hlen Hd Hq. apply (general _ n nval k w np q (fun y => y) ds); try assumption.
    intros d Hin. cbn [statistics]. pose proof (input_vecs (k * q) [concat (snd d)]) as Ei. cbn [map] in Ei. rewrite Ei; [|discriminate|].
    - cbn [apply_kind rescale]. unfold poly. replace (deg - 1) with 0 by lia. cbn [seq fold_left andb]. now rewrite map_id.
    - constructor; [|constructor]. rewrite (concat_len q); [|apply Forall_forall; intros y Hy; now apply (Hq d)]. now rewrite (proj1 (proj2 Hd d Hin)).
  Qed.
  (** With one simulation per parameter, whatever the statistics calculator: every parameter with the statistics of its own simulation. *)
  Theorem C62_single :
    forall sc n nval w np q row ds, 2 <= n + nval -> (Z.of_nat (n + nval) * Z.of_nat (n + nval) <= 2147483648)%Z -> length (randints (n + nval)) = n + nval ->
    drawn 1 w np (randints (n + nval)) ds -> (forall d y, In d ds -> snd d = [y] -> length (row y) = q /\ statistics sc (PList [Vec y]) = Ok (mkmat q [row y])) ->
    exists P S Pv Sv, init draw randints sc n nval 1 None None None None = Ok (mklearned (Some (P, S)) (Some (Pv, Sv)))
    /\ length (mrows P) = n /\ length (mrows S) = n /\ length (mrows Pv) = nval /\ length (mrows Sv) = nval
    /\ combine (mrows P ++ mrows Pv) (mrows S ++ mrows Sv) = flat_map (fun d => map (fun y => (concat (fst d), row y)) (snd d)) ds.
  Proof.
    intros sc n nval w np q row ds Hn Hz Hlen Hd Hq. assert (H1 : forall d, In d ds -> exists y, snd d = [y]). { intros d Hin. destruct (proj2 Hd d Hin) as (L & _). destruct (snd d) as [|y [|]]; try discriminate. now exists y. }
    rewrite <- (Nat.mul_1_r n), <- (Nat.mul_1_r nval). rewrite <- (Nat.mul_1_r n) in Hn at 1. rewrite !Nat.mul_1_r in *. destruct (general sc n nval 1 w np q row ds) as (P & S & Pv & Sv & H); try assumption; [lia| | |].
    - intros d y Hin Hy. destruct (H1 d Hin) as (y' & E). rewrite E in Hy. destruct Hy as [<-|[]]. apply (Hq d y' Hin E).
    - intros d Hin. destruct (H1 d Hin) as (y & E). rewrite E. cbn [concat map]. rewrite !app_nil_r, Nat.mul_1_l. apply (Hq d y Hin E).
    - exists P, S, Pv, Sv. rewrite !Nat.mul_1_r in H. exact H.
  Qed.

  (** Provided data are used as given: the parameters unchanged, row i of the statistics computed from row i of the simulations alone; the sample size argument plays no role. *)
  Theorem C62_provided :
    forall sc n k pm sm, nets_ok sc -> length (mrows sm) = length (mrows pm) -> forall l, init draw randints sc n 0 k (Some (Array2 pm)) (Some (Array2 sm)) None None = Ok l ->
    exists st, l = mklearned (Some (pm, st)) None /\ length (mrows st) = length (mrows pm)
    /\ forall i r, nth_error (mrows sm) i = Some r -> exists o, nth_error (mrows st) i = Some o /\ statistics sc (PList [Vec r]) = Ok (mkmat (mcols st) [o]).
  Proof.
    intros sc n k pm sm Hn He l H. unfold init, generate in H. cbn [Bool.eqb negb Nat.add Nat.eqb] in H. unfold provided in H. rewrite He, Nat.eqb_refl in H. cbn [negb] in H. destruct (statistics sc (PList (map Vec (mrows sm)))) as [st|] eqn:Es; [|discriminate]. cbn [valid] in H. injection H as <-. exists st. split; [reflexivity|].
    destruct (C35_rows sc _ st Hn Es) as (A & _ & B). rewrite map_length in A. split; [lia|]. intros i r Hr. apply (B i (Vec r)). now rewrite nth_error_map, Hr.
  Qed.
  (** What is refused: parameters without simulations, other types, other shapes, different numbers of rows; generating exactly one sample or more than 46340; and a refused simulation. *)
  Theorem C62_refused :
    forall sc n nval k a b pv sv,
    (init draw randints sc n nval k (Some a) None pv sv = Err RuntimeError /\ init draw randints sc n nval k None (Some b) pv sv = Err RuntimeError)
    /\ (a = NotArray \/ b = NotArray -> init draw randints sc n 0 k (Some a) (Some b) None None = Err TypeError)
    /\ (forall p s, a = Array2 p -> b = Array2 s -> length (mrows p) <> length (mrows s) -> init draw randints sc n 0 k (Some a) (Some b) None None = Err RuntimeError)
    /\ (n + nval = 1 \/ (2147483648 < Z.of_nat (n + nval) * Z.of_nat (n + nval))%Z -> init draw randints sc n nval k None None None None = Err ValueError)
    /\ (forall s rest p, 2 <= n + nval -> (Z.of_nat (n + nval) * Z.of_nat (n + nval) <= 2147483648)%Z -> randints (n + nval) = s :: rest -> draw s = Ok (p, None) -> init draw randints sc n nval k None None None None = Err UnboundLocalError).
  Proof.
    intros sc n nval k a b pv sv. split; [split; reflexivity|]. split; [|split; [|split]].
    - intros H. unfold init, generate. cbn [Bool.eqb negb Nat.add Nat.eqb]. unfold provided. destruct a, b; try reflexivity; destruct H; discriminate.
    - intros p s -> -> H. unfold init, generate. cbn [Bool.eqb negb Nat.add Nat.eqb]. unfold provided. now rewrite (proj2 (Nat.eqb_neq _ _)) by lia.
    - intros H. unfold init, generate. cbn [Bool.eqb negb]. destruct H as [H|H].
      + rewrite H. reflexivity.
      + rewrite (proj2 (Nat.eqb_neq (n + nval) 0)) by (intros E; rewrite E in H; cbn in H; lia). rewrite (proj2 (Z.ltb_lt _ _) H), orb_true_r. reflexivity.
    - intros s rest p Hn Hz Es Ed. unfold init, generate. cbn [Bool.eqb negb]. rewrite (proj2 (Nat.eqb_neq (n + nval) 0)) by lia. rewrite (proj2 (Nat.eqb_neq (n + nval) 1)) by lia. rewrite (proj2 (Z.ltb_ge _ _) Hz). cbn [orb]. rewrite Es. cbn [mapR]. unfold sample_one. now rewrite Ed.
  Qed.
  (** The validation set: half of it alone is refused; a complete one is used as given, whether the training data are provided too or generated. *)
  Theorem C62_validation :
    forall sc n nval k p s, (forall a b, (p, s) = (Some a, None) \/ (p, s) = (None, Some b) -> False) ->
    (forall a, init draw randints sc n nval k p s (Some a) None = Err RuntimeError /\ init draw randints sc n nval k p s None (Some a) = Err RuntimeError)
    /\ forall pm sm, nets_ok sc -> forall l, init draw randints sc n nval k p s (Some (Array2 pm)) (Some (Array2 sm)) = Ok l ->
       length (mrows sm) = length (mrows pm) /\ (exists l0, init draw randints sc n 0 k p s None None = Ok l0 /\ train l = train l0)
       /\ exists st, valid l = Some (pm, st) /\ length (mrows st) = length (mrows pm)
       /\ forall i r, nth_error (mrows sm) i = Some r -> exists o, nth_error (mrows st) i = Some o /\ statistics sc (PList [Vec r]) = Ok (mkmat (mcols st) [o]).
  Proof.
    intros sc n nval k p s Hps. assert (G : (p = None /\ s = None) \/ exists a b, p = Some a /\ s = Some b).
    { destruct p as [a|], s as [b|]; [right; now exists a, b | exfalso; now apply (Hps a a); left | exfalso; now apply (Hps b b); right | now left]. }
    split.
    - intros a. unfold init. destruct G as [[-> ->]|(x & y & -> & ->)]; split; reflexivity.
    - intros pm sm Hn l H. unfold init in *. cbn [Bool.eqb negb] in *.
      assert (Eg : forall h, generate draw randints sc n nval k h true = generate draw randints sc n 0 k h false) by (intros h; reflexivity). rewrite Eg in H.
      assert (Q : exists l0, match generate draw randints sc n 0 k (match p with Some _ => true | None => false end) false with Err e => Err e | Ok l => match p, s with Some a, Some b => match provided sc a b with Err e => Err e | Ok d => Ok (mklearned (Some d) (valid l)) end | _, _ => Ok l end end = Ok l0
                  /\ match provided sc (Array2 pm) (Array2 sm) with Err e => Err e | Ok d => Ok (mklearned (train l0) (Some d)) end = Ok l).
      { destruct G as [[-> ->]|(x & y & -> & ->)]; cbn [Bool.eqb negb] in *; destruct (generate _ _ _ _ _ _ _ _) as [l1|]; try discriminate.
        - exists l1. split; [reflexivity | exact H].
        - destruct (provided sc x y) as [d|]; try discriminate. eexists. split; [reflexivity | exact H]. }
      destruct Q as (l0 & E0 & Q). unfold provided in Q at 1. destruct (Nat.eqb_spec (length (mrows sm)) (length (mrows pm))) as [He|He]; cbn [negb] in Q; [|discriminate].
      destruct (statistics sc (PList (map Vec (mrows sm)))) as [st|] eqn:Es; [|discriminate]. injection Q as <-. split; [exact He|]. split.
      + exists l0. split; [|reflexivity]. destruct G as [[-> ->]|(x & y & -> & ->)]; cbn [Bool.eqb negb] in *; destruct (generate _ _ _ _ _ _ _ _) as [l1|]; try discriminate; [exact E0|].
        destruct (provided sc x y); [exact E0 | discriminate].
      + exists st. split; [reflexivity|]. destruct (C35_rows sc _ st Hn Es) as (A & _ & B). rewrite map_length in A. split; [lia|]. intros i r Hr. apply (B i (Vec r)). now rewrite nth_error_map, Hr.
  Qed.
End C62.
Print Assumptions C62_validation.
Print Assumptions C62_pairs.
Print Assumptions C62_single.
Print Assumptions C62_provided.
Print Assumptions C62_refused.

(** Two simulations per parameter and quadratic statistics: the two rows paired with the parameter are the two simulations together and their two squares, instead of one
    simulation with its square in each row. *)
Definition toy_draw (s : Z) : res (list (list xr) * option (list (list (list xr)))) := Ok ([[XR (IZR s)]], Some [[[XR 2]; [XR 3]]]).
Definition toy_seeds (n : nat) : list Z := [5%Z; 7%Z].
Theorem C62_mixed_refuted : exists P S V, init toy_draw toy_seeds (mkstats Ident 2 false None None) 2 0 2 None None None None = Ok (mklearned (Some (P, S)) V)
  /\ mrows S = [[XR 2; XR 3]; [XR (2 * 2); XR (3 * 3)]; [XR 2; XR 3]; [XR (2 * 2); XR (3 * 3)]]
  /\ statistics (mkstats Ident 2 false None None) (PList [Vec [XR 2]]) = Ok (mkmat 2 [[XR 2; XR (2 * 2)]]).
Proof. eexists. eexists. eexists. split; [|split]; [cbv -[IZR Rmult Z.mul]; reflexivity | reflexivity | reflexivity]. Qed.
Print Assumptions C62_mixed_refuted.
(** Two root models and two simulations per parameter: the first row has the two simulations of the first model, the second those of the other model. *)
Definition toy_draw2 (s : Z) : res (list (list xr) * option (list (list (list xr)))) := Ok ([[XR (IZR s)]], Some [[[XR 2]; [XR 3]]; [[XR 20]; [XR 30]]]).
Theorem C62_roots_refuted : exists P S V, init toy_draw2 toy_seeds (mkstats Ident 1 false None None) 2 0 2 None None None None = Ok (mklearned (Some (P, S)) V)
  /\ mrows S = [[XR 2; XR 3]; [XR 20; XR 30]; [XR 2; XR 3]; [XR 20; XR 30]].
Proof. eexists. eexists. eexists. split; [cbv -[IZR Rmult]; reflexivity | reflexivity]. Qed.
Print Assumptions C62_roots_refuted.

(** *** The linear method *)
Definition dotp (a b : list R) : R := total (map (fun xy => (fst xy * snd xy)%R) (combine a b)).
Lemma dotp_seq : forall a b p, length a = p -> length b = p -> dotp a b = total (map (fun i => (nth i a 0 * nth i b 0)%R) (seq 0 p)).
Proof.
  induction a as [|x a IH]; intros [|y b] [|p] Ha Hb; try discriminate; [reflexivity|]. unfold dotp. cbn [combine map seq fst snd nth]. rewrite <- seq_shift, map_map. cbn [nth]. unfold total. cbn [fold_right]. fold (dotp a b). f_equal. apply IH; cbn in *; lia.
Qed.
(** The learned statistic number j of a data set is the inner product of its original statistics with the j-th vector of regression coefficients. *)
Theorem C62_linear :
  forall sc width (coefs rows : list (list R)) d, statistics sc d = Ok (mkmat width (map (map XR) rows)) -> Forall (fun c => length c = width) coefs -> Forall (fun r => length r = width) rows ->
  statistics (semi_statistics sc width (map (map XR) coefs)) d = Ok (mkmat (length coefs) (map (fun r => map (fun c => XR (dotp r c)) coefs) rows)).
Proof.
  intros sc width coefs rows d Hs Hc Hr. unfold semi_statistics. cbn [statistics]. rewrite Hs. unfold transpose. rewrite map_length.
  assert (E : map (fun j => map (fun r => nth j r XNaN) (map (map XR) coefs)) (seq 0 width) = map (map XR) (map (fun j => map (fun c => nth j c 0%R) coefs) (seq 0 width))).
  { rewrite map_map. apply map_ext_in. intros j Hj. apply in_seq in Hj. rewrite !map_map. apply map_ext_in. intros c Hin. rewrite Forall_forall in Hc. rewrite (nth_indep _ XNaN (XR 0)) by (rewrite map_length, (Hc c Hin); lia). apply (map_nth XR). }
  rewrite E. set (T := map (fun j => map (fun c => nth j c 0%R) coefs) (seq 0 width)). assert (LT : length T = width) by (unfold T; now rewrite map_length, seq_length).
  destruct (C35_linear (length coefs) T (mkmat width (map (map XR) rows))) as (_ & H). rewrite (H ltac:(apply Forall_forall; intros r Hin; unfold T in Hin; apply in_map_iff in Hin; destruct Hin as (j & <- & _); apply map_length) rows ltac:(now rewrite LT) ltac:(now rewrite LT)).
  cbn [rescale]. unfold poly. cbn [Nat.sub seq fold_left andb]. f_equal. f_equal. apply map_ext_in. intros r Hin. rewrite Forall_forall in Hr, Hc. rewrite LT.
  transitivity (map (fun j => XR (dotp r (nth j coefs []))) (seq 0 (length coefs))).
  - apply map_ext_in. intros j Hj. apply in_seq in Hj. f_equal. rewrite (dotp_seq r _ width (Hr r Hin)) by (apply Hc, nth_In; lia). f_equal. apply map_ext_in. intros i Hi. apply in_seq in Hi. f_equal. unfold T.
    set (f := fun j0 => map (fun c => nth j0 c 0%R) coefs). rewrite (nth_indep _ [] (f 0)) by (rewrite map_length, seq_length; lia). rewrite map_nth, seq_nth by lia. unfold f. cbn [Nat.add]. set (g := fun c => nth i c 0%R). rewrite (nth_indep _ 0%R (g [])) by (rewrite map_length; lia). rewrite map_nth. reflexivity.
  - clear. induction coefs as [|c coefs IH]; [reflexivity|]. cbn [length seq map nth]. f_equal. rewrite <- seq_shift, map_map. cbn [nth]. exact IH.
Qed.
Print Assumptions C62_linear.

(** Least squares: the coefficients, with some intercept, make the sum of squared residuals smallest. *)
Definition residuals (xs : list (list R)) (ys : list R) (c : list R) (b : R) : R := total (map (fun xy => (snd xy - (dotp (fst xy) c + b)) ^ 2)%R (combine xs ys)).
Definition least_squares (regress : list (list xr) -> list xr -> list xr) (width : nat) (xs : list (list R)) (ys : list R) : Prop :=
  exists c b, regress (map (map XR) xs) (map XR ys) = map XR c /\ length c = width /\ forall c' b', length c' = width -> (residuals xs ys c b <= residuals xs ys c' b')%R.
Lemma residuals_zero xs ys c b : length xs = length ys -> residuals xs ys c b = 0%R -> forall i x y, nth_error xs i = Some x -> nth_error ys i = Some y -> y = (dotp x c + b)%R.
Proof.
  revert ys. induction xs as [|x0 xs IH]; intros [|y0 ys] Hl H [|i] x y Hx Hy; try discriminate; unfold residuals in H; cbn [combine map fst snd] in H; unfold total in H; cbn [fold_right] in H; fold (total (map (fun xy => (snd xy - (dotp (fst xy) c + b)) ^ 2)%R (combine xs ys))) in H.
  - cbn in Hx, Hy. injection Hx as <-. injection Hy as <-. assert (Hn : (0 <= total (map (fun xy => (snd xy - (dotp (fst xy) c + b)) ^ 2)%R (combine xs ys)))%R) by (apply total_nonneg, Forall_map, Forall_forall; intros p _; apply sq_nonneg).
    pose proof (sq_nonneg (y0 - (dotp x0 c + b))) as H0. assert (Z : ((y0 - (dotp x0 c + b)) ^ 2 = 0)%R) by lra. destruct (Req_dec (y0 - (dotp x0 c + b)) 0) as [|Hne]; [lra|]. exfalso. exact (pow_nonzero _ 2 Hne Z).
  - cbn in Hx, Hy. apply (IH ys ltac:(now injection Hl)) with (i := i); try assumption. unfold residuals. assert (Hn : (0 <= total (map (fun xy => (snd xy - (dotp (fst xy) c + b)) ^ 2)%R (combine xs ys)))%R) by (apply total_nonneg, Forall_map, Forall_forall; intros p _; apply sq_nonneg).
    pose proof (sq_nonneg (y0 - (dotp x0 c + b))) as H0. lra.
Qed.
(** If the parameters of the training set are affine functions of the statistics, the learned statistics are the parameters up to one constant per parameter. *)
Theorem C62_semiautomatic :
  forall draw randints regress sc n k p s P (xs : list (list R)) (ys : list (list R)) width coefs v,
  (forall j, j < P -> least_squares regress width xs (map (fun y => nth j y 0%R) ys)) -> init draw randints sc n 0 k p s None None = Ok (mklearned (Some (mkmat P (map (map XR) ys), mkmat width (map (map XR) xs))) v) ->
  xs <> [] -> length xs = length ys -> Forall (fun r => length r = width) xs -> Forall (fun r => length r = P) ys ->
  semiautomatic draw randints regress sc n k p s = Ok coefs ->
  (forall j, j < P -> exists c b, length c = width /\ forall i x y, nth_error xs i = Some x -> nth_error ys i = Some y -> nth j y 0%R = (dotp x c + b)%R) ->
  exists C shift, coefs = map (map XR) C /\ length C = P /\ Forall (fun c => length c = width) C
  /\ forall i x y, nth_error xs i = Some x -> nth_error ys i = Some y -> forall j, j < P -> nth j y 0%R = (dotp x (nth j C []) + shift j)%R.
Proof.
  intros draw randints regress sc n k p s P xs ys width coefs v HLS Hinit Hne Hl Hx Hy Hsem Haff. unfold semiautomatic in Hsem. rewrite Hinit in Hsem. cbn [train mcols mrows] in Hsem.
  destruct (map (map XR) xs) as [|r0 rs] eqn:Exs; [destruct xs; [congruence | discriminate]|]. rewrite <- Exs in Hsem. apply mapR_Ok in Hsem.
  assert (Hcol : forall j, j < P -> M_Stats.column (mkmat P (map (map XR) ys)) j = map XR (map (fun y => nth j y 0%R) ys)).
  { intros j Hj. unfold M_Stats.column. cbn [mrows]. rewrite !map_map. apply map_ext_in. intros y Hin. rewrite Forall_forall in Hy. rewrite (nth_indep _ XNaN (XR 0)) by (rewrite map_length, (Hy y Hin); lia). apply (map_nth XR). }
  assert (One : forall j, j < P -> exists c b, regress (map (map XR) xs) (M_Stats.column (mkmat P (map (map XR) ys)) j) = map XR c /\ length c = width /\ forall i x y, nth_error xs i = Some x -> nth_error ys i = Some y -> nth j y 0%R = (dotp x c + b)%R).
  { intros j Hj. destruct (HLS j Hj) as (c & b & Er & Lc & Hmin). exists c, b. rewrite (Hcol j Hj). split; [exact Er|]. split; [exact Lc|].
    destruct (Haff j Hj) as (c' & b' & Lc' & Hex). pose proof (Hmin c' b' Lc') as Hle. assert (Z : residuals xs (map (fun y => nth j y 0%R) ys) c' b' = 0%R).
    { unfold residuals. assert (G : forall l, (forall x y, In (x, y) l -> y = dotp x c' + b')%R -> total (map (fun xy => (snd xy - (dotp (fst xy) c' + b')) ^ 2)%R l) = 0%R).
      { clear. induction l as [|[x y] l IH]; intros H; [reflexivity|]. cbn [map fst snd]. unfold total. cbn [fold_right]. fold (total (map (fun xy => (snd xy - (dotp (fst xy) c' + b')) ^ 2)%R l)). rewrite IH by (intros; apply H; now right). rewrite (H x y (or_introl eq_refl)). ring. }
      apply G. intros x y Hin. apply In_nth_error in Hin. destruct Hin as (i & Hi). assert (A : nth_error xs i = Some x /\ nth_error (map (fun y => nth j y 0%R) ys) i = Some y).
      { clear -Hi. revert Hi. generalize (map (fun y => nth j y 0%R) ys). revert i. induction xs as [|a xs IH]; intros [|i] [|b l] Hi; cbn in *; try discriminate; [injection Hi as <- <-; split; reflexivity | now apply IH]. }
      destruct A as (A1 & A2). rewrite nth_error_map in A2. destruct (nth_error ys i) as [y0|] eqn:Ey; [|discriminate]. cbn in A2. injection A2 as <-. apply (Hex i x y0 A1 Ey). }
    assert (Hnn : (0 <= residuals xs (map (fun y => nth j y 0%R) ys) c b)%R) by (unfold residuals; apply total_nonneg, Forall_map, Forall_forall; intros q _; apply sq_nonneg).
    assert (Z' : residuals xs (map (fun y => nth j y 0%R) ys) c b = 0%R) by lra. intros i x y Hi Hj'. apply (residuals_zero xs (map (fun y => nth j y 0%R) ys) c b ltac:(now rewrite map_length) Z' i x (nth j y 0%R) Hi). now rewrite nth_error_map, Hj'. }
  clear Haff HLS Hinit Hcol.
  assert (G : forall m a, a + m <= P -> forall cs, Forall2 (fun j c => (if length (regress (map (map XR) xs) (M_Stats.column (mkmat P (map (map XR) ys)) j)) =? width then Ok (regress (map (map XR) xs) (M_Stats.column (mkmat P (map (map XR) ys)) j)) else Err ValueError) = Ok c) (seq a m) cs ->
     exists C shift, cs = map (map XR) C /\ length C = m /\ Forall (fun c => length c = width) C /\ forall i x y, nth_error xs i = Some x -> nth_error ys i = Some y -> forall j, j < m -> nth (a + j) y 0%R = (dotp x (nth j C []) + shift j)%R).
  { induction m as [|m IH]; intros a Ha cs HF.
    - inversion HF; subst. exists [], (fun _ => 0%R). split; [reflexivity|]. split; [reflexivity|]. split; [constructor|]. intros; lia.
    - cbn [seq] in HF. inversion HF as [|? c ? cs' Hc HF' E1 E2]; subst. destruct (IH (S a) ltac:(lia) cs' HF') as (C & sh & -> & LC & FC & Hall). destruct (One a ltac:(lia)) as (c0 & b & Er & Lc & Hex). rewrite Er, map_length, Lc, Nat.eqb_refl in Hc. injection Hc as <-.
      exists (c0 :: C), (fun j => match j with 0 => b | S j' => sh j' end). split; [reflexivity|]. split; [cbn; lia|]. split; [now constructor|]. intros i x y Hi Hj [|j] Hlt; cbn [nth]; [rewrite Nat.add_0_r; apply (Hex i x y Hi Hj)|]. rewrite Nat.add_succ_r. apply (Hall i x y Hi Hj j). lia. }
  rewrite Exs in Hsem. rewrite <- Exs in Hsem. destruct (G P 0 ltac:(lia) coefs Hsem) as (C & sh & A & B & D & E). exists C, sh. split; [exact A|]. split; [exact B|]. split; [exact D|]. exact E.
Qed.
Print Assumptions C62_semiautomatic.

(** Two seeds, one parameter, two simulations each. *)
Example C62_case : exists P S Pv Sv, init toy_draw toy_seeds (mkstats Ident 1 false None None) 1 1 2 None None None None = Ok (mklearned (Some (P, S)) (Some (Pv, Sv)))
  /\ combine (mrows P ++ mrows Pv) (mrows S ++ mrows Sv) = [([XR (IZR 5)], [XR 2]); ([XR (IZR 5)], [XR 3]); ([XR (IZR 7)], [XR 2]); ([XR (IZR 7)], [XR 3])].
Proof.
  destruct (C62_pairs toy_draw toy_seeds 1 1 1 2 1 1 1 [([[XR (IZR 5)]], [[XR 2]; [XR 3]]); ([[XR (IZR 7)]], [[XR 2]; [XR 3]])]) as (P & S & Pv & Sv & E & _ & _ & _ & _ & H); try lia; try reflexivity.
  - split; [repeat constructor|]. intros d [<-|[<-|[]]]; (split; [reflexivity|]; split; [reflexivity|]; intros v [<-|[]]; reflexivity).
  - intros d y [<-|[<-|[]]] [<-|[<-|[]]]; reflexivity.
  - exists P, S, Pv, Sv. split; [exact E | exact H].
Qed.
(** Parameter twice the statistic plus one: the coefficient 2 is the least squares solution. *)
Example C62_case_semi : let xs := [[1]; [2]]%R in let ys := [[3]; [5]]%R in
  let p := Some (Array2 (mkmat 1 (map (map XR) ys))) in let s := Some (Array2 (mkmat 1 (map (map XR) xs))) in let regress := fun _ _ => [XR 2] in
  exists coefs, semiautomatic toy_draw toy_seeds regress (mkstats Ident 1 false None None) 10 1 p s = Ok coefs
  /\ (forall j, j < 1 -> least_squares regress 1 xs (map (fun y => nth j y 0%R) ys))
  /\ (forall j, j < 1 -> exists c b, length c = 1 /\ forall i x y, nth_error xs i = Some x -> nth_error ys i = Some y -> nth j y 0%R = (dotp x c + b)%R).
Proof.
  intros xs ys p s regress. exists [[XR 2]]. split; [reflexivity|]. split.
  - intros j Hj. destruct j as [|j]; [|lia]. exists [2%R], 1%R. split; [reflexivity|]. split; [reflexivity|]. intros c' b' Lc. replace (residuals xs (map (fun y => nth 0 y 0%R) ys) [2%R] 1) with 0%R by (unfold residuals, dotp, total; cbn; ring). unfold residuals. apply total_nonneg, Forall_map, Forall_forall. intros q _. apply sq_nonneg.
  - intros j Hj. destruct j as [|j]; [|lia]. exists [2%R], 1%R. split; [reflexivity|]. intros i x y Hx Hy. destruct i as [|[|i]]; cbn in Hx, Hy; [injection Hx as <-; injection Hy as <-; unfold dotp, total; cbn; ring | injection Hx as <-; injection Hy as <-; unfold dotp, total; cbn; ring | destruct i; discriminate].
Qed.
