(** Property C98: the Student t kernel reports the density of the perturbation it draws. *)
From Coquelicot Require Import Coquelicot.
From Coq Require Import Reals Lra.
From Verif Require Import M_Base M_Num M_XReal M_Transform M_Stats M_Priors L_PMC L_Stats M_MVPrior S_MVPrior L_MVPrior P_MVPrior P_MVPrior3 M_Kernel M_TKernel S_Mixture L_Mixture.
Open Scope R_scope.

(** rows with the same structure: numbers, or arrays of the same lengths *)
Definition SameShape (a b : kval) : Prop := match a, b with KS _, KS _ => True | KA l, KA l' => length l = length l' | _, _ => False end.
(** the numbers of a row *)
Definition numbers (row : list kval) : list R := flat_map (fun v => match v with KS q => [Q2R q] | KA l => map Q2R l end) row.
Definition AllNumbers (row : list kval) : Prop := Forall (fun v => match v with KS _ => True | _ => False end) row.
Definition AllArrays (row : list kval) : Prop := Forall (fun v => match v with KA _ => True | _ => False end) row.
Definition Row (row : list kval) : Prop := row <> [] /\ (AllNumbers row \/ AllArrays row).

Lemma all_scalars_ok row : AllNumbers row -> exists l, all_scalars row = Ok l /\ map Q2R l = numbers row.
Proof.
  induction row as [|[q|l] row IH]; intros H; [now exists []| |now inversion H]. inversion H as [|? ? _ Hr]; subst. destruct (IH Hr) as (l & E & E2). exists (q :: l). cbn [all_scalars]. rewrite E. split; [reflexivity|]. cbn. now rewrite E2.
Qed.
Lemma all_arrays_ok row : AllArrays row -> exists l, all_arrays row = Ok l /\ map Q2R (concat l) = numbers row.
Proof.
  induction row as [|[q|l] row IH]; intros H; [now exists []|now inversion H|]. inversion H as [|? ? _ Hr]; subst. destruct (IH Hr) as (ls & E & E2). exists (l :: ls). cbn [all_arrays]. rewrite E. split; [reflexivity|]. cbn [concat]. rewrite map_app, E2. reflexivity.
Qed.
Lemma shape_numbers a b : Forall2 SameShape a b -> AllNumbers a -> AllNumbers b.
Proof. intros H. induction H as [|x y a b Hxy H IH]; intros HA; [constructor|]. inversion HA; subst. constructor; [destruct x, y; cbn in *; auto | apply IH; assumption]. Qed.
Lemma shape_arrays a b : Forall2 SameShape a b -> AllArrays a -> AllArrays b.
Proof. intros H. induction H as [|x y a b Hxy H IH]; intros HA; [constructor|]. inversion HA; subst. constructor; [destruct x, y; cbn in *; auto | apply IH; assumption]. Qed.
Lemma shape_length a b : Forall2 SameShape a b -> length (numbers a) = length (numbers b).
Proof. intros H. induction H as [|x y a b Hxy H IH]; [reflexivity|]. unfold numbers in *. cbn [flat_map]. rewrite !app_length, IH. f_equal. destruct x, y; cbn in *; try contradiction; [reflexivity | now rewrite !map_length]. Qed.
Lemma shape_sym a b : Forall2 SameShape a b -> Forall2 SameShape b a.
Proof. intros H. induction H as [|x y a b Hxy H IH]; constructor; [destruct x, y; cbn in *; auto | assumption]. Qed.

(** what a density of a kernel is given *)
Lemma vec_pdf_rows D (dens : list Q -> smat -> list Q -> res D) c mean x : Row mean -> Forall2 SameShape mean x ->
  exists m v, map Q2R m = numbers mean /\ map Q2R v = numbers x /\ vec_pdf smat D dens (Some c) mean x = dens m c v /\ vec_pdf smat D dens (Some c) x mean = dens v c m.
Proof.
  intros (Hne & Hr) HS. destruct Hr as [Hr|Hr].
  - pose proof (shape_numbers _ _ HS Hr) as Hx. destruct (all_scalars_ok _ Hr) as (m & Em & Em2), (all_scalars_ok _ Hx) as (v & Ev & Ev2). exists m, v. split; [exact Em2|]. split; [exact Ev2|].
    destruct mean as [|[q|l] mean]; [congruence| |inversion Hr; contradiction]. destruct x as [|[q'|l'] x]; [inversion HS| |inversion Hx; contradiction]. unfold vec_pdf, flat. rewrite Em, Ev. split; reflexivity.
  - pose proof (shape_arrays _ _ HS Hr) as Hx. destruct (all_arrays_ok _ Hr) as (m & Em & Em2), (all_arrays_ok _ Hx) as (v & Ev & Ev2). exists (concat m), (concat v). split; [exact Em2|]. split; [exact Ev2|].
    destruct mean as [|[q|l] mean]; [congruence|inversion Hr; contradiction|]. destruct x as [|[q'|l'] x]; [inversion HS|inversion Hx; contradiction|]. unfold vec_pdf, flat. rewrite Em, Ev. split; reflexivity.
Qed.
Lemma nth_Q2R l i : Q2R (nth i l 0%Q) = nth i (map Q2R l) 0.
Proof. rewrite <- (map_nth Q2R). f_equal. unfold Q2R. cbn. ring. Qed.

(** C98.  At the point mean + L z, where L is the Cholesky factor of the matrix, the kernel reports the density of mean + L g / sqrt(c / df) with g standard normal and c chi-square distributed:
    the normal density for every c, averaged over c. *)
Theorem C98_density : forall gam det inv B n A L df mean x z, 0 < df -> 0 < gam (df / 2) -> 0 < gam ((df + INR n) / 2) -> GammaAt gam ((df + INR n) / 2) ->
  Factor n L A -> inv n A = Some B -> Inverse n A B -> det n A = prod n (fun i => L i i) * prod n (fun i => L i i) ->
  Row mean -> Forall2 SameShape mean x -> length (numbers mean) = n ->
  (forall i, (i < n)%nat -> nth i (numbers x) 0 = nth i (numbers mean) 0 + sigma n (fun k => L i k * z k)) ->
  exists d, vec_pdf smat xr (t_dens gam det inv (XR df)) (Some (n, A)) mean x = Ok (XR d) /\ 0 < d
    /\ integral_0_inf (fun c => chi_square gam df c * normal_density n L (/ sqrt (c / df)) z) d.
Proof.
  intros gam det inv B n A L df mean x z Hdf Hg Hg2 HG HF HB HI Hdet HR HS Hn Hx. exists (t_density gam n df L z). assert (Hp : 0 < prod n (fun i => L i i)) by (apply prod_pos; apply HF). assert (Hnn : 0 <= INR n) by apply pos_INR.
  split; [|split].
  - destruct (vec_pdf_rows xr (t_dens gam det inv (XR df)) (n, A) mean x HR HS) as (m & v & Em & Ev & E1 & _). refine (eq_trans E1 _). assert (Hm : length m = n) by (rewrite <- Hn, <- Em, map_length; reflexivity). assert (Hv : length v = n) by (rewrite <- Hn, (shape_length _ _ HS), <- Ev, map_length; reflexivity).
    unfold t_dens. cbv zeta. cbn [fst snd]. rewrite Hm, Hv, Nat.eqb_refl. cbn [negb]. rewrite HB.
    rewrite (inverse_form n L A B _ z HF HI) by (intros i Hi; rewrite !nth_Q2R, Em, Ev, Hx by exact Hi; ring). set (q := sigma n (fun k => z k * z k)).
    assert (Hq : 0 <= q) by (apply sigma_nonneg; intros; apply Rle_0_sqr). unfold x1. cbn [xadd]. rewrite !xdiv_fin by lra. cbn [xgam xmul xrpow xopp xadd].
    rewrite Hdet, Rabs_pos_eq by (apply Rlt_le, Rmult_lt_0_compat; exact Hp). rewrite sqrt_square by lra.
    rewrite xdiv_fin. 2:{ apply Rgt_not_eq. apply Rmult_lt_0_compat; [apply Rmult_lt_0_compat; [exact Hg | apply exp_pos] | exact Hp]. }
    cbn [xmul]. unfold t_density. fold q. f_equal. f_equal. f_equal. f_equal. field. lra.
  - unfold t_density. apply Rmult_lt_0_compat; [|apply exp_pos]. apply Rdiv_lt_0_compat; [exact Hg2|]. apply Rmult_lt_0_compat; [apply Rmult_lt_0_compat; [exact Hg | apply exp_pos] | exact Hp].
  - unfold t_density. apply mixture; assumption.
Qed.
Print Assumptions C98_density.

(** C98.  What the kernel draws: the current values plus the normal vector divided by the root of the chi-square number over its degrees of freedom, the same number for all coordinates;
    with infinitely many degrees of freedom the normal vector itself. *)
Theorem C98_draw : forall Rng (chisquare : R -> Rng -> Rng * R) normal0 df mean A r r1 r2 c g, let n := length mean in
  0 < df -> chisquare df r = (r1, c) -> 0 < c ->
  (normal0 n A r1 = (r2, g) -> length g = n ->
     exists y, t_draw chisquare normal0 (XR df) mean (n, A) r = (r2, Ok (map XR y)) /\ length y = n /\ forall i, (i < n)%nat -> nth i y 0 = nth i mean 0 + / sqrt (c / df) * nth i g 0)
  /\ (normal0 n A r = (r2, g) -> length g = n ->
     exists y, t_draw chisquare normal0 XInf mean (n, A) r = (r2, Ok (map XR y)) /\ length y = n /\ forall i, (i < n)%nat -> nth i y 0 = nth i mean 0 + nth i g 0).
Proof.
  intros Rng chisquare normal0 df mean A r r1 r2 c g n Hdf Hc Hc0. assert (Hq : 0 < c / df) by (apply Rdiv_lt_0_compat; assumption). assert (Hs := sqrt_lt_R0 _ Hq).
  assert (X : forall (f : R -> R -> R) s, (forall a b, xadd (XR a) (xdiv (XR b) (xsqrt s)) = XR (f a b)) -> length g = n ->
    let y := map (fun mz => f (fst mz) (snd mz)) (combine mean g) in
    map (fun mz => xadd (XR (fst mz)) (xdiv (XR (snd mz)) (xsqrt s))) (combine mean g) = map XR y /\ length y = n /\ forall i, (i < n)%nat -> nth i y 0 = f (nth i mean 0) (nth i g 0)).
  { intros f s Hf Hl y. split; [|split].
    - unfold y. rewrite map_map. apply map_ext. intros (a, b). cbn [fst snd]. apply Hf.
    - unfold y. rewrite map_length, combine_length. fold n. lia.
    - intros i Hi. unfold y. rewrite (nth_indep _ 0 (f (fst (0, 0)) (snd (0, 0)))) by (rewrite map_length, combine_length; fold n; lia). rewrite (map_nth (fun mz => f (fst mz) (snd mz))), combine_nth by (fold n; lia). reflexivity. }
  split; intros Hn Hl; unfold t_draw; cbv zeta; cbn [fst snd]; fold n.
  - destruct (Rlt_dec 0 df); [|lra]. rewrite Hc. rewrite Nat.eqb_refl. cbn [negb]. rewrite Hn. rewrite xdiv_fin by lra.
    destruct (X (fun a b => a + / sqrt (c / df) * b) (XR (c / df))) as (E & El & En); [intros a b; rewrite xsqrt_pos by exact Hq; rewrite xdiv_fin by lra; cbn [xadd]; f_equal; field; lra | exact Hl|].
    eexists. split; [rewrite E; reflexivity|]. split; [exact El | exact En].
  - rewrite Nat.eqb_refl. cbn [negb]. rewrite Hn.
    destruct (X (fun a b => a + b) x1) as (E & El & En); [intros a b; unfold x1; rewrite xsqrt_pos by lra; rewrite sqrt_1, xdiv_fin by lra; cbn [xadd]; f_equal; field | exact Hl|].
    eexists. split; [rewrite E; reflexivity|]. split; [exact El | exact En].
Qed.
Print Assumptions C98_draw.

Lemma dot_opp n a b : dot n (fun i => - a i) b = - dot n a b.
Proof. induction n as [|n IH]; cbn [dot]; [ring | rewrite IH; ring]. Qed.
Lemma dot_ext n a a' b b' : (forall i, a i = a' i) -> (forall i, b i = b' i) -> dot n a b = dot n a' b'.
Proof. intros Ha Hb. induction n as [|n IH]; cbn [dot]; [reflexivity | now rewrite IH, Ha, Hb]. Qed.
Lemma dot_sym n a b : dot n a b = dot n b a.
Proof. induction n as [|n IH]; cbn [dot]; [reflexivity | rewrite IH; ring]. Qed.
Lemma t_dens_sym gam det inv df c m v : length m = length v -> t_dens gam det inv df m c v = t_dens gam det inv df v c m.
Proof.
  intros El. unfold t_dens. cbv zeta. rewrite El, Nat.eqb_refl. cbn [negb]. destruct (negb (fst c =? length v)%nat); [reflexivity|]. destruct (inv (length v) (snd c)) as [B|]; [|reflexivity]. do 3 f_equal. do 3 f_equal.
  set (d := fun i => Q2R (nth i v 0%Q) - Q2R (nth i m 0%Q)). set (d' := fun i => Q2R (nth i m 0%Q) - Q2R (nth i v 0%Q)).
  assert (Hd : forall i, d i = - d' i) by (intros i; unfold d, d'; ring).
  rewrite (dot_ext _ (fun j => dot (length v) d (fun i => B i j)) (fun j => - dot (length v) d' (fun i => B i j)) d (fun i => - d' i)); [|intros j; rewrite <- dot_opp; apply dot_ext; [exact Hd | reflexivity] | exact Hd].
  rewrite dot_opp, dot_sym, dot_opp, dot_sym. ring.
Qed.
Lemma scalars_shape a b : Forall2 SameShape a b -> (exists l l', all_scalars a = Ok l /\ all_scalars b = Ok l' /\ length l = length l') \/ (all_scalars a = Err ValueError /\ all_scalars b = Err ValueError).
Proof.
  intros H. induction H as [|x y a b Hxy H IH]; [left; now exists [], []|]. destruct x, y; cbn in Hxy; try contradiction; cbn [all_scalars]; [|now right].
  destruct IH as [(l & l' & -> & -> & E)|(-> & ->)]; [left; exists (q :: l), (q0 :: l'); cbn; auto | now right].
Qed.
Lemma arrays_shape a b : Forall2 SameShape a b -> (exists l l', all_arrays a = Ok l /\ all_arrays b = Ok l' /\ length (concat l) = length (concat l')) \/ (all_arrays a = Err ValueError /\ all_arrays b = Err ValueError).
Proof.
  intros H. induction H as [|x y a b Hxy H IH]; [left; now exists [], []|]. destruct x as [q|k], y as [q'|k']; cbn in Hxy; try contradiction; cbn [all_arrays]; [now right|].
  destruct IH as [(l & l' & -> & -> & E)|(-> & ->)]; [left; exists (k :: l), (k' :: l'); cbn [concat]; rewrite !app_length; auto | now right].
Qed.
Lemma vec_pdf_sym D (dens : list Q -> smat -> list Q -> res D) c mean x : (forall m v c, length m = length v -> dens m c v = dens v c m) -> Forall2 SameShape mean x ->
  vec_pdf smat D dens c mean x = vec_pdf smat D dens c x mean.
Proof.
  intros Hs H. pose proof (scalars_shape _ _ H) as Hsc. pose proof (arrays_shape _ _ H) as Har. destruct H as [|a b mean x Hab H]; [reflexivity|]. unfold vec_pdf, flat. destruct a, b; cbn in Hab; try contradiction.
  - destruct Hsc as [(l & l' & -> & -> & E)|(-> & ->)]; [destruct c; [now apply Hs | reflexivity] | reflexivity].
  - destruct Har as [(k & k' & -> & -> & E)|(-> & ->)]; [destruct c; [now apply Hs | reflexivity] | reflexivity].
Qed.
(** C98.  The density does not change when the two points are exchanged, whatever the matrix and the degrees of freedom. *)
Theorem C98_symmetric : forall gam det inv df c mean x, Forall2 SameShape mean x ->
  vec_pdf smat xr (t_dens gam det inv df) c mean x = vec_pdf smat xr (t_dens gam det inv df) c x mean.
Proof. intros gam det inv df c mean x HS. apply vec_pdf_sym; [intros; now apply t_dens_sym | exact HS]. Qed.
Print Assumptions C98_symmetric.

Lemma Qle_bool_ext a b c : (a == b)%Q -> Qle_bool a c = Qle_bool b c.
Proof. intros E. destruct (Qle_bool b c) eqn:H; [apply Qle_bool_iff; apply Qle_bool_iff in H; now rewrite E | destruct (Qle_bool a c) eqn:H2; [|reflexivity]; apply Qle_bool_iff in H2; rewrite E in H2; apply Qle_bool_iff in H2; congruence]. Qed.
Lemma far_sym jump a b : far jump a b = far jump b a.
Proof. unfold far. destruct a as [a|[|a [|? ?]]], b as [b|[|b [|? ?]]]; try reflexivity; f_equal; f_equal; apply Qle_bool_ext; rewrite Qabs.Qabs_Qminus; apply Qeq_refl. Qed.
Lemma walk_sym D ofq jump c mean x : walk_pmf smat D ofq jump c mean x = walk_pmf smat D ofq jump c x mean.
Proof. destruct mean as [|m mean], x as [|y x]; try reflexivity. cbn [walk_pmf]. now rewrite far_sym. Qed.
Lemma pick_shape (m : nat) mapping a b : Forall2 SameShape a b ->
  (exists l l', pick kval m mapping a = Ok l /\ pick kval m mapping b = Ok l' /\ Forall2 SameShape l l') \/ (pick kval m mapping a = Err IndexError /\ pick kval m mapping b = Err IndexError).
Proof.
  intros H. induction mapping as [|(pm, i) mapping IH]; cbn [pick]; [left; exists [], []; auto|]. destruct (m =? pm)%nat; [|exact IH].
  assert (Hi : (exists u v, nth_error a i = Some u /\ nth_error b i = Some v /\ SameShape u v) \/ (nth_error a i = None /\ nth_error b i = None)).
  { clear - H. revert i. induction H as [|x y a b Hxy H IH]; intros [|i]; cbn; [now right | now right | left; exists x, y; auto | apply IH]. }
  destruct Hi as [(u & v & -> & -> & Huv)|(-> & ->)]; [|now right]. destruct IH as [(l & l' & -> & -> & E)|(-> & ->)]; [left; exists (u :: l), (v :: l'); auto | now right].
Qed.
Lemma pick_all_shape ms mapping a b : Forall2 SameShape a b ->
  (exists l l', pick_all kval ms mapping a = Ok l /\ pick_all kval ms mapping b = Ok l' /\ Forall2 SameShape l l') \/ (pick_all kval ms mapping a = Err IndexError /\ pick_all kval ms mapping b = Err IndexError).
Proof.
  intros H. induction ms as [|m ms IH]; cbn [pick_all]; [left; exists [], []; auto|]. destruct (pick_shape m mapping a b H) as [(l & l' & -> & -> & E)|(-> & ->)]; [|now right].
  destruct IH as [(k & k' & -> & -> & E')|(-> & ->)]; [left; exists (l ++ k), (l' ++ k'); auto using Forall2_app | now right].
Qed.
(** C98.  A joint kernel made of Student t kernels and random walks is symmetric in the same way, so that the factor kernel.pdf(new, old) / kernel.pdf(old, new) in the acceptance
    probabilities of RSMCABC, SMCABC and ABCsubsim is a number divided by itself. *)
Theorem C98_joint : forall Rng gam det inv one mul (ks : list (kernel smat Rng xr kval)) mapping covs mean x,
  Forall (fun k => (exists draw df models, k = vec_kernel smat Rng xr draw (t_dens gam det inv df) models) \/ (exists rint ofq jump models, k = walk_kernel smat Rng xr rint ofq jump models)) ks ->
  Forall2 SameShape mean x ->
  joint_pdf smat Rng xr kval one mul ks mapping covs mean x = joint_pdf smat Rng xr kval one mul ks mapping covs x mean.
Proof.
  intros Rng gam det inv one mul ks mapping covs mean x HK HS. unfold joint_pdf. generalize one as acc. generalize 0%nat as ki. induction HK as [|k ks Hk HK IH]; intros ki acc; [reflexivity|]. cbn [joint_pdf_from].
  destruct (pick_all_shape (k_models k) mapping mean x HS) as [(l & l' & -> & -> & E)|(-> & ->)]; [|reflexivity].
  assert (Es : k_pdf k (nth_error covs ki) l l' = k_pdf k (nth_error covs ki) l' l).
  { destruct Hk as [(draw & df & models & ->)|(rint & ofq & jump & models & ->)]; cbn [vec_kernel walk_kernel k_pdf]; [apply vec_pdf_sym; [intros; now apply t_dens_sym | exact E] | apply walk_sym]. }
  rewrite Es. destruct (k_pdf k (nth_error covs ki) l' l); [apply IH | reflexivity].
Qed.
Print Assumptions C98_joint.

(** C98.  With a singular matrix - for instance when all particles with positive weight agree in a parameter (C57_degenerate) - the density cannot be computed: an error is raised at every point. *)
Theorem C98_singular : forall gam det inv df n A v c mean x, (forall B, inv n A = Some B -> Inverse n B A) ->
  (exists i, (i < n)%nat /\ v i <> 0) -> (forall i, (i < n)%nat -> sigma n (fun k => A i k * v k) = 0) -> c = (n, A) ->
  Row mean -> Forall2 SameShape mean x -> length (numbers mean) = n ->
  vec_pdf smat xr (t_dens gam det inv df) (Some c) mean x = Err RuntimeError.
Proof.
  intros gam det inv df n A v c mean x HI (i & Hi & Hv) HA -> HR HS Hn. destruct (vec_pdf_rows xr (t_dens gam det inv df) (n, A) mean x HR HS) as (m & u & Em & Eu & E1 & _). refine (eq_trans E1 _).
  assert (Hm : length m = n) by (rewrite <- Hn, <- Em, map_length; reflexivity). assert (Hu : length u = n) by (rewrite <- Hn, (shape_length _ _ HS), <- Eu, map_length; reflexivity).
  unfold t_dens. cbv zeta. cbn [fst snd]. rewrite Hm, Hu, Nat.eqb_refl. cbn [negb]. destruct (inv n A) as [B|] eqn:EB; [|reflexivity]. exfalso. apply Hv. specialize (HI B eq_refl).
  transitivity (sigma n (fun k => sigma n (fun j => B i j * A j k) * v k)).
  - rewrite (sigma_one n _ i Hi); [rewrite HI by assumption; rewrite Nat.eqb_refl; ring|]. intros k Hk Hne. rewrite HI by assumption. destruct (Nat.eqb_spec i k); [congruence | ring].
  - rewrite (sigma_ext n _ (fun k => sigma n (fun j => B i j * (A j k * v k)))) by (intros; rewrite <- sigma_scale_r; apply sigma_ext; intros; ring). rewrite sigma_swap. apply sigma_zero. intros j Hj. rewrite sigma_scale, HA by exact Hj. ring.
Qed.
Print Assumptions C98_singular.

(** C98, refuted: infinitely many degrees of freedom are supported by the draw (C98_draw) but not by the density, which is not a number at every point; so are the weights computed from it. *)
Theorem C98_infinite_refuted : forall gam det inv B n A c mean x, (0 < n)%nat -> 0 < det n A -> inv n A = Some B -> c = (n, A) ->
  Row mean -> Forall2 SameShape mean x -> length (numbers mean) = n ->
  vec_pdf smat xr (t_dens gam det inv XInf) (Some c) mean x = Ok XNaN.
Proof.
  intros gam det inv B n A c mean x Hn0 Hdet HB -> HR HS Hn. destruct (vec_pdf_rows xr (t_dens gam det inv XInf) (n, A) mean x HR HS) as (m & u & Em & Eu & E1 & _). refine (eq_trans E1 _).
  assert (Hm : length m = n) by (rewrite <- Hn, <- Em, map_length; reflexivity). assert (Hu : length u = n) by (rewrite <- Hn, (shape_length _ _ HS), <- Eu, map_length; reflexivity).
  unfold t_dens. cbv zeta. cbn [fst snd]. rewrite Hm, Hu, Nat.eqb_refl. cbn [negb]. rewrite HB. assert (HN : 0 < INR n) by (apply lt_0_INR; exact Hn0). assert (HPI := PI_RGT_0). rewrite (Rabs_pos_eq (det _ A)) by lra. assert (Hs : 0 < sqrt (det n A)) by (apply sqrt_lt_R0; exact Hdet).
  rewrite (xdiv_fin (INR n) 2) by lra.
  assert (Hi : xdiv XInf (XR 2) = XInf) by (unfold xdiv; cbn [xsgn]; rewrite rsign_pos by lra; reflexivity). cbn [xadd]. rewrite Hi. cbn [xgam].
  assert (E2 : xmul XInf (XR PI) = XInf) by (unfold xmul; cbn [xsgn]; rewrite rsign_pos by lra; reflexivity). rewrite E2. cbn [xrpow]. rewrite rsign_pos by lra.
  change (xmul XInf XInf) with XInf. assert (E3 : xmul XInf (XR (sqrt (det n A))) = XInf) by (unfold xmul; cbn [xsgn]; rewrite rsign_pos by lra; reflexivity). rewrite E3.
  change (xdiv XInf XInf) with XNaN. destruct (xrpow _ _); reflexivity.
Qed.
Print Assumptions C98_infinite_refuted.

(** C69.  The density of MultiStudentT is the one of what it samples (C69_samples), in the same sense. *)
Theorem C69_mixture : forall gam det inv n mean A L df x z, (forall t, 0 < t -> 0 < gam t) -> 0 < df -> GammaAt gam ((df + INR n) / 2) ->
  Factor n L A -> Inverse n A (inv n A) -> det n A = prod n (fun i => L i i) * prod n (fun i => L i i) ->
  (forall i, (i < n)%nat -> x i = mean i + sigma n (fun k => L i k * z k)) ->
  exists d, mst_pdf gam det inv n mean A (XR df) x = XR d /\ integral_0_inf (fun c => chi_square gam df c * normal_density n L (/ sqrt (c / df)) z) d.
Proof.
  intros gam det inv n mean A L df x z Hg Hdf HG HF HI Hdet Hx. exists (t_density gam n df L z). split; [now apply C69_density|]. unfold t_density. apply mixture; [exact Hdf | apply Hg; lra | apply prod_pos; apply HF | exact HG].
Qed.
Print Assumptions C69_mixture.

(** C58.  The density of StudentT is the one of mean + g / sqrt(c / df) with g standard normal and c chi-square distributed. *)
Theorem C58_mixture : forall gam mean df x, (forall t, 0 < t -> 0 < gam t) -> 0 < df -> GammaAt gam ((df + 1) / 2) ->
  exists d x', student_pdf gam mean df [x] = ([d], x') /\ integral_0_inf (fun c => chi_square gam df c * (exp (- (x - mean) ^ 2 * (c / df) / 2) / (sqrt (2 * PI) * / sqrt (c / df)))) d.
Proof.
  intros gam mean df x Hg Hdf HG. exists (student_kernel gam df (x - mean)), [x - mean]. split; [reflexivity|].
  pose proof (mixture gam 1 (fun _ _ => 1) df (fun _ => x - mean) Hdf) as M. cbn [prod sigma INR] in M. specialize (M (Hg (df / 2) ltac:(lra)) ltac:(lra) HG).
  assert (HPI := PI_RGT_0). assert (Hsd : 0 < sqrt (df * PI)) by (apply sqrt_lt_R0, Rmult_lt_0_compat; lra). pose proof (Hg (df / 2) ltac:(lra)) as Hg2.
  assert (Ev : student_kernel gam df (x - mean) = gam ((df + 1) / 2) / (gam (df / 2) * Rpower (df * PI) (1 / 2) * (1 * 1)) * Rpower (1 + (0 + (x - mean) * (x - mean)) / df) (- ((df + 1) / 2))).
  2:{ rewrite Ev. eapply integral_ext; [|exact M]. intros c Hc. cbv beta. f_equal. assert (Hcd : 0 < c / df) by (apply Rdiv_lt_0_compat; assumption). assert (Hs := sqrt_lt_R0 _ Hcd). unfold normal_density. cbn [sigma prod INR].
    replace (/ sqrt (c / df) * / sqrt (c / df)) with (/ (c / df)) by (rewrite <- Rinv_mult, sqrt_sqrt by lra; reflexivity). replace (1 / 2) with (/ 2) by lra. rewrite Rpower_sqrt by lra. assert (H2 := sqrt_lt_R0 (2 * PI) ltac:(lra)). f_equal; [f_equal; field; lra | ring]. }
  unfold student_kernel. rewrite Rpower_Ropp. replace (1 + (0 + (x - mean) * (x - mean)) / df) with (1 + (x - mean) * (x - mean) / df) by (field; lra). replace (1 / 2) with (/ 2) by lra. rewrite Rpower_sqrt by (apply Rmult_lt_0_compat; lra).
    assert (Hr := exp_pos ((df + 1) / 2 * ln (1 + (x - mean) * (x - mean) / df))). fold (Rpower (1 + (x - mean) * (x - mean) / df) ((df + 1) / 2)) in Hr. field. lra.
Qed.
Print Assumptions C58_mixture.

(** A case: one degree of freedom in one dimension, matrix 4, from 3 to 5. *)
Lemma gamma_one gam : gam 1 = 1 -> GammaAt gam 1.
Proof.
  intros H1. unfold GammaAt. rewrite H1. apply integral_ext with (Derive (fun t => - exp (- t))).
  - intros t Ht. rewrite Rminus_diag_eq by reflexivity. rewrite Rpower_O by exact Ht. apply is_derive_unique. auto_derive; [exact I | ring].
  - replace 1 with (0 - -1) by ring. unfold integral_0_inf. apply is_RInt_gen_Derive.
    + exists (fun _ => True) (fun _ => True); [now apply filter_forall | now apply filter_forall|]. intros x y _ _ t _. auto_derive. exact I.
    + exists (fun _ => True) (fun _ => True); [now apply filter_forall | now apply filter_forall|]. intros x y _ _ t _. apply continuous_ext with (fun t => exp (- t)).
      * intros u. symmetry. apply is_derive_unique. auto_derive; [exact I | ring].
      * apply (ex_derive_continuous (fun t => exp (- t))). auto_derive. exact I.
    + assert (Hc : continuous (fun t => - exp (- t)) 0) by (apply (ex_derive_continuous (fun t => - exp (- t))); auto_derive; exact I). unfold continuous in Hc. rewrite Ropp_0, exp_0 in Hc.
      intros P HP. specialize (Hc P HP). unfold filtermap in *. destruct Hc as (e & He). exists e. intros y Hy _. apply He, Hy.
    + pose proof (is_lim_opp (fun t => exp (- t)) p_infty 0) as L0. cbn [Rbar_opp] in L0. rewrite Ropp_0 in L0. apply L0. apply (is_lim_comp exp (fun t => - t) p_infty 0 m_infty); [exact is_lim_exp_m | exact (is_lim_opp (fun t => t) p_infty p_infty (is_lim_id p_infty)) | now exists 0].
Qed.
Definition case_gam (s : R) : R := if Req_EM_T s (1 / 2) then sqrt PI else 1.
Definition case_inv (_ : nat) (A : nat -> nat -> R) : option (nat -> nat -> R) := if Req_EM_T (A 0%nat 0%nat) 0 then None else Some (fun _ _ => / A 0%nat 0%nat).
Example C98_cauchy : let A := fun _ _ : nat => 4 in let mean := [KS 3] in let x := [KS 5] in
  Row mean /\ Forall2 SameShape mean x /\ GammaAt case_gam ((1 + INR 1) / 2)
  /\ exists d, vec_pdf smat xr (t_dens case_gam (fun _ A => A 0%nat 0%nat) case_inv (XR 1)) (Some (1%nat, A)) mean x = Ok (XR d) /\ 0 < d
       /\ integral_0_inf (fun c => chi_square case_gam 1 c * normal_density 1 (fun _ _ => 2) (/ sqrt (c / 1)) (fun _ => 1)) d.
Proof.
  intros A mean x. assert (HR : Row mean) by (split; [discriminate | left; constructor; [exact I | constructor]]). assert (HS : Forall2 SameShape mean x) by (constructor; [exact I | constructor]).
  assert (G1 : case_gam ((1 + INR 1) / 2) = 1) by (unfold case_gam; cbn [INR]; destruct (Req_EM_T ((1 + 1) / 2) (1 / 2)); [lra | reflexivity]).
  assert (G2 : case_gam (1 / 2) = sqrt PI) by (unfold case_gam; destruct (Req_EM_T (1 / 2) (1 / 2)); [reflexivity | lra]).
  assert (HG : GammaAt case_gam ((1 + INR 1) / 2)) by (replace ((1 + INR 1) / 2) with 1 in * by (cbn [INR]; lra); apply gamma_one; exact G1). assert (HPI := PI_RGT_0).
  split; [exact HR|]. split; [exact HS|]. split; [exact HG|].
  refine (C98_density case_gam (fun _ A => A 0%nat 0%nat) case_inv (fun _ _ => / 4) 1 A (fun _ _ => 2) 1 mean x (fun _ => 1) _ _ _ HG _ _ _ _ HR HS eq_refl _).
  - lra.
  - rewrite G2. apply sqrt_lt_R0, HPI.
  - rewrite G1. lra.
  - split; [intros i j Hi Hj; lia|]. split; [intros; lra|]. intros i j _ _. cbn [sigma]. unfold A. ring.
  - unfold case_inv, A. destruct (Req_EM_T 4 0); [lra | reflexivity].
  - intros i j Hi Hj. destruct i; [|lia]. destruct j; [|lia]. cbn. unfold A. lra.
  - unfold A. cbn [prod]. ring.
  - intros i Hi. destruct i; [|lia]. cbn. unfold Q2R. cbn. lra.
Qed.
(** A case for C98_singular: two particles with the same value give the matrix 0. *)
Example C98_singular_case : vec_pdf smat xr (t_dens case_gam (fun _ A => A 0%nat 0%nat) case_inv (XR 1)) (Some (1%nat, fun _ _ => 0)) [KS 3] [KS 5] = Err RuntimeError.
Proof.
  refine (C98_singular case_gam (fun _ A => A 0%nat 0%nat) case_inv (XR 1) 1 (fun _ _ => 0) (fun _ => 1) _ [KS 3] [KS 5] _ _ _ eq_refl _ _ eq_refl).
  - intros B HB. unfold case_inv in HB. destruct (Req_EM_T 0 0); [discriminate | lra].
  - exists 0%nat. split; [lia | lra].
  - intros i _. cbn. ring.
  - split; [discriminate | left; constructor; [exact I | constructor]].
  - constructor; [exact I | constructor].
Qed.
(** A draw: chi-square number 4 with one degree of freedom, normal number 6. *)
Example C98_draw_case : exists y, t_draw (fun _ (r : nat) => (S r, 4)) (fun _ _ r => (S r, [6])) (XR 1) [3] (1%nat, fun _ _ => 4) 0%nat = (2%nat, Ok (map XR y)) /\ nth 0 y 0 = 6.
Proof.
  destruct (C98_draw nat (fun _ r => (S r, 4)) (fun _ _ r => (S r, [6])) 1 [3] (fun _ _ => 4) 0%nat 1%nat 2%nat 4 [6]) as (H & _); [lra | reflexivity | lra|]. destruct (H eq_refl eq_refl) as (y & E & _ & Hy). exists y. split; [exact E|]. rewrite (Hy 0%nat) by (cbn; lia). cbn [nth].
  replace (sqrt (4 / 1)) with 2; [lra|]. replace (4 / 1) with (2 * 2) by lra. rewrite sqrt_square; lra.
Qed.
(** A case for C98_infinite_refuted and C98_joint. *)
Example C98_infinite_case : vec_pdf smat xr (t_dens case_gam (fun _ A => A 0%nat 0%nat) case_inv XInf) (Some (1%nat, fun _ _ => 4)) [KS 3] [KS 5] = Ok XNaN.
Proof.
  refine (C98_infinite_refuted case_gam (fun _ A => A 0%nat 0%nat) case_inv (fun _ _ => / 4) 1 (fun _ _ => 4) _ [KS 3] [KS 5] _ _ _ eq_refl _ _ eq_refl); [lia | lra | | |].
  - unfold case_inv. destruct (Req_EM_T 4 0); [lra | reflexivity].
  - split; [discriminate | left; constructor; [exact I | constructor]].
  - constructor; [exact I | constructor].
Qed.
