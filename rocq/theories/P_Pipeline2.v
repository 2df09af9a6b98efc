(** C68, continued: where served statistics differ from what the network was trained on; examples. *)
From Coq Require Import Reals Lra String.
From Coq Require Import List.
From Verif Require Import M_Base M_Num M_XReal M_Transform M_Scaler P_Scaler M_Stats S_Stats L_PMC L_Stats M_Journal M_Learn M_Pipeline S_Pipeline P_Pipeline.
Import ListNotations.
Open Scope nat_scope.

Module Toy.
  Definition draw (z : Z) : res (list (list xr) * option (list (list (list xr)))) := Err RuntimeError.
  Definition randints (n : nat) : list Z := [].
  Definition labels (m : mat) : res (list (list xr)) := Ok (mrows m).
  Definition initial (c : nclass) : sdict := [].
  Definition ident : stats := mkstats Ident 1 false None None.
  (** training that leaves the parameters as they are *)
  Definition optimise (_ : tdata (list (list xr))) (_ : nat) (_ : nclass) (w : sdict) : res sdict := Ok w.
  Definition optimise2 (_ _ : mat) (_ : option (mat * mat)) (_ : nclass) (w : sdict) (_ : netarg) (_ : nat) : res sdict := Ok w.
  (** a network that passes its input on *)
  Definition pass : nclass := mkclass 1 1 [] (fun _ _ rows => rows).
  (** the same with a layer that, in training mode, centres the batch *)
  Definition centred : nclass := mkclass 1 1 [] (fun _ training rows => if training : bool then map (map (fun x => xsub x (xmean (concat rows)))) rows else rows).
  (** two outputs *)
  Definition twice : nclass := mkclass 1 2 [] (fun _ _ rows => map (fun r => [nth 0 r XNaN; nth 0 r XNaN]) rows).
  Definition col (l : list R) : mat := mkmat 1 (map (fun x => [XR x]) l).
  Definition train (f32 : R -> R) (pars sims : list R) (val : option (list R * list R)) (scaled : bool) (c : nclass) :=
    train_nn f32 draw randints (list (list xr)) labels initial optimise ident 0 0 1 (Some (Array2 (col pars))) (Some (Array2 (col sims)))
      (option_map (fun v => Array2 (col (fst v))) val) (option_map (fun v => Array2 (col (snd v))) val) scaled (GivenNet c [] true) 1.
  Definition train_ef (f32 : R -> R) (pars sims : list R) (lo up : option bound) (c : nclass) :=
    train_ef f32 draw randints initial optimise2 ident 0 0 (Some (Array2 (col pars))) (Some (Array2 (col sims))) None None lo up false false softplus None (GivenNet c [] true) (Sizes None) 1.
End Toy.

(** C68, refuted: without a validation set, training leaves the network in training mode, and the learned statistics never switch to evaluation mode.  Layers such as batch
    normalisation then make the statistics of a data set depend on what other data sets are in the list. *)
Theorem C68_mode_refuted : forall f32, f32 0%R = 0%R -> f32 2%R = 2%R -> f32 4%R = 4%R ->
  exists t, Toy.train f32 [0%R; 2%R] [0%R; 2%R] None false Toy.centred = Ok t
  /\ embedding f32 (get_statistics _ t) (PList [Num (XR 0); Num (XR 2)]) = Ok (mkmat 1 [[XR (-1)]; [XR 1]])
  /\ embedding f32 (get_statistics _ t) (PList [Num (XR 0); Num (XR 4)]) = Ok (mkmat 1 [[XR (-2)]; [XR 2]]).
Proof.
  intros f32 H0 H2 H4. eexists. split; [reflexivity|].
  split; unfold embedding, get_statistics; cbn -[xdiv]; unfold xmean, xsum; cbn -[xdiv]; rewrite ?H0, ?H2, ?H4; rewrite !xdiv_fin by lra; cbn; repeat f_equal; lra.
Qed.
Print Assumptions C68_mode_refuted.
(** With a validation set the same network is left in evaluation mode. *)
Example C68_mode_case : exists t, Toy.train (fun x => x) [0%R; 2%R] [0%R; 2%R] (Some ([1%R], [1%R])) false Toy.centred = Ok t
  /\ embedding (fun x => x) (get_statistics _ t) (PList [Num (XR 0); Num (XR 4)]) = Ok (mkmat 1 [[XR 0]; [XR 4]]).
Proof. eexists. split; reflexivity. Qed.

(** C68, refuted: with a scaler the learned statistics round the data to float32 before they are scaled, training rounds after scaling.  Two simulations that the network was
    trained to tell apart can become the same. *)
Theorem C68_offset_refuted : forall f32, f32 16777216%R = 16777216%R -> f32 16777217%R = 16777216%R -> f32 0%R = 0%R -> f32 (1/2)%R = (1/2)%R -> f32 1%R = 1%R ->
  exists t, Toy.train f32 [1%R; 2%R; 3%R] [16777216%R; 16777217%R; 16777218%R] None true Toy.pass = Ok t
  /\ inputs _ (t_data _ t) = Toy.col [0%R; (1/2)%R; 1%R]
  /\ embedding f32 (get_statistics _ t) (PList [Num (XR 16777216); Num (XR 16777217)]) = Ok (Toy.col [0%R; 0%R]).
Proof.
  intros f32 H0 H1 Hz Hh Ho.
  assert (Efit : mm_fit 0 1 (map XR [16777216; 16777217; 16777218]%R) = (XR (1/2), XR (- 8388608))).
  { unfold mm_fit. cbn -[xdiv]. rewrite (Rmin_left 16777216 16777217), (Rmin_left 16777216 16777218), (Rmax_right 16777216 16777217), (Rmax_right 16777217 16777218) by lra. replace (16777218 + - (16777216))%R with 2%R by lra. destruct (Req_EM_T _ _) as [E|E]; [lra|]. rewrite xdiv_fin by exact E. cbn. f_equal; f_equal; lra. }
  eexists. split.
  { unfold Toy.train, train_nn. cbn -[mm_fit scale fit_minmax Toy.col]. unfold fit_minmax. cbn -[mm_fit scale]. unfold M_Scaler.column. cbn -[mm_fit scale]. cbn [map] in Efit. rewrite Efit. cbn. reflexivity. }
  unfold get_statistics, embedding, to32, Toy.col. cbn. rewrite ?H0, ?H1.
  replace (16777216 * (1 / 2) + -8388608)%R with 0%R by lra. replace (16777217 * (1 / 2) + -8388608)%R with (1/2)%R by lra. replace (16777218 * (1 / 2) + -8388608)%R with 1%R by lra. rewrite Hz, Hh, Ho. split; reflexivity.
Qed.
Print Assumptions C68_offset_refuted.

(** C68, refuted: a simulation strictly inside the bounds, which the exponential family was trained with, is refused by the learned statistics, because rounding to float32 puts
    it on the bound; statistics with rescaling cannot even be obtained. *)
Theorem C68_bounds_refuted : forall f32, f32 0%R = 0%R -> f32 1%R = 1%R -> f32 (1/2)%R = (1/2)%R -> f32 (1 - 1 / 1073741824)%R = 1%R ->
  exists e st, Toy.train_ef f32 [1%R; 2%R] [(1/2)%R; (1 - 1 / 1073741824)%R] (Some (BArray [Some 0%R])) (Some (BArray [Some 1%R])) Toy.twice = Ok e
  /\ get_statistics_ef f32 e false = Ok st
  /\ embedding f32 st (PList [Num (XR (1 - 1 / 1073741824))]) = Err RuntimeError
  /\ get_statistics_ef f32 e true = Err RuntimeError.
Proof.
  intros f32 H0 H1 Hh Hb.
  assert (Ec : forall x, (0 < x < 1)%R -> in_check f32 (Some 0%R, Some 1%R) (XR x) = true).
  { intros x Hx. unfold in_check. cbn. rewrite ?H0, ?H1. repeat (destruct (Rle_dec _ _); try lra); repeat (destruct (Rlt_dec _ _); try lra); reflexivity. }
  assert (Ex : in_check f32 (Some 0%R, Some 1%R) (XR 1) = false).
  { unfold in_check. cbn. rewrite ?H0, ?H1. repeat (destruct (Rle_dec _ _); try lra); repeat (destruct (Rlt_dec _ _); try lra); reflexivity. }
  eexists. eexists. split.
  { unfold Toy.train_ef, train_ef. cbn -[in_check M_Transform.fwd Toy.col]. unfold scale, fit_bounded, sc_fit, sc_transform, sc_check. cbn -[in_check M_Transform.fwd]. rewrite !Ec by lra. cbn -[in_check M_Transform.fwd]. unfold sc_transform, sc_check. cbn -[in_check M_Transform.fwd]. rewrite !Ec by lra. cbn -[in_check M_Transform.fwd]. reflexivity. }
  split; [reflexivity|]. split.
  - unfold embedding. cbn -[in_check M_Transform.fwd]. unfold sc_transform, sc_check. cbn -[in_check M_Transform.fwd]. rewrite Hb, Ex. reflexivity.
  - unfold get_statistics_ef, new_embedding, embedding. cbn -[in_check M_Transform.fwd]. unfold sc_transform, sc_check. cbn -[in_check M_Transform.fwd]. rewrite Hb, Hh, Ex, Ec by lra. reflexivity.
Qed.
Print Assumptions C68_bounds_refuted.

(** C68.  Data of a wrong width are refused with a RuntimeError, whatever the network (bare, with a scaler, without the last output) and the error inside it. *)
Fixpoint entry_width (n : net) : nat :=
  match n with
  | Plain c _ _ => nin c
  | Discard n' => entry_width n'
  | Scaled _ (MinMax ps) => length ps
  | Scaled _ (Bounded bs _) => length bs
  end.
Theorem C68_wrong_width : forall f32 s d m, (match nprev s with Some p => statistics p d | None => check_input d end) = Ok m -> mcols m <> entry_width (nnet s) -> embedding f32 s d = Err RuntimeError.
Proof.
  intros f32 s d m Hm Hw. unfold embedding. rewrite Hm.
  assert (X : forall n x, mcols x <> entry_width n -> exists e, forward f32 n x = Err e /\ (e = IndexError \/ e = RuntimeError \/ e = ValueError)).
  { induction n as [c w t|n IH|n IH sc]; intros x Hx; cbn [forward entry_width] in *.
    - apply Nat.eqb_neq in Hx. rewrite Hx. exists RuntimeError. auto.
    - destruct (IH x Hx) as (e & -> & He). exists e. auto.
    - destruct sc as [ps|bs ps]; cbn [scale]; apply Nat.eqb_neq in Hx; rewrite Hx; [rewrite Bool.andb_false_r; exists ValueError|exists IndexError]; auto. }
  destruct (X (nnet s) (to32 f32 m) Hw) as (e & -> & [-> | [-> | ->]]); reflexivity.
Qed.
Print Assumptions C68_wrong_width.
Example C68_wrong_width_case : embedding (fun x => x) (mknstats (Scaled (Plain Toy.pass [] true) (MinMax [(XR 1, XR 0)])) 1 false None None) (PList [Vec [XR 1; XR 2]]) = Err RuntimeError.
Proof. apply (C68_wrong_width _ _ _ (mkmat 2 [[XR 1; XR 2]])); [reflexivity|discriminate]. Qed.

(** Examples: the position in the training range (C68_served, C68_scaling), also outside of it; the exponential family with and without a validation set. *)
Example C68_scaling_case : exists t, Toy.train (fun x => x) [1%R; 2%R] [2%R; 6%R] None true Toy.pass = Ok t
  /\ t_net _ t = Plain Toy.pass [] true /\ Computes Toy.pass [] (fun r => r)
  /\ embedding (fun x => x) (get_statistics _ t) (PList [Num (XR 2); Num (XR 3); Num (XR 10)]) = Ok (Toy.col [0%R; (1/4)%R; 2%R]).
Proof.
  assert (Efit : mm_fit 0 1 (map XR [2; 6]%R) = (XR (1/4), XR (- (1/2)))).
  { unfold mm_fit. cbn -[xdiv]. rewrite (Rmin_left 2 6), (Rmax_right 2 6) by lra. replace (6 + - (2))%R with 4%R by lra. destruct (Req_EM_T _ _) as [E|E]; [lra|]. rewrite xdiv_fin by exact E. cbn. f_equal; f_equal; lra. }
  eexists. split.
  { unfold Toy.train, train_nn. cbn -[mm_fit scale fit_minmax Toy.col]. unfold fit_minmax. cbn -[mm_fit scale]. unfold M_Scaler.column. cbn -[mm_fit scale]. cbn [map] in Efit. rewrite Efit. cbn. reflexivity. }
  split; [reflexivity|]. split; [intros rows; symmetry; apply map_id|].
  unfold get_statistics, embedding, to32, Toy.col. cbn.
  replace (2 * (1 / 4) + - (1 / 2))%R with 0%R by lra. replace (3 * (1 / 4) + - (1 / 2))%R with (1/4)%R by lra. replace (10 * (1 / 4) + - (1 / 2))%R with 2%R by lra. reflexivity.
Qed.
Example C68_expfam_case : exists e st, Toy.train_ef (fun x => x) [1%R; 2%R] [2%R; 6%R] None None Toy.twice = Ok e
  /\ get_statistics_ef (fun x => x) e true = Ok st /\ Computes Toy.twice [] (fun r => [nth 0 r XNaN; nth 0 r XNaN])
  /\ embedding (fun x => x) st (PList [Num (XR 2); Num (XR 3)]) = Ok (Toy.col [1%R; (3/2)%R]).
Proof.
  assert (Es : xstd [XR 2; XR 6] = XR 2).
  { change [XR 2; XR 6] with (map XR [2%R; 6%R]). rewrite xstd_fin by discriminate. f_equal. unfold S_Stats.deviation, S_Stats.average, S_Stats.total. cbn. match goal with |- sqrt ?a = _ => replace a with (2 * 2)%R by lra end. apply sqrt_square. lra. }
  eexists. eexists. split; [reflexivity|]. split.
  { unfold get_statistics_ef, new_embedding, embedding. cbn -[xstd]. unfold std0. cbn -[xstd]. unfold M_Stats.column. cbn -[xstd]. rewrite Es. reflexivity. }
  split; [intros rows; reflexivity|]. unfold embedding, Toy.col. cbn -[xdiv]. rewrite !xdiv_fin by lra. repeat f_equal; lra.
Qed.
(** Default networks (C68_default_networks): one statistic, one parameter, no embedding dimension given: one input, two outputs, one learned statistic. *)
Example C68_default_networks_case : exists e st, M_Pipeline.train_ef (fun x => x) Toy.draw Toy.randints Toy.initial Toy.optimise2 Toy.ident 0 0 (Some (Array2 (Toy.col [1%R; 2%R]))) (Some (Array2 (Toy.col [2%R; 6%R]))) None None
    None None false false softplus None (Sizes (Some [])) (Sizes None) 1 = Ok e
  /\ e_net e = Plain (default_class softplus 1 2 (Some [])) [] false /\ get_statistics_ef (fun x => x) e false = Ok st
  /\ exists out, embedding (fun x => x) st (PList [Num (XR 3)]) = Ok out /\ mcols out = 1.
Proof. eexists. eexists. split; [reflexivity|]. split; [reflexivity|]. split; [reflexivity|]. eexists. split; reflexivity. Qed.
