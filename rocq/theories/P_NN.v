(** C49: derivatives of the default networks. *)
From Coq Require Import Reals Lra Lia List Arith Bool.
From Verif Require Import M_Base M_MMD M_NN S_NN L_NN.
Import ListNotations.
Open Scope R_scope.

(** Component o of the network at a single point, and of the derivative in direction i the network reports there. *)
Definition output (act : R -> R) (n : nat) (N : net) (o : nat) (y : list R) : R := match forward act n N [y] with Ok [v] => nth o v 0 | _ => 0 end.
Definition reported (act d1 d2 : R -> R) (n : nat) (N : net) (i o : nat) (y : list R) : R :=
  match forward_and_derivatives act d1 d2 n N [y] with Ok (_, [J], _) => nth o (nth i J []) 0 | _ => 0 end.
Definition derivatives_at (g g' : R -> R) (vs : list R) : Prop := Forall (fun v => derivable_pt_lim g v (g' v)) vs.

Lemma output_eq act n N o y : length y = n -> fits_all n (layers N) = true -> output act n N o y = nth o (forward1 act N y) 0.
Proof. intros Hy HN. unfold output, forward. cbn [ok_batch forallb]. rewrite Hy, Nat.eqb_refl, HN. reflexivity. Qed.
Lemma reported_eq act d1 d2 n N i o y : length y = n -> (i < n)%nat -> fits_all n (layers N) = true -> reported act d1 d2 n N i o y = nth o (sf (run act d1 d2 N y) i) 0.
Proof.
  intros Hy Hi HN. unfold reported. rewrite derivatives_spec by (cbn [ok_batch forallb]; rewrite ?Hy, ?Nat.eqb_refl; auto). cbn [map].
  rewrite (nth_indep _ [] (sf (run act d1 d2 N y) 0%nat)) by (rewrite map_length, seq_length; exact Hi). rewrite (map_nth (sf (run act d1 d2 N y))), seq_nth by exact Hi. reflexivity.
Qed.
Lemma ok_nth n X b : ok_batch n X = true -> (b < length X)%nat -> length (nth b X []) = n.
Proof. intros H Hb. unfold ok_batch in H. rewrite forallb_forall in H. apply Nat.eqb_eq, H, nth_In, Hb. Qed.
Lemma nth_map_seq {A} (g : nat -> A) n i d : (i < n)%nat -> nth i (map g (seq 0 n)) d = g i.
Proof. intros H. rewrite (nth_indep _ d (g 0%nat)) by (rewrite map_length, seq_length; exact H). rewrite map_nth, seq_nth by exact H. reflexivity. Qed.
Lemma nth_map_list {A B} (g : A -> B) l i d d' : (i < length l)%nat -> nth i (map g l) d = g (nth i l d').
Proof. intros H. rewrite (nth_indep _ d (g d')) by (rewrite map_length; exact H). apply map_nth. Qed.
Lemma deriv_ok act d1 d2 n N X r : forward_and_derivatives act d1 d2 n N X = Ok r -> ok_batch n X = true /\ fits_all n (layers N) = true.
Proof. unfold forward_and_derivatives. destruct (ok_batch n X); [|discriminate]. destruct (fits_all n (layers N)); [|discriminate]. auto. Qed.
Lemma partial_output act d1 d2 n N x i o : length x = n -> (i < n)%nat -> fits_all n (layers N) = true -> derivatives_at act d1 (visited act N x) ->
  partial (output act n N o) i x (nth o (sf (run act d1 d2 N x) i) 0).
Proof.
  intros Hx Hi HN HF. unfold partial. apply (dpl_ext (fun t => nth o (sx (run act d1 d2 N (upd x i t))) 0)).
  - intros t. rewrite run_x, output_eq; [reflexivity | now rewrite upd_len | exact HN].
  - apply (proj1 (run_D act d1 d2 N x (fits_square n N HN) HF)). now rewrite Hx.
Qed.
Lemma partial_reported act d1 d2 n N x i j o : length x = n -> (i < n)%nat -> (j < n)%nat -> fits_all n (layers N) = true -> derivatives_at act d1 (visited act N x) -> derivatives_at d1 d2 (visited act N x) ->
  partial (reported act d1 d2 n N j o) i x (nth o (ss (run act d1 d2 N x) i j) 0).
Proof.
  intros Hx Hi Hj HN HF HF2. unfold partial. apply (dpl_ext (fun t => nth o (sf (run act d1 d2 N (upd x i t)) j) 0)).
  - intros t. rewrite reported_eq; [reflexivity | now rewrite upd_len | exact Hj | exact HN].
  - apply (proj2 (run_D act d1 d2 N x (fits_square n N HN) HF) HF2). now rewrite Hx.
Qed.

(** At any input at which the nonlinearity has the derivatives d1 and d2 (at the values it is applied to): the first derivatives reported for a batch are the partial
    derivatives of the network, and the second ones are the derivatives of the first in the same direction. *)
Theorem C49_derivatives :
  forall act d1 d2 n N X out J D, forward_and_derivatives act d1 d2 n N X = Ok (out, J, D) ->
  forward act n N X = Ok out /\ length J = length X /\ length D = length X
  /\ forall b i o, (b < length X)%nat -> (i < n)%nat -> let x := nth b X [] in
     nth o (nth b out []) 0 = output act n N o x
     /\ (derivatives_at act d1 (visited act N x) -> partial (output act n N o) i x (nth o (nth i (nth b J []) []) 0))
     /\ (derivatives_at act d1 (visited act N x) -> derivatives_at d1 d2 (visited act N x) ->
         partial (reported act d1 d2 n N i o) i x (nth o (nth i (nth b D []) []) 0)).
Proof.
  intros act d1 d2 n N X out J D E. destruct (deriv_ok _ _ _ _ _ _ _ E) as (HX & HN). rewrite derivatives_spec in E by assumption. injection E as <- <- <-.
  split; [unfold forward; now rewrite HX, HN|]. split; [now rewrite map_length|]. split; [now rewrite map_length|].
  intros b i o Hb Hi x. pose proof (ok_nth n X b HX Hb) as Hx. fold x in Hx.
  rewrite !(nth_map_list _ X b _ []) by exact Hb. fold x. rewrite !nth_map_seq by exact Hi.
  split; [now rewrite output_eq|]. split; [intros HF; now apply partial_output | intros HF HF2; now apply partial_reported].
Qed.
Print Assumptions C49_derivatives.
(** The derivatives are those of the network function everywhere when the nonlinearity is twice differentiable. *)
Theorem C49_smooth :
  forall act d1 d2 n N X out J D, (forall v, derivable_pt_lim act v (d1 v)) -> (forall v, derivable_pt_lim d1 v (d2 v)) ->
  forward_and_derivatives act d1 d2 n N X = Ok (out, J, D) ->
  forall b i o, (b < length X)%nat -> (i < n)%nat ->
  exists G, (forall y, length y = n -> partial (output act n N o) i y (G y)) /\ nth o (nth i (nth b J []) []) 0 = G (nth b X [])
    /\ partial G i (nth b X []) (nth o (nth i (nth b D []) []) 0).
Proof.
  intros act d1 d2 n N X out J D Ha Hd E b i o Hb Hi. exists (reported act d1 d2 n N i o). destruct (deriv_ok _ _ _ _ _ _ _ E) as (HX & HN).
  assert (A : forall vs, derivatives_at act d1 vs) by (intros vs; apply Forall_forall; intros v _; apply Ha). assert (B : forall vs, derivatives_at d1 d2 vs) by (intros vs; apply Forall_forall; intros v _; apply Hd).
  split; [intros y Hy; rewrite reported_eq by assumption; now apply partial_output|].
  destruct (C49_derivatives act d1 d2 n N X out J D E) as (_ & _ & _ & Q). destruct (Q b i o Hb Hi) as (_ & _ & Q2). split; [|now apply Q2].
  rewrite reported_eq; [|now apply ok_nth | exact Hi | exact HN]. rewrite derivatives_spec in E by assumption. injection E as _ <- _.
  rewrite (nth_map_list _ X b _ []), nth_map_seq by assumption. reflexivity.
Qed.
Print Assumptions C49_smooth.
(** The full second derivatives: entry (j, i) is the derivative in direction i of the reported derivative in direction j; symmetric; its diagonal is what
    forward_and_derivatives returns. *)
Theorem C49_hessian :
  forall act d1 d2 n N X out J H, forward_and_full_derivatives act d1 d2 n N X = Ok (out, J, H) ->
  (exists D, forward_and_derivatives act d1 d2 n N X = Ok (out, J, D) /\ forall b i, (b < length X)%nat -> (i < n)%nat -> nth i (nth i (nth b H []) []) [] = nth i (nth b D []) [])
  /\ forall b i j o, (b < length X)%nat -> (i < n)%nat -> (j < n)%nat -> let x := nth b X [] in
     (derivatives_at act d1 (visited act N x) -> derivatives_at d1 d2 (visited act N x) -> partial (reported act d1 d2 n N j o) i x (nth o (nth i (nth j (nth b H []) []) []) 0))
     /\ nth i (nth j (nth b H []) []) [] = nth j (nth i (nth b H []) []) [].
Proof.
  intros act d1 d2 n N X out J H E. assert (G : ok_batch n X = true /\ fits_all n (layers N) = true) by (unfold forward_and_full_derivatives in E; destruct (ok_batch n X); [|discriminate]; destruct (fits_all n (layers N)); [|discriminate]; auto).
  destruct G as (HX & HN). rewrite full_spec in E by assumption. injection E as <- <- <-. split.
  - rewrite derivatives_spec by assumption. eexists. split; [reflexivity|]. intros b i Hb Hi. rewrite !(nth_map_list _ X b _ []) by exact Hb. rewrite !nth_map_seq by exact Hi. reflexivity.
  - intros b i j o Hb Hi Hj x. pose proof (ok_nth n X b HX Hb) as Hx. fold x in Hx. rewrite !(nth_map_list _ X b _ []) by exact Hb. fold x. rewrite !nth_map_seq by assumption.
    split; [intros; now apply partial_reported | apply run_sym].
Qed.
Print Assumptions C49_hessian.
(** The option to compute first derivatives only returns the same first derivatives; all three passes fail on the same inputs. *)
Theorem C49_first_only :
  forall act d1 d2 n N X,
  match forward_and_derivatives act d1 d2 n N X with
  | Ok (out, J, D) => forward_and_first_derivatives act d1 n N X = Ok (out, J) /\ exists H, forward_and_full_derivatives act d1 d2 n N X = Ok (out, J, H)
  | Err e => e = RuntimeError /\ forward act n N X = Err e /\ forward_and_first_derivatives act d1 n N X = Err e /\ forward_and_full_derivatives act d1 d2 n N X = Err e
             /\ ((exists x, In x X /\ length x <> n) \/ fits_all n (layers N) = false)
  end.
Proof.
  intros act d1 d2 n N X. destruct (ok_batch n X) eqn:HX; [destruct (fits_all n (layers N)) eqn:HN|].
  - rewrite derivatives_spec by assumption. split; [now apply first_spec | eexists; now apply full_spec].
  - unfold forward_and_derivatives, forward, forward_and_first_derivatives, forward_and_full_derivatives. rewrite HX, HN. cbn. auto 6.
  - unfold forward_and_derivatives, forward, forward_and_first_derivatives, forward_and_full_derivatives. rewrite HX. cbn. split; [reflexivity|]. split; [reflexivity|]. split; [reflexivity|]. split; [reflexivity|]. left.
    clear -HX. induction X as [|x X IH]; [discriminate|]. cbn [ok_batch forallb] in HX. destruct (Nat.eqb_spec (length x) n) as [E|E].
    + destruct (IH HX) as (x' & H1 & H2). exists x'. split; [now right | exact H2].
    + exists x. split; [now left | exact E].
Qed.
Print Assumptions C49_first_only.

(** ReLU: derivative 1 above 0 and 0 elsewhere, second derivative 0; right wherever no value is exactly 0. *)
Definition relu (v : R) : R := Rmax 0 v.
Definition relu1 (v : R) : R := if Rlt_dec 0 v then 1 else 0.
Definition relu2 (_ : R) : R := 0.
Lemma local_deriv f g x l : (exists d, 0 < d /\ forall t, Rabs (t - x) < d -> f t = g t) -> derivable_pt_lim f x l -> derivable_pt_lim g x l.
Proof.
  intros (d & Hd & E) H eps He. destruct (H eps He) as (d' & Hd'). assert (Hm : 0 < Rmin d d') by (apply Rmin_pos; [exact Hd | apply cond_pos]). exists (mkposreal _ Hm). intros h Hh Hl. cbn in Hl.
  assert (Hl1 : Rabs h < d) by (eapply Rlt_le_trans; [exact Hl | apply Rmin_l]). assert (Hl2 : Rabs h < d') by (eapply Rlt_le_trans; [exact Hl | apply Rmin_r]).
  rewrite <- (E (x + h)) by (replace (x + h - x) with h by ring; exact Hl1). rewrite <- (E x) by (rewrite Rminus_diag_eq by reflexivity; rewrite Rabs_R0; exact Hd). now apply Hd'.
Qed.
Theorem C49_relu :
  forall n N X out J D b, forward_and_derivatives relu relu1 relu2 n N X = Ok (out, J, D) -> (b < length X)%nat -> ~ In 0 (visited relu N (nth b X [])) ->
  forall i o, (i < n)%nat -> partial (output relu n N o) i (nth b X []) (nth o (nth i (nth b J []) []) 0)
  /\ partial (reported relu relu1 relu2 n N i o) i (nth b X []) (nth o (nth i (nth b D []) []) 0).
Proof.
  intros n N X out J D b E Hb H0 i o Hi. destruct (C49_derivatives relu relu1 relu2 n N X out J D E) as (_ & _ & _ & Q). destruct (Q b i o Hb Hi) as (_ & Q1 & Q2).
  assert (L : forall v, v <> 0 -> derivable_pt_lim relu v (relu1 v) /\ derivable_pt_lim relu1 v (relu2 v)).
  { intros v Hv. assert (Ha : 0 < Rabs v) by now apply Rabs_pos_lt. unfold relu1 at 1, relu2. destruct (Rlt_dec 0 v) as [Hp|Hp].
    - split; [apply (local_deriv id) | apply (local_deriv (fun _ => 1))]; try apply derivable_pt_lim_id; try apply derivable_pt_lim_const; exists (Rabs v); (split; [exact Ha|]); intros t Ht; rewrite (Rabs_pos_eq v) in Ht by lra; apply Rabs_def2 in Ht.
      + unfold relu, id. rewrite Rmax_right by lra. reflexivity.
      + unfold relu1. destruct (Rlt_dec 0 t); [reflexivity | lra].
    - split; [apply (local_deriv (fun _ => 0)) | apply (local_deriv (fun _ => 0))]; try apply derivable_pt_lim_const; exists (Rabs v); (split; [exact Ha|]); intros t Ht; rewrite (Rabs_left v) in Ht by lra; apply Rabs_def2 in Ht.
      + unfold relu. rewrite Rmax_left by lra. reflexivity.
      + unfold relu1. destruct (Rlt_dec 0 t); [lra | reflexivity]. }
  assert (A : derivatives_at relu relu1 (visited relu N (nth b X []))) by (apply Forall_forall; intros v Hv; apply L; intros ->; contradiction).
  assert (B : derivatives_at relu1 relu2 (visited relu N (nth b X []))) by (apply Forall_forall; intros v Hv; apply L; intros ->; contradiction).
  split; [now apply Q1 | now apply Q2].
Qed.
Print Assumptions C49_relu.
(** Softsign and Tanhshrink are refused, ReLU is the default. *)
Theorem C49_refused :
  (forall nl, create_with_derivatives nl = Err RuntimeError <-> nl = Some Softsign \/ nl = Some Tanhshrink) /\ create_with_derivatives None = Ok ReLU
  /\ (forall k, k <> Softsign -> k <> Tanhshrink -> create_with_derivatives (Some k) = Ok k).
Proof.
  split; [|split; [reflexivity | intros [] H1 H2; try reflexivity; congruence]]. intros [[]|]; cbn; split; intros H; try discriminate; auto; destruct H as [H|H]; discriminate.
Qed.
Print Assumptions C49_refused.
(** The layers follow each other without gaps, from the input size to the output size, with the given hidden widths (default widths as documented). *)
Theorem C49_sizes :
  forall i o, (forall hs, sizes i o (Some hs) = chain i (hs ++ [o]))
  /\ sizes i o None = chain i [(i + i / 2)%nat; (3 * i / 4 + 3 * o)%nat; (5 * o)%nat; o].
Proof.
  intros i o. assert (G : forall hs, sizes i o (Some hs) = chain i (hs ++ [o])).
  { intros [|h hs]; [reflexivity|]. cbn [sizes app chain length]. f_equal. rewrite Nat.sub_succ, Nat.sub_0_r.
    revert h. induction hs as [|h' hs IH]; intros h; [reflexivity|]. cbn [length seq map nth app chain Nat.add]. f_equal. rewrite <- (IH h'), <- seq_shift, map_map. cbn [last]. reflexivity. }
  split; [exact G|]. change (sizes i o None) with (sizes i o (Some (hidden_default i o))). rewrite G. unfold hidden_default. cbn [app]. f_equal.
  replace (i * 3 / 2)%nat with (i + i / 2)%nat. 2:{ replace (i * 3)%nat with (i + i * 2)%nat by lia. rewrite Nat.div_add, Nat.add_comm by lia. reflexivity. }
  replace ((i * 3 + o * 12) / 4)%nat with (3 * i / 4 + 3 * o)%nat. 2:{ replace (i * 3 + o * 12)%nat with (3 * i + (3 * o) * 4)%nat by lia. rewrite Nat.div_add by lia. reflexivity. }
  now rewrite (Nat.mul_comm o 5).
Qed.
Print Assumptions C49_sizes.

(** The wrapper for the exponential family removes exactly the last output of each sample. *)
Theorem C49_discard_last : forall X, length (discard_last X) = length X /\ forall i y l, nth_error X i = Some (y ++ [l]) -> nth_error (discard_last X) i = Some y.
Proof.
  intros X. split; [apply map_length|]. intros i y l H. unfold discard_last. rewrite nth_error_map, H. cbn [option_map]. f_equal. rewrite app_length. cbn [length]. replace (length y + 1 - 1)%nat with (length y) by lia. rewrite firstn_app, Nat.sub_diag, firstn_all. apply app_nil_r.
Qed.
Print Assumptions C49_discard_last.
Example C49_discard_last_case : discard_last [[1; 2; 3]; [4; 5; 6]] = [[1; 2]; [4; 5]].
Proof. reflexivity. Qed.

(** A network with two inputs, one hidden layer of width 2, one output and the square as nonlinearity: y = (x0 + x1)^2 + 3 (x0 - x1)^2. *)
Definition toy : net := {| fc_in := {| weight := [[1; 1]; [1; -1]]; bias := [0; 0] |}; fc_rest := Some ([], {| weight := [[1; 3]]; bias := [0] |}) |}.
Example C49_case :
  (forall v, derivable_pt_lim (fun v => v * v) v (2 * v)) /\ (forall v, derivable_pt_lim (fun v => 2 * v) v 2)
  /\ exists out J D, forward_and_derivatives (fun v => v * v) (fun v => 2 * v) (fun _ => 2) 2 toy [[2; 1]] = Ok (out, J, D) /\ nth 0 (nth 0 out []) 0 = 12
     /\ nth 0 (nth 0 (nth 0 J []) []) 0 = 12 /\ nth 0 (nth 1 (nth 0 J []) []) 0 = 0 /\ nth 0 (nth 0 (nth 0 D []) []) 0 = 8.
Proof.
  split; [intros v; replace (2 * v) with (1 * v + v * 1) by ring; apply (derivable_pt_lim_mult id id); apply derivable_pt_lim_id|].
  split; [intros v; pose proof (derivable_pt_lim_scal id 2 v 1 (derivable_pt_lim_id v)) as Q; rewrite Rmult_1_r in Q; exact Q|].
  do 3 eexists. split; [reflexivity|]. cbn. split; [ring|]. split; [ring|]. split; ring.
Qed.
