(** C67: the derivatives taken by automatic differentiation are those of each sample, for networks that treat samples separately. *)
From Coq Require Import Reals List Arith Bool Lia Lra ClassicalEpsilon.
From Verif Require Import M_Base M_XReal M_NN M_Jacobian S_NN L_NN P_NN L_Jacobian S_Jacobian.
Import ListNotations.
Open Scope R_scope.

(** A network applying [f] to every row: entry (b, l, i) of the Jacobian is the derivative of output i by input l at row b, for every batch; nothing is refused. *)
Theorem C67_jacobian :
  forall deriv f n m X, exact_gradients deriv -> batch_of n X -> (forall x, length x = n -> length (f x) = m) ->
  exists J, jacobian deriv (map f) n m X = Val J
  /\ length J = length X /\ (forall b, (b < length X)%nat -> length (nth b J []) = n) /\ (forall b l, (b < length X)%nat -> (l < n)%nat -> length (nth l (nth b J []) []) = m)
  /\ forall b l i d, (b < length X)%nat -> (l < n)%nat -> (i < m)%nat -> partial (fun x => nth i (f x) 0) l (nth b X []) d -> nth i (nth l (nth b J []) []) 0 = d.
Proof.
  intros deriv f n m X Hd HX Hf. unfold jacobian. rewrite guard_fin by (now rewrite map_length). eexists. split; [reflexivity|].
  unfold transpose21, table3. rewrite map_length, seq_length. split; [reflexivity|]. split; [|split].
  - intros b Hb. rewrite nth_map_seq by exact Hb. apply table2_shape.
  - intros b l Hb Hl. rewrite nth_map_seq by exact Hb. unfold table2. rewrite nth_map_seq by exact Hl. now rewrite map_length, seq_length.
  - intros b l i d Hb Hl Hi H. rewrite nth_map_seq by exact Hb. unfold table2. rewrite nth_map_seq by exact Hl. rewrite nth_map_seq by exact Hi. now apply J0_val.
Qed.
Print Assumptions C67_jacobian.

(** In general (any function of the batch): entry (c, l, i) adds up the derivatives of output i of ALL rows by component l of row c. *)
Theorem C67_mixing :
  forall deriv F n m X, exact_gradients deriv -> batch_of n X -> length (F X) = length X ->
  exists J, jacobian deriv F n m X = Val J
  /\ forall c l i (d : nat -> R), (c < length X)%nat -> (l < n)%nat -> (i < m)%nat ->
     (forall b, (b < length X)%nat -> partial2 (fun Y => nth i (nth b (F Y) []) 0) c l X (d b)) ->
     nth i (nth l (nth c J []) []) 0 = fold_right Rplus 0 (map d (seq 0 (length X))).
Proof.
  intros deriv F n m X Hd HX HF. unfold jacobian. rewrite guard_fin by (now symmetry). eexists. split; [reflexivity|].
  intros c l i d Hc Hl Hi H. unfold transpose21, table3, table2. rewrite nth_map_seq by exact Hc. rewrite nth_map_seq by exact Hl. rewrite nth_map_seq by exact Hi.
  unfold J0. rewrite at3_table by assumption. apply grad2_val; auto. unfold partial2. apply (dpl_sum (fun b t => at2 (F (upd2 X c l t)) b i) d).
  intros b Hb. apply in_seq in Hb. exact (H b ltac:(lia)).
Qed.
Print Assumptions C67_mixing.

(** Second derivatives of an input with shape (batch, first, rest): entry (b, p, i) is the derivative by input p of the derivative by input p / rest. *)
Theorem C67_second_order_flat :
  forall deriv f first rest m X, exact_gradients deriv -> (0 < rest)%nat -> batch_of (first * rest) X -> (forall x, length x = (first * rest)%nat -> length (f x) = m) ->
  exists J D, jacobian_second_order deriv (map f) first rest m X = Val (J, D) /\ jacobian deriv (map f) (first * rest) m X = Val J
  /\ length D = length X /\ (forall b, (b < length X)%nat -> length (nth b D []) = (first * rest)%nat) /\ (forall b l, (b < length X)%nat -> (l < first * rest)%nat -> length (nth l (nth b D []) []) = m)
  /\ forall b p i G d, (b < length X)%nat -> (p < first * rest)%nat -> (i < m)%nat ->
     (forall x, length x = (first * rest)%nat -> partial (fun x => nth i (f x) 0) (p / rest) x (G x)) -> partial G p (nth b X []) d -> nth i (nth p (nth b D []) []) 0 = d.
Proof.
  intros deriv f first rest m X Hd Hr HX Hf. unfold jacobian_second_order, jacobian. cbv zeta. rewrite !guard_fin by (now rewrite map_length). eexists. eexists. split; [reflexivity|]. split; [reflexivity|].
  set (n := (first * rest)%nat) in *. unfold transpose21, table3. rewrite map_length, seq_length. split; [reflexivity|]. split; [|split].
  - intros b Hb. rewrite nth_map_seq by exact Hb. apply table2_shape.
  - intros b l Hb Hl. rewrite nth_map_seq by exact Hb. unfold table2. rewrite nth_map_seq by exact Hl. now rewrite map_length, seq_length.
  - intros b p i G d Hb Hp Hi HG H. rewrite nth_map_seq by exact Hb. unfold table2. rewrite nth_map_seq by exact Hp. rewrite nth_map_seq by exact Hi.
    unfold J2. fold n. rewrite at3_table by assumption. apply (grad3_row deriv Hd f n m X b i (p / rest) p G d); auto.
    assert (p / rest * rest <= p)%nat by (rewrite Nat.mul_comm; apply Nat.mul_div_le; lia). nia.
Qed.
Print Assumptions C67_second_order_flat.

(** Two-dimensional inputs: entry (b, j, i) is the second derivative of output i by input j at row b. *)
Theorem C67_second_order :
  forall deriv f n m X, exact_gradients deriv -> batch_of n X -> (forall x, length x = n -> length (f x) = m) ->
  exists J D, jacobian_second_order deriv (map f) n 1 m X = Val (J, D) /\ jacobian deriv (map f) n m X = Val J
  /\ length D = length X /\ (forall b, (b < length X)%nat -> length (nth b D []) = n) /\ (forall b l, (b < length X)%nat -> (l < n)%nat -> length (nth l (nth b D []) []) = m)
  /\ forall b j i G d, (b < length X)%nat -> (j < n)%nat -> (i < m)%nat ->
     (forall x, length x = n -> partial (fun x => nth i (f x) 0) j x (G x)) -> partial G j (nth b X []) d -> nth i (nth j (nth b D []) []) 0 = d.
Proof.
  intros deriv f n m X Hd HX Hf. pose proof (C67_second_order_flat deriv f n 1 m X Hd Nat.lt_0_1) as Q. rewrite Nat.mul_1_r in Q. destruct (Q HX Hf) as (J & D & E & E1 & L1 & L2 & L3 & V).
  exists J, D. split; [exact E|]. split; [exact E1|]. split; [exact L1|]. split; [exact L2|]. split; [exact L3|].
  intros b j i G d Hb Hj Hi HG H. apply (V b j i G d Hb Hj Hi); [|exact H]. rewrite Nat.div_1_r. exact HG.
Qed.
Print Assumptions C67_second_order.

(** Hessians: entry (b, l, j, i) is the derivative by input l of the derivative by input j of output i. *)
Theorem C67_hessian :
  forall deriv f n m X, exact_gradients deriv -> batch_of n X -> (forall x, length x = n -> length (f x) = m) ->
  exists J H, jacobian_hessian deriv (map f) n m X = Val (J, H) /\ jacobian deriv (map f) n m X = Val J
  /\ forall b l j i G d, (b < length X)%nat -> (l < n)%nat -> (j < n)%nat -> (i < m)%nat ->
     (forall x, length x = n -> partial (fun x => nth i (f x) 0) j x (G x)) -> partial G l (nth b X []) d -> nth i (nth j (nth l (nth b H []) []) []) 0 = d.
Proof.
  intros deriv f n m X Hd HX Hf. unfold jacobian_hessian, jacobian. rewrite !guard_fin by (now rewrite map_length). eexists. eexists. split; [reflexivity|]. split; [reflexivity|].
  intros b l j i G d Hb Hl Hj Hi HG H. unfold transpose31. rewrite nth_map_seq by exact Hb. rewrite nth_map_seq by exact Hl. rewrite nth_map_seq by exact Hj. rewrite nth_map_seq by exact Hi.
  unfold H0. rewrite nth_map_seq by exact Hb. rewrite nth_map_seq by exact Hi. rewrite nth_map_seq by exact Hj. rewrite nth_map_seq by exact Hl. now apply (grad3_row deriv Hd f n m X b i j l G d).
Qed.
Print Assumptions C67_hessian.

(** With a smooth nonlinearity both routes of the score matching loss (statisticslearning.py 1755-1759) give the same numbers: the network's own recursion and automatic differentiation. *)
Theorem C67_routes_agree :
  forall deriv act d1 d2 n N X out J D, exact_gradients deriv -> (forall v, derivable_pt_lim act v (d1 v)) -> (forall v, derivable_pt_lim d1 v (d2 v)) ->
  forward_and_derivatives act d1 d2 n N X = Ok (out, J, D) ->
  out = map (forward1 act N) X /\ jacobian_second_order deriv (map (forward1 act N)) n 1 (length (bias (last (layers N) (fc_in N)))) X = Val (J, D).
Proof.
  intros deriv act d1 d2 n N X out J D Hd Ha Hd1 E. destruct (deriv_ok _ _ _ _ _ _ _ E) as (HX & HN).
  set (m := length (bias (last (layers N) (fc_in N)))).
  assert (HB : batch_of n X). { apply Forall_forall. intros x Hx. unfold ok_batch in HX. rewrite forallb_forall in HX. apply HX in Hx. now apply Nat.eqb_eq in Hx. }
  assert (SQ : square_layers N) by (eapply fits_square; exact HN).
  assert (Hlen : forall y, len (run act d1 d2 N y) m).
  { intros y. unfold m, run, layers. unfold square_layers, layers in SQ. destruct (fc_rest N) as [(hs & lo)|].
    - rewrite app_comm_cons, last_last. rewrite <- SQ by (right; apply in_or_app; right; now left).
      assert (Q : exists k, len (fold_left (r1 act d1 d2) hs (s0 (fc_in N) y)) k).
      { assert (SQh : forall L, In L hs -> length (weight L) = length (bias L)) by (intros L HL; apply SQ; right; apply in_or_app; now left).
        assert (Q0 : exists k, len (s0 (fc_in N) y) k) by (eexists; apply len0, SQ; now left). clear -SQh Q0. revert Q0. generalize (s0 (fc_in N) y). induction hs as [|L hs IH]; intros s Q0; [exact Q0|].
        cbn [fold_left]. apply IH; [intros L' HL; apply SQh; now right|]. destruct Q0 as (k & Q0). eexists. eapply len1; [apply SQh; now left | exact Q0]. }
      destruct Q as (k & Q). eapply len1; [apply SQ; right; apply in_or_app; right; now left | exact Q].
    - cbn [last]. rewrite <- SQ by (now left). apply len0, SQ. now left. }
  assert (Hf : forall x, length x = n -> length (forward1 act N x) = m) by (intros x _; rewrite <- (run_x act d1 d2); apply Hlen).
  rewrite derivatives_spec in E by assumption. injection E as <- <- <-. split; [reflexivity|].
  destruct (C67_second_order deriv (forward1 act N) n m X Hd HB Hf) as (J & D & E & E1 & L1 & L2 & L3 & V).
  destruct (C67_jacobian deriv (forward1 act N) n m X Hd HB Hf) as (J' & E1' & M1 & M2 & M3 & W). rewrite E1 in E1'. injection E1' as <-. rewrite E. f_equal.
  assert (A : forall vs, derivatives_at act d1 vs) by (intros vs; apply Forall_forall; intros v _; apply Ha). assert (B : forall vs, derivatives_at d1 d2 vs) by (intros vs; apply Forall_forall; intros v _; apply Hd1).
  assert (P1 : forall x j i, length x = n -> (j < n)%nat -> partial (fun x => nth i (forward1 act N x) 0) j x (nth i (sf (run act d1 d2 N x) j) 0)).
  { intros x j i Hx Hj. unfold partial. eapply dpl_ext; [|exact (partial_output act d1 d2 n N x j i Hx Hj HN (A _))]. intros t. cbn. apply output_eq; [now rewrite upd_len | exact HN]. }
  assert (P2 : forall x j i, length x = n -> (j < n)%nat -> partial (fun x => nth i (sf (run act d1 d2 N x) j) 0) j x (nth i (ss (run act d1 d2 N x) j j) 0)).
  { intros x j i Hx Hj. unfold partial. eapply dpl_ext; [|exact (partial_reported act d1 d2 n N x j j i Hx Hj Hj HN (A _) (B _))]. intros t. cbn. apply reported_eq; [now rewrite upd_len | exact Hj | exact HN]. }
  assert (X2 : forall (T : list (list (list R))) (g : list R -> nat -> list R), length T = length X -> (forall b, (b < length X)%nat -> length (nth b T []) = n) ->
            (forall b l, (b < length X)%nat -> (l < n)%nat -> length (nth l (nth b T []) []) = m) -> (forall y l, length (g y l) = m) ->
            (forall b l i, (b < length X)%nat -> (l < n)%nat -> (i < m)%nat -> nth i (nth l (nth b T []) []) 0 = nth i (g (nth b X []) l) 0) -> T = map (fun y => map (g y) (seq 0 n)) X).
  { intros T g K1 K2 K3 K4 K5. apply (nth_ext _ _ [] []); [now rewrite map_length|]. intros b Hb. rewrite K1 in Hb. rewrite (nth_map_list _ X b [] []) by exact Hb.
    apply (nth_ext _ _ [] []); [rewrite map_length, seq_length; now apply K2|]. intros l Hl. rewrite K2 in Hl by exact Hb. rewrite nth_map_seq by exact Hl.
    apply (nth_ext _ _ 0 0); [rewrite K4; now apply K3|]. intros i Hi. rewrite K3 in Hi by assumption. now apply K5. }
  f_equal; [apply (X2 _ (fun y i => sf (run act d1 d2 N y) i)) | apply (X2 _ (fun y i => ss (run act d1 d2 N y) i i))]; auto.
  - intros y l. apply Hlen.
  - intros b l i Hb Hl Hi. apply W; auto. apply P1; [now apply batch_row | exact Hl].
  - intros y l. apply Hlen.
  - intros b l i Hb Hl Hi. apply (V b l i (fun x => nth i (sf (run act d1 d2 N x) l) 0)); auto. apply P2; [now apply batch_row | exact Hl].
Qed.
Print Assumptions C67_routes_agree.

(** The check against NaN and infinities catches a total of plus infinity only; NaN and minus infinity pass. *)
Theorem C67_check_refuted :
  (forall (A : Type) inp out (k : A), length inp = length out -> (guard inp out k = ValueErr <-> xadd (xsum (concat inp)) (xsum (concat out)) = XInf))
  /\ (forall (A : Type) inp out (k : A), guard inp out k = AssertionError <-> length inp <> length out)
  /\ checked [[XNaN]] [[XR 1]] = true /\ checked [[XNInf]] [[XR 1]] = true /\ checked [[XInf]] [[XNInf]] = true.
Proof.
  split; [|split; [|auto]].
  - intros A inp out k H. unfold guard, checked. rewrite H, Nat.eqb_refl. destruct (xadd _ _); cbn; split; intros; congruence.
  - intros A inp out k. unfold guard. destruct (Nat.eqb_spec (length inp) (length out)); destruct (checked inp out); split; intros; congruence.
Qed.
Print Assumptions C67_check_refuted.

(** Exact gradients exist (so the hypothesis above can be met). *)
Lemma exact_gradients_exist : exists deriv, exact_gradients deriv.
Proof.
  exists (fun s c l X => match excluded_middle_informative (exists d, partial2 s c l X d) with left E => proj1_sig (constructive_indefinite_description _ E) | right _ => 0 end).
  intros s c l X d _ _ H. cbv beta. destruct (excluded_middle_informative _) as [E|E]; [|exfalso; apply E; now exists d].
  destruct (constructive_indefinite_description _ E) as (d' & H'). cbn. eapply uniqueness_limite; [exact H' | exact H].
Qed.

(** A layer that subtracts the mean over the batch (as batch normalisation does in training): with two samples the reported derivative is 0, though
    the output of a sample has derivative 1/2 by its own input. *)
Definition centre (Y : list (list R)) : list (list R) := map (fun y => [nth 0 y 0 - (nth 0 (nth 0 Y []) 0 + nth 0 (nth 1 Y []) 0) / 2]) Y.
Theorem C67_mixing_refuted :
  forall deriv, exact_gradients deriv -> forall a b, exists J, jacobian deriv centre 1 1 [[a]; [b]] = Val J /\ nth 0 (nth 0 (nth 0 J []) []) 0 = 0
  /\ partial2 (fun Y => nth 0 (nth 0 (centre Y) []) 0) 0 0 [[a]; [b]] (1 / 2).
Proof.
  intros deriv Hd a b. assert (P0 : partial2 (fun Y => nth 0 (nth 0 (centre Y) []) 0) 0 0 [[a]; [b]] (1 / 2)).
  { unfold partial2. cbn. eapply dpl_ext with (f := fun t => t * (1 / 2) + (- (b / 2))); [intros t; cbn; lra|].
    replace (1 / 2) with (1 * (1 / 2) + a * 0 + 0) at 1 by lra. apply (derivable_pt_lim_plus (fun t => t * (1 / 2)) (fun _ => - (b / 2))); [|apply derivable_pt_lim_const].
    apply (derivable_pt_lim_mult (fun t => t) (fun _ => 1 / 2)); [apply derivable_pt_lim_id | apply derivable_pt_lim_const]. }
  assert (P1 : partial2 (fun Y => nth 0 (nth 1 (centre Y) []) 0) 0 0 [[a]; [b]] (- (1 / 2))).
  { unfold partial2. cbn. eapply dpl_ext with (f := fun t => t * (- (1 / 2)) + (b / 2)); [intros t; cbn; lra|].
    replace (- (1 / 2)) with (1 * (- (1 / 2)) + a * 0 + 0) at 1 by lra. apply (derivable_pt_lim_plus (fun t => t * (- (1 / 2))) (fun _ => b / 2)); [|apply derivable_pt_lim_const].
    apply (derivable_pt_lim_mult (fun t => t) (fun _ => - (1 / 2))); [apply derivable_pt_lim_id | apply derivable_pt_lim_const]. }
  destruct (C67_mixing deriv centre 1 1 [[a]; [b]] Hd) as (J & E & V); [now repeat constructor | reflexivity|]. exists J. split; [exact E|]. split; [|exact P0].
  rewrite (V 0%nat 0%nat 0%nat (fun b => match b with O => 1 / 2 | _ => - (1 / 2) end)); [cbn; lra | cbn; lia | lia | lia |].
  intros [|[|k]] Hk; [exact P0 | exact P1 | cbn in Hk; lia].
Qed.
Print Assumptions C67_mixing_refuted.

(** For an input with a third dimension (batch x 1 x 2) the second derivative by the second number is not returned: f(x0, x1) = x1^2 has 2, the code reports the mixed derivative 0. *)
Theorem C67_third_dimension_refuted :
  forall deriv, exact_gradients deriv -> forall a b,
  exists J D, jacobian_second_order deriv (map (fun x => [nth 1 x 0 * nth 1 x 0])) 1 2 1 [[a; b]] = Val (J, D) /\ nth 0 (nth 1 (nth 0 D []) []) 0 = 0
  /\ (forall x, length x = 2%nat -> partial (fun x => nth 0 [nth 1 x 0 * nth 1 x 0] 0) 1 x (2 * nth 1 x 0)) /\ partial (fun x => 2 * nth 1 x 0) 1 [a; b] 2.
Proof.
  intros deriv Hd a b.
  destruct (C67_second_order_flat deriv (fun x => [nth 1 x 0 * nth 1 x 0]) 1 2 1 [[a; b]] Hd) as (J & D & E & _ & _ & _ & _ & V); [lia | now repeat constructor | reflexivity|].
  exists J, D. split; [exact E|]. split; [|split].
  - apply (V 0%nat 1%nat 0%nat (fun _ => 0)); [cbn; lia | lia | lia | |].
    + intros [|u [|v [|w x]]] Hx; try discriminate. unfold partial. cbn. apply derivable_pt_lim_const.
    + unfold partial. apply derivable_pt_lim_const.
  - intros [|u [|v [|w x]]] Hx; try discriminate. unfold partial. cbn. replace (2 * v) with (1 * v + v * 1) by lra. apply (derivable_pt_lim_mult (fun t => t) (fun t => t)); apply derivable_pt_lim_id.
  - unfold partial. cbn. replace 2 with (0 * b + 2 * 1) at 1 by lra. apply (derivable_pt_lim_mult (fun _ => 2) (fun t => t)); [apply derivable_pt_lim_const | apply derivable_pt_lim_id].
Qed.
Print Assumptions C67_third_dimension_refuted.

(** Two samples through f(x) = (x^2): derivatives 2 and 6, second derivatives 2 and 2. *)
Example C67_square : exists deriv J D, exact_gradients deriv /\ jacobian_second_order deriv (map (fun x => [nth 0 x 0 * nth 0 x 0])) 1 1 1 [[1]; [3]] = Val (J, D)
  /\ nth 0 (nth 0 (nth 0 J []) []) 0 = 2 /\ nth 0 (nth 0 (nth 1 J []) []) 0 = 6 /\ nth 0 (nth 0 (nth 1 D []) []) 0 = 2.
Proof.
  destruct exact_gradients_exist as (deriv & Hd). set (f := fun x : list R => [nth 0 x 0 * nth 0 x 0]).
  destruct (C67_second_order deriv f 1 1 [[1]; [3]] Hd) as (J & D & E & E1 & _ & _ & _ & V); [now repeat constructor | reflexivity|].
  destruct (C67_jacobian deriv f 1 1 [[1]; [3]] Hd) as (J' & E1' & _ & _ & _ & W); [now repeat constructor | reflexivity|]. rewrite E1 in E1'. injection E1' as <-.
  assert (P : forall x, length x = 1%nat -> partial (fun x => nth 0 (f x) 0) 0 x (2 * nth 0 x 0)).
  { intros [|u [|v x]] Hx; try discriminate. unfold partial, f. cbn. replace (2 * u) with (1 * u + u * 1) by lra. apply (derivable_pt_lim_mult (fun t => t) (fun t => t)); apply derivable_pt_lim_id. }
  exists deriv, J, D. split; [exact Hd|]. split; [exact E|]. split; [|split].
  - apply W; [cbn; lia | lia | lia |]. pose proof (P [1] eq_refl) as Q. cbn [nth] in *. now replace (2 * 1) with 2 in Q by lra.
  - apply W; [cbn; lia | lia | lia |]. pose proof (P [3] eq_refl) as Q. cbn [nth] in *. now replace (2 * 3) with 6 in Q by lra.
  - apply (V 1%nat 0%nat 0%nat (fun x => 2 * nth 0 x 0)); [cbn; lia | lia | lia | exact P |].
    unfold partial. cbn. replace 2 with (0 * 3 + 2 * 1) at 1 by lra. apply (derivable_pt_lim_mult (fun _ => 2) (fun t => t)); [apply derivable_pt_lim_const | apply derivable_pt_lim_id].
Qed.
