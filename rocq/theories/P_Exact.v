(** Statements that fix details left open elsewhere: C33, C40, C49, C53, C61. *)
From Coq Require Import Reals Lra Lia List Arith Bool.
From Verif Require M_Transform M_Kernel M_Priors M_NN S_NN P_NN M_Wass P_Wass M_Losses.
From Verif Require Import M_Base M_XReal.
Import ListNotations.
Open Scope R_scope.

(** C33: the network kernel moves every node by a random number of its own: entry i is what a kernel of that node alone makes of number i. *)
Lemma steps_nth network from : forall l us ns, M_Kernel.net_steps network from l us = Ok ns -> length ns = length l /\
  forall i v, nth_error l i = Some v -> exists u n, nth_error us i = Some u /\ nth_error ns i = Some n /\ M_Kernel.net_steps network from [v] [u] = Ok [n].
Proof.
  induction l as [|x l IH]; intros us ns H; [injection H as <-; split; [reflexivity|]; intros [|i] v E; discriminate|]. destruct us as [|u us]; [discriminate|]. cbn [M_Kernel.net_steps] in H.
  destruct (M_Kernel.net_step network (from x) x u) as [n|e] eqn:E; [|discriminate]. destruct (M_Kernel.net_steps network from l us) as [ns'|e] eqn:E'; [|discriminate]. injection H as <-. destruct (IH us ns' E') as [L IH']. split; [cbn; lia|].
  intros [|i] v Hv; [injection Hv as ->; exists u, n; split; [reflexivity|]; split; [reflexivity|]; cbn [M_Kernel.net_steps]; rewrite E; reflexivity|]. exact (IH' i v Hv).
Qed.
Theorem C33_own_numbers : forall network us ns,
  (forall ls, M_Kernel.net_update_arrays network ls us = Ok ns -> length ns = length (concat ls) /\ forall i v, nth_error (concat ls) i = Some v ->
    exists u n, nth_error us i = Some u /\ nth_error ns i = Some n /\ M_Kernel.net_update_arrays network [[v]] [u] = Ok [n]) /\
  (forall l, M_Kernel.net_update_scalars network l us = Ok ns -> length ns = length l /\ forall i v, nth_error l i = Some v ->
    exists u n, nth_error us i = Some u /\ nth_error ns i = Some n /\ M_Kernel.net_update_scalars network [v] [u] = Ok [n]).
Proof. intros network us ns. split; intros l H; exact (steps_nth network _ _ us ns H). Qed.
Print Assumptions C33_own_numbers.
(** two nodes in a ring of four, moved by different numbers *)
Example C33_own_numbers_case : M_Kernel.net_update_arrays (fun v => Some [((v + 1) mod 4, 1%Q); ((v + 3) mod 4, 1%Q)]%Z) [[0%Z; 2%Z]] [(1 # 4)%Q; (3 # 4)%Q] = Ok [1%Z; 1%Z].
Proof. reflexivity. Qed.

(** Python ints, and numpy integers of the listed widths *)
Definition whole (widths : list nat) (v : M_Priors.pyv) : Prop := (exists z, v = M_Priors.PyInt z) \/ exists w z, v = M_Priors.NpInt w z /\ In w widths.
Lemma is_int_whole v : M_Priors.is_int v = true <-> whole [32; 64]%nat v.
Proof.
  destruct v as [z|w z|x|x]; cbn [M_Priors.is_int].
  - split; [intros _; left; exists z; reflexivity|reflexivity].
  - destruct (Nat.eq_dec w 32) as [->|H1]; [split; [intros _; right; exists 32%nat, z; split; [reflexivity|left; reflexivity]|reflexivity]|]. destruct (Nat.eq_dec w 64) as [->|H2]; [split; [intros _; right; exists 64%nat, z; split; [reflexivity|right; left; reflexivity]|reflexivity]|].
    split; [intros H; exfalso|intros [[z' E]|(w' & z' & E & [X|[X|[]]])]; [discriminate|injection E as <- <-; congruence|injection E as <- <-; congruence]].
    do 65 (destruct w as [|w]; [try discriminate; try (apply H1; reflexivity); apply H2; reflexivity|]). discriminate.
  - split; [discriminate|intros [[z E]|(w & z & E & _)]; discriminate].
  - split; [discriminate|intros [[z E]|(w & z & E & _)]; discriminate].
Qed.
Lemma is_int16_whole v : M_Priors.is_int16 v = true <-> whole [16; 32; 64]%nat v.
Proof.
  assert (E : M_Priors.is_int16 v = true <-> (exists z, v = M_Priors.NpInt 16 z) \/ M_Priors.is_int v = true).
  { destruct v as [z|w z|x|x]; try (split; [intros H; right; exact H|intros [[z' H]|H]; [discriminate|exact H]]). destruct (Nat.eq_dec w 16) as [->|H1]; [split; [intros _; left; exists z; reflexivity|reflexivity]|].
    replace (M_Priors.is_int16 (M_Priors.NpInt w z)) with (M_Priors.is_int (M_Priors.NpInt w z)); [split; [intros H; right; exact H|intros [[z' H]|H]; [congruence|exact H]]|].
    do 17 (destruct w as [|w]; [try reflexivity; exfalso; apply H1; reflexivity|]). reflexivity. }
  rewrite E, is_int_whole. unfold whole. split.
  - intros [[z ->]|[H|(w & z & H1 & H2)]]; [right; exists 16%nat, z; split; [reflexivity|left; reflexivity]|left; exact H|right; exists w, z; split; [exact H1|right; exact H2]].
  - intros [H|(w & z & H1 & [<-|H2])]; [right; left; exact H|left; exists z; exact H1|right; right; exists w, z; split; assumption].
Qed.
(** C40: a value of a discrete model passes the check of the output exactly if it is a Python int or an integer of 32 or 64 bits; the number of trials of a binomial has to be one of these
    (otherwise TypeError); the limits of a discrete uniform may also have 16 bits, and have to be in order. *)
Theorem C40_output :
  (forall v ps, exists b, M_Priors.discrete_check_output (v :: ps) = Ok b /\ (b = true <-> whole [32; 64]%nat v)) /\
  (forall n p, M_Priors.binom_check_input [n; p] = Err TypeError <-> ~ whole [32; 64]%nat n) /\
  (forall lo hi, exists b, M_Priors.du_check_input [lo; hi] = Ok b /\ (b = true <-> whole [16; 32; 64]%nat lo /\ whole [16; 32; 64]%nat hi /\ M_Transform.xle (M_Priors.val hi) (M_Priors.val lo) = false)).
Proof.
  split; [|split].
  - intros v ps. eexists. split; [reflexivity|]. apply is_int_whole.
  - intros n p. rewrite <- is_int_whole. unfold M_Priors.binom_check_input. destruct (M_Priors.is_int n); cbn [negb]; [|split; [discriminate|reflexivity]]. split; [|intros H; exfalso; apply H; reflexivity]. intros H. exfalso. revert H. repeat (match goal with |- context [if ?b then _ else _] => destruct b end); discriminate.
  - intros lo hi. eexists. split; [reflexivity|]. rewrite !andb_true_iff, !is_int16_whole, negb_true_iff. split; [intros [[A B] C]; split; [exact A|split; [exact B|exact C]]|intros (A & B & C); split; [split; [exact A|exact B]|exact C]].
Qed.
Print Assumptions C40_output.
(** a 16-bit integer is refused *)
Example C40_output_case : M_Priors.discrete_check_output [M_Priors.NpInt 16 1] = Ok false /\ M_Priors.discrete_check_output [M_Priors.NpInt 64 1] = Ok true /\ M_Priors.binom_check_input [M_Priors.NpInt 16 1; M_Priors.PyFlt (XR 0)] = Err TypeError /\ M_Priors.du_check_input [M_Priors.NpInt 8 1; M_Priors.NpInt 16 2] = Ok false.
Proof. split; [reflexivity|]. split; [reflexivity|]. split; reflexivity. Qed.

(** C49: a network whose layers have the sizes it is built with takes every batch of rows of the input size; none of the passes raises. *)
Definition built (L : M_NN.layer) (io : nat * nat) : Prop := length (M_NN.bias L) = snd io /\ length (M_NN.weight L) = snd io /\ forall row, In row (M_NN.weight L) -> length row = fst io.
Lemma fits_built L io : built L io -> M_NN.fits (fst io) L = true.
Proof. intros (H1 & H2 & H3). unfold M_NN.fits. rewrite H1, H2, Nat.eqb_refl, andb_true_r. apply forallb_forall. intros row H. apply Nat.eqb_eq, H3, H. Qed.
Lemma fits_chain : forall hs i Ls, Forall2 built Ls (S_NN.chain i hs) -> M_NN.fits_all i Ls = true.
Proof.
  induction hs as [|h hs IH]; intros i Ls H; cbn [S_NN.chain] in H; inversion H as [|L io Ls' ios H1 H2]; subst; [reflexivity|]. pose proof (fits_built L (i, h) H1) as HF. cbn [fst] in HF. cbn [M_NN.fits_all]. rewrite HF. destruct H1 as (-> & _). exact (IH h Ls' H2).
Qed.
Theorem C49_accepted : forall act d1 d2 i o hidden N X, Forall2 built (M_NN.layers N) (M_NN.sizes i o hidden) -> (forall x, In x X -> length x = i) ->
  M_NN.forward act i N X = Ok (map (M_NN.forward1 act N) X) /\ (exists r, M_NN.forward_and_derivatives act d1 d2 i N X = Ok r) /\ (exists r, M_NN.forward_and_first_derivatives act d1 i N X = Ok r) /\ exists r, M_NN.forward_and_full_derivatives act d1 d2 i N X = Ok r.
Proof.
  intros act d1 d2 i o hidden N X H HX. destruct (P_NN.C49_sizes i o) as [G1 G2].
  assert (F : M_NN.fits_all i (M_NN.layers N) = true) by (destruct hidden as [hs|]; [rewrite G1 in H|rewrite G2 in H]; exact (fits_chain _ _ _ H)).
  assert (B : M_NN.ok_batch i X = true) by (apply forallb_forall; intros x Hx; apply Nat.eqb_eq, HX, Hx).
  split; [unfold M_NN.forward; rewrite B, F; reflexivity|]. split; [|split].
  - unfold M_NN.forward_and_derivatives. rewrite B, F. cbn [andb]. match goal with |- exists r, match ?t with pair _ _ => _ end = _ => destruct t as [[a b] c] end. eexists. reflexivity.
  - unfold M_NN.forward_and_first_derivatives. rewrite B, F. cbn [andb]. match goal with |- exists r, match ?t with pair _ _ => _ end = _ => destruct t as [a b] end. eexists. reflexivity.
  - unfold M_NN.forward_and_full_derivatives. rewrite B, F. cbn [andb]. match goal with |- exists r, match ?t with pair _ _ => _ end = _ => destruct t as [[a b] c] end. eexists. reflexivity.
Qed.
Print Assumptions C49_accepted.
(** one input, a hidden layer of width 2, one output *)
Definition wide : M_NN.net := M_NN.Build_net (M_NN.Build_layer [[1]; [2]] [0; 0]) (Some ([], M_NN.Build_layer [[1; 1]] [3])).
Example C49_accepted_case : Forall2 built (M_NN.layers wide) (M_NN.sizes 1 1 (Some [2%nat])) /\ M_NN.forward (fun x => x) 1 wide [[5]] = Ok [[18]].
Proof.
  split.
  - repeat constructor; cbn; intros row H; repeat (destruct H as [<-|H]; [reflexivity|]); destruct H.
  - cbn. do 3 f_equal. lra.
Qed.

(** C53: for parameters of one component each and weights of shape (n, 1) the plotted distances are those between the samples and weights of consecutive iterations, in the order of the journal. *)
Definition columns (rows : list (list R)) : M_Wass.parray := M_Wass.Nested (map (map (fun x => [x])) rows).
Definition column1 (ws : list R) : M_Wass.warray := M_Wass.W2 (map (fun w => [w]) ws).
Lemma concat_ones {A} (l : list A) : concat (map (fun x => [x]) l) = l.
Proof. induction l as [|x l IH]; [reflexivity|]. cbn. f_equal. exact IH. Qed.
Lemma prows_columns rows : M_Wass.prows (columns rows) = rows.
Proof. unfold M_Wass.prows, columns. rewrite map_map. rewrite (map_ext _ (fun r => r)) by (intros r; apply concat_ones). apply map_id. Qed.
Theorem C53_components : forall emd2 type params weights ds, (2 <= length weights)%nat -> M_Wass.wass_series emd2 type (map columns params) (map column1 weights) = Ok ds ->
  length ds = (length weights - 1)%nat /\ forall i p1 p2 w1 w2, nth_error params i = Some p1 -> nth_error params (S i) = Some p2 -> nth_error weights i = Some w1 -> nth_error weights (S i) = Some w2 ->
    exists d, nth_error ds i = Some d /\ M_Wass.wass_dist emd2 p1 p2 (Some w1) (Some w2) = Ok d.
Proof.
  intros emd2 type params weights ds HW H. destruct (P_Wass.C53_series emd2 type _ _ ds ltac:(rewrite map_length; exact HW) H) as [L G]. rewrite map_length in L, G. split; [exact L|].
  intros i p1 p2 w1 w2 H1 H2 H3 H4. assert (Hi : (S i < length weights)%nat) by (apply nth_error_Some; congruence). destruct (G i ltac:(lia)) as (a & b & c & e & d & E1 & E2 & E3 & E4 & E5 & E6).
  rewrite (map_nth_error _ _ _ H1) in E1. rewrite (map_nth_error _ _ _ H2) in E2. rewrite (map_nth_error _ _ _ H3) in E3. rewrite (map_nth_error _ _ _ H4) in E4. injection E1 as <-. injection E2 as <-. injection E3 as <-. injection E4 as <-.
  exists d. split; [exact E5|]. rewrite !prows_columns in E6. cbn [M_Wass.wflat column1] in E6. rewrite !concat_ones in E6. exact E6.
Qed.
Print Assumptions C53_components.
(** two iterations of one sample with two parameters each, with any solver *)
Example C53_components_case : forall emd2, exists d, M_Wass.wass_series emd2 1 (map columns [[[0; 0]]; [[3; 4]]]) (map column1 [[1]; [2]]) = Ok [d] /\ M_Wass.wass_dist emd2 [[0; 0]] [[3; 4]] (Some [1]) (Some [2]) = Ok d.
Proof. intros emd2. eexists. split; reflexivity. Qed.

(** C61: a Rademacher projection is the sign of its normal number, and 0 for 0. *)
Theorem C61_signs : forall vr normals, exists vs, M_Losses.projections M_Losses.Rademacher vr normals = Ok vs /\ length vs = length normals /\
  forall i v, nth_error normals i = Some v -> exists r, nth_error vs i = Some r /\ length r = length v /\ forall j x, nth_error v j = Some x -> exists s, nth_error r j = Some s /\ s * Rabs x = x /\ (x = 0 -> s = 0).
Proof.
  intros vr normals. exists (map (map M_Losses.rsgn) normals). split; [reflexivity|]. split; [apply map_length|]. intros i v Hv. exists (map M_Losses.rsgn v). split; [apply map_nth_error, Hv|]. split; [apply map_length|].
  intros j x Hx. exists (M_Losses.rsgn x). split; [apply map_nth_error, Hx|]. unfold M_Losses.rsgn. destruct (Rlt_dec 0 x) as [H|H]; [rewrite Rabs_right by lra; split; lra|]. destruct (Rlt_dec x 0) as [H'|H']; [rewrite Rabs_left by lra; split; lra|]. assert (x = 0) as -> by lra. split; [ring|reflexivity].
Qed.
Print Assumptions C61_signs.
Example C61_signs_case : M_Losses.projections M_Losses.Rademacher false [[2; 0; -3]] = Ok [[1; 0; -1]].
Proof.
  cbn. unfold M_Losses.rsgn. do 2 f_equal. destruct (Rlt_dec 0 2); [|exfalso; lra]. destruct (Rlt_dec 0 0); [exfalso; lra|]. destruct (Rlt_dec 0 (-3)); [exfalso; lra|]. destruct (Rlt_dec (-3) 0); [reflexivity|exfalso; lra].
Qed.
