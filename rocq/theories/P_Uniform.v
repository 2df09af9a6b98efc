(** C41: uniform priors; C58: exponential, normal, log-normal and Student priors. *)
From Coq Require Import Reals Lra Lia List ZArith.
From Verif Require Import M_Base M_Num M_XReal M_Transform M_MMD M_Stats M_Priors S_Stats S_Priors L_PMC L_Stats L_Distance L_Priors.
Import ListNotations.
Open Scope R_scope.

Lemma bc_eq {A B C} (f : A -> B -> C) a b : length a = length b -> bc f a b = Ok (map (fun ab => f (fst ab) (snd ab)) (combine a b)).
Proof. intros H. unfold bc. rewrite H, Nat.eqb_refl. reflexivity. Qed.
Lemma Inside_cons a lo b hi v x : Inside (a :: lo) (b :: hi) (v :: x) <-> a <= v <= b /\ Inside lo hi x.
Proof. unfold Inside. split.
  - intros H. split; [apply (H 0%nat); cbn; lia|]. intros j Hj. apply (H (S j)). cbn. lia.
  - intros (H0 & H) [|j] Hj; [exact H0|]. apply (H j). cbn in Hj. lia. Qed.
Lemma Inside_nil x : Inside [] [] x. Proof. intros j Hj. cbn in Hj. lia. Qed.
Definition inbox (lo hi x : list R) : bool := forallb (fun b => b) (map (fun ab => andb (fst ab) (snd ab))
  (combine (map (fun ab => xle (snd ab) (fst ab)) (combine (map XR x) (map XR lo))) (map (fun ab => xle (fst ab) (snd ab)) (combine (map XR x) (map XR hi))))).
Lemma inbox_spec : forall lo hi x, length lo = length hi -> length x = length lo -> inbox lo hi x = true <-> Inside lo hi x.
Proof.
  induction lo as [|a lo IH]; intros [|b hi] [|v x] H1 H2; try discriminate; [split; [intros _; apply Inside_nil | reflexivity]|].
  rewrite Inside_cons. unfold inbox. cbn [map combine forallb fst snd]. fold (inbox lo hi x). rewrite !andb_true_iff, !xle_fin, IH by (cbn in *; congruence). tauto.
Qed.
Lemma xprod_fin : forall l a, fold_left xmul (map XR l) (XR a) = XR (a * fold_right Rmult 1 l).
Proof. induction l as [|b l IH]; intros a; [cbn; f_equal; ring|]. cbn [map fold_left fold_right xmul]. rewrite IH. f_equal. ring. Qed.
Lemma widths_fin lo hi : length lo = length hi -> map (fun ab => xsub (fst ab) (snd ab)) (combine (map XR hi) (map XR lo)) = map XR (map (fun ab => snd ab - fst ab) (combine lo hi)).
Proof. revert hi. induction lo as [|a lo IH]; intros [|b hi] H; try discriminate; [reflexivity|]. cbn [map combine fst snd]. rewrite IH by (cbn in H; congruence). reflexivity. Qed.
Lemma uni_pdf_fin lo hi x : length lo = length hi -> length x = length lo ->
  uni_pdf (length lo) (map XR (lo ++ hi)) (map XR x) = Ok (if inbox lo hi x then xdiv x1 (XR (volume lo hi)) else XR 0).
Proof.
  intros H1 H2. unfold uni_pdf. rewrite map_app.
  replace (firstn (length lo) (map XR lo ++ map XR hi)) with (map XR lo) by (symmetry; rewrite firstn_app, map_length, Nat.sub_diag, firstn_O, app_nil_r; rewrite <- (map_length XR) at 1; apply firstn_all).
  replace (skipn (length lo) (map XR lo ++ map XR hi)) with (map XR hi) by (symmetry; rewrite skipn_app, map_length, Nat.sub_diag; replace (skipn (length lo) (map XR lo)) with (@nil xr) by (symmetry; apply skipn_all2; rewrite map_length; lia); reflexivity).
  rewrite bc_eq by (rewrite !map_length; exact H2). cbn [rthen]. rewrite bc_eq by (rewrite !map_length; congruence). cbn [rthen].
  rewrite bc_eq by (rewrite !map_length, !combine_length, !map_length; lia). cbn [rthen].
  change (forallb (fun b => b) (map (fun ab => andb (fst ab) (snd ab)) _)) with (inbox lo hi x). destruct (inbox lo hi x); [|reflexivity].
  rewrite bc_eq by (rewrite !map_length; congruence). cbn [rthen]. rewrite widths_fin by exact H1. unfold xprod, x1 at 2. rewrite xprod_fin, Rmult_1_l. reflexivity.
Qed.
Lemma Proper_cons a lo b hi : Proper (a :: lo) (b :: hi) <-> a < b /\ Proper lo hi.
Proof. unfold Proper. cbn [length]. split.
  - intros (H1 & H). split; [apply (H 0%nat); lia|]. split; [congruence|]. intros j Hj. apply (H (S j)). lia.
  - intros (H0 & H1 & H). split; [congruence|]. intros [|j] Hj; [exact H0|]. apply H. lia. Qed.
Lemma volume_cons a lo b hi : volume (a :: lo) (b :: hi) = (b - a) * volume lo hi. Proof. reflexivity. Qed.
Lemma volume_pos : forall lo hi, Proper lo hi -> 0 < volume lo hi.
Proof. induction lo as [|a lo IH]; intros [|b hi] H; try (destruct H as (H & _); discriminate); [cbn; lra|]. apply Proper_cons in H. destruct H as (H0 & H). rewrite volume_cons. apply Rmult_lt_0_compat; [lra | auto]. Qed.

(** The density is one over the volume inside the box (boundary included) and 0 outside. *)
Theorem C41_density :
  forall lo hi x, Proper lo hi -> length x = length lo ->
  (Inside lo hi x -> uni_pdf (length lo) (map XR (lo ++ hi)) (map XR x) = Ok (XR (1 / volume lo hi)))
  /\ (~ Inside lo hi x -> uni_pdf (length lo) (map XR (lo ++ hi)) (map XR x) = Ok (XR 0))
  /\ 1 / volume lo hi * volume lo hi = 1 /\ 0 < 1 / volume lo hi.
Proof.
  intros lo hi x Hp Hx. pose proof (volume_pos lo hi Hp) as Hv. destruct Hp as (Hl & Hp). rewrite uni_pdf_fin by assumption.
  assert (Ev : xdiv x1 (XR (volume lo hi)) = XR (1 / volume lo hi)) by (unfold x1; cbn [xdiv]; now rewrite (rsign_pos _ Hv)).
  split; [|split; [|split]].
  - intros H. apply (inbox_spec lo hi x Hl Hx) in H. now rewrite H, Ev.
  - intros H. destruct (inbox lo hi x) eqn:E; [exfalso; apply H; now apply inbox_spec | reflexivity].
  - field. lra.
  - unfold Rdiv. rewrite Rmult_1_l. now apply Rinv_0_lt_compat.
Qed.
Print Assumptions C41_density.

Lemma co_spec dim vs ps : forall js, (forall j, In j js -> (j < length vs)%nat /\ (j + dim < length vs)%nat /\ (j < length ps)%nat) ->
  (fix go (js : list nat) : res bool :=
     match js with
     | [] => Ok true
     | j :: js' =>
         match nth_error vs j, nth_error vs (j + dim), nth_error ps j with
         | Some a, Some b, Some p => if xlt p a || xlt b p then Ok false else go js'
         | _, _, _ => Err IndexError
         end
     end) js = Ok (forallb (fun j => negb (xlt (nth j ps XNaN) (nth j vs XNaN) || xlt (nth (j + dim) vs XNaN) (nth j ps XNaN))) js).
Proof.
  induction js as [|j js IH]; intros H; [reflexivity|]. destruct (H j (or_introl eq_refl)) as (H1 & H2 & H3). cbn [forallb].
  rewrite (nth_error_nth' vs XNaN H1), (nth_error_nth' vs XNaN H2), (nth_error_nth' ps XNaN H3). destruct (xlt _ _ || xlt _ _); [reflexivity|]. cbn [negb andb]. apply IH. intros k Hk. apply H. now right.
Qed.
Lemma ci_spec dim vs : forall js, (forall j, In j js -> (j < length vs)%nat /\ (j + dim < length vs)%nat) ->
  (fix go (js : list nat) : res bool :=
          match js with
          | [] => Ok true
          | j :: js' =>
              match nth_error vs j, nth_error vs (j + dim) with
              | Some a, Some b => if xlt b a then Ok false else go js'
              | _, _ => Err IndexError
              end
          end) js = Ok (forallb (fun j => negb (xlt (nth (j + dim) vs XNaN) (nth j vs XNaN))) js).
Proof.
  induction js as [|j js IH]; intros H; [reflexivity|]. destruct (H j (or_introl eq_refl)) as (H1 & H2). cbn [forallb].
  rewrite (nth_error_nth' vs XNaN H1), (nth_error_nth' vs XNaN H2). destruct (xlt _ _); [reflexivity|]. cbn [negb andb]. apply IH. intros k Hk. apply H. now right.
Qed.
Lemma nth_lo (lo hi : list R) j d : (j < length lo)%nat -> nth j (map XR (lo ++ hi)) d = XR (nth j lo 0).
Proof. intros H. rewrite (nth_indep _ d (XR 0)) by (rewrite map_length, app_length; lia). rewrite map_nth, app_nth1 by exact H. reflexivity. Qed.
Lemma nth_hi (lo hi : list R) j d : length lo = length hi -> (j < length lo)%nat -> nth (j + length lo) (map XR (lo ++ hi)) d = XR (nth j hi 0).
Proof. intros Hl H. rewrite (nth_indep _ d (XR 0)) by (rewrite map_length, app_length; lia). rewrite map_nth, app_nth2 by lia. do 2 f_equal. lia. Qed.
Lemma nth_fin (x : list R) j d : (j < length x)%nat -> nth j (map XR x) d = XR (nth j x 0).
Proof. intros H. rewrite (nth_indep _ d (XR 0)) by (rewrite map_length; lia). apply map_nth. Qed.
Lemma check_output_fin lo hi x : length lo = length hi -> length x = length lo -> exists b, uni_check_output (length lo) (map XR (lo ++ hi)) (map XR x) = Ok b /\ (b = true <-> Inside lo hi x).
Proof.
  intros H1 H2. unfold uni_check_output. rewrite co_spec.
  - eexists. split; [reflexivity|]. rewrite forallb_forall. unfold Inside. split.
    + intros H j Hj. specialize (H j ltac:(apply in_seq; lia)). rewrite nth_lo, nth_hi, nth_fin in H by (assumption || lia). apply negb_true_iff, orb_false_iff in H. rewrite !xlt_fin_false in H. lra.
    + intros H j Hj. apply in_seq in Hj. specialize (H j ltac:(lia)). rewrite nth_lo, nth_hi, nth_fin by (assumption || lia). apply negb_true_iff, orb_false_iff. rewrite !xlt_fin_false. lra.
  - intros j Hj. apply in_seq in Hj. rewrite !map_length, app_length. lia.
Qed.
(** A point is accepted by the model iff it lies in the box iff its density is positive. *)
Theorem C41_accepted :
  forall lo hi x, Proper lo hi -> length x = length lo ->
  (uni_check_output (length lo) (map XR (lo ++ hi)) (map XR x) = Ok true <-> Inside lo hi x)
  /\ (uni_check_output (length lo) (map XR (lo ++ hi)) (map XR x) = Ok false <-> ~ Inside lo hi x)
  /\ (uni_check_output (length lo) (map XR (lo ++ hi)) (map XR x) = Ok true <-> exists d, uni_pdf (length lo) (map XR (lo ++ hi)) (map XR x) = Ok (XR d) /\ 0 < d).
Proof.
  intros lo hi x Hp Hx. destruct (C41_density lo hi x Hp Hx) as (D1 & D2 & _ & D3). destruct (check_output_fin lo hi x (proj1 Hp) Hx) as (b & E & Hb). rewrite E.
  assert (Hin : Ok b = Ok true <-> Inside lo hi x) by (rewrite <- Hb; split; congruence).
  split; [exact Hin|]. split.
  - split; [intros H I; apply Hb in I; congruence|]. intros H. destruct b; [exfalso; apply H, Hb; reflexivity | reflexivity].
  - rewrite Hin. split.
    + intros I. exists (1 / volume lo hi). split; [now apply D1 | exact D3].
    + intros (d & Ed & Hd). destruct b; [now apply Hb|]. rewrite D2 in Ed by (intros I; apply Hb in I; discriminate). injection Ed as <-. lra.
Qed.
Print Assumptions C41_accepted.
(** NaN is accepted although its density is 0. *)
Theorem C41_nan_refuted :
  forall a b, a < b -> uni_check_output 1 [XR a; XR b] [XNaN] = Ok true /\ uni_pdf 1 [XR a; XR b] [XNaN] = Ok (XR 0).
Proof. intros a b H. split; reflexivity. Qed.
Print Assumptions C41_nan_refuted.
(** A box without interior passes the check of the bounds; its density is infinite at the only possible point. *)
Theorem C41_flat_refuted :
  forall a, uni_init (Some [BList [XR a]; BList [XR a]]) = Ok (1%nat, [XR a; XR a]) /\ uni_pdf 1 [XR a; XR a] [XR a] = Ok XInf.
Proof.
  intros a. split.
  - cbn. destruct (Rlt_dec a a); [lra | reflexivity].
  - change [XR a; XR a] with (map XR ([a] ++ [a])). change [XR a] with (map XR [a]). change 1%nat with (length [a]) at 1. rewrite uni_pdf_fin by reflexivity.
    replace (inbox [a] [a] [a]) with true by (symmetry; apply inbox_spec; try reflexivity; apply Inside_cons; split; [lra | apply Inside_nil]).
    unfold volume, x1. cbn [combine map fst snd fold_right xdiv]. replace ((a - a) * 1) with 0 by ring. rewrite rsign_zero, (rsign_pos 1) by lra. reflexivity.
Qed.
Print Assumptions C41_flat_refuted.

(** Which arguments the constructor accepts (bounds given as numbers). *)
Theorem C41_refused :
  uni_init None = Err TypeError
  /\ (forall ps, (length ps < 2)%nat -> uni_init (Some ps) = Err ValueError)
  /\ (forall p0 p1 rest x, p0 = BNum x \/ p1 = BNum x -> uni_init (Some (p0 :: p1 :: rest)) = Err TypeError)
  /\ (forall l h rest, length l <> length h -> uni_init (Some (BList l :: BList h :: rest)) = Err ValueError)
  /\ (forall lo hi, length lo = length hi ->
      ((forall j, (j < length lo)%nat -> nth j lo 0 <= nth j hi 0) <-> uni_init (Some [BList (map XR lo); BList (map XR hi)]) = Ok (length lo, map XR (lo ++ hi)))
      /\ ((exists j, (j < length lo)%nat /\ nth j hi 0 < nth j lo 0) <-> uni_init (Some [BList (map XR lo); BList (map XR hi)]) = Err ValueError)).
Proof.
  split; [reflexivity|]. split; [intros [|p0 [|p1 ps]] H; cbn in H; try reflexivity; lia|]. split; [intros p0 p1 rest x [-> | ->]; cbn; [reflexivity | destruct p0; reflexivity]|].
  split; [intros l h rest H; cbn; destruct (Nat.eqb_spec (length l) (length h)); [contradiction | reflexivity]|].
  intros lo hi Hl. unfold uni_init. rewrite !map_length, Hl, Nat.eqb_refl. cbn [negb map concat]. rewrite app_nil_r, <- map_app, <- Hl. unfold uni_check_input.
  replace (length (map XR (lo ++ hi)) mod 2)%nat with 0%nat by (symmetry; rewrite map_length, app_length, <- Hl; replace (length lo + length lo)%nat with (length lo * 2)%nat by lia; apply Nat.mod_mul; lia). cbn [Nat.eqb negb].
  rewrite ci_spec by (intros j Hj; apply in_seq in Hj; rewrite map_length, app_length; lia). set (b := forallb _ _).
  assert (Hb : b = true <-> forall j, (j < length lo)%nat -> nth j lo 0 <= nth j hi 0).
  { unfold b. rewrite forallb_forall. split.
    - intros H j Hj. specialize (H j ltac:(apply in_seq; lia)). rewrite nth_hi, nth_lo in H by assumption. now apply negb_true_iff, xlt_fin_false in H.
    - intros H j Hj. apply in_seq in Hj. rewrite nth_hi, nth_lo by (assumption || lia). apply negb_true_iff, xlt_fin_false, H. lia. }
  split.
  - rewrite <- Hb. destruct b; split; congruence.
  - destruct b eqn:Eb; (split; [|congruence || (intros _)]).
    + intros (j & Hj & Hlt). pose proof (proj1 Hb eq_refl j Hj). lra.
    + reflexivity.
    + (* some bound is violated *)
      assert (G : forall n, (forall j, (j < n)%nat -> nth j lo 0 <= nth j hi 0) \/ exists j, (j < n)%nat /\ nth j hi 0 < nth j lo 0).
      { induction n as [|n [IH | (j & Hj & IH)]]; [left; lia| |right; exists j; split; [lia | exact IH]].
        destruct (Rle_lt_dec (nth n lo 0) (nth n hi 0)) as [H|H]; [left | right; exists n; split; [lia | exact H]].
        intros j Hj. destruct (Nat.eq_dec j n) as [->|]; [exact H | apply IH; lia]. }
      destruct (G (length lo)) as [H | H]; [apply Hb in H; discriminate | exact H].
Qed.
Print Assumptions C41_refused.
(** More than two lists are not refused.  With four, the density uses all the later bounds while the samples use the first two lists only. *)
Theorem C41_extra_refuted :
  forall a b c e x, a < b -> a <= x <= b -> x <= c -> x <= e -> a < c -> a < e ->
  uni_init (Some [BList [XR a]; BList [XR b]; BList [XR c]; BList [XR e]]) = Ok (1%nat, [XR a; XR b; XR c; XR e])
  /\ uni_pdf 1 [XR a; XR b; XR c; XR e] [XR x] = Ok (XR (1 / ((b - a) * (c - a) * (e - a))))
  /\ (forall u k, uni_sample u 1 [XR a; XR b; XR c; XR e] k = map (fun i => [XR (a + (b - a) * u i 0%nat)]) (seq 0 k)).
Proof.
  intros a b c e x H Hx Hc He Hac Hae. split; [cbn; destruct (Rlt_dec b a); [lra | reflexivity]|]. split.
  - unfold uni_pdf. cbn [firstn skipn]. unfold bc at 1. cbn [length Nat.eqb combine map fst snd rthen]. unfold bc at 1. cbn [length Nat.eqb rthen map]. unfold bc at 1. cbn [length Nat.eqb rthen map].
    replace (xle (XR a) (XR x)) with true by (symmetry; apply xle_fin; lra). replace (xle (XR x) (XR b)) with true by (symmetry; apply xle_fin; lra).
    replace (xle (XR x) (XR c)) with true by (symmetry; apply xle_fin; lra). replace (xle (XR x) (XR e)) with true by (symmetry; apply xle_fin; lra). cbn [andb forallb].
    unfold bc. cbn [length Nat.eqb rthen map xsub xadd xopp]. unfold xprod, x1. cbn [fold_left xmul xdiv].
    assert (Hp : 0 < 1 * (b + - a) * (c + - a) * (e + - a)) by (repeat apply Rmult_lt_0_compat; lra). rewrite (rsign_pos _ Hp). do 3 f_equal. ring.
  - intros u k. unfold uni_sample. apply map_ext. intros i. reflexivity.
Qed.
Print Assumptions C41_extra_refuted.

(** ** samples *)
Definition drawn (u : nat -> nat -> R) (lo hi : list R) (i : nat) : list R := map (fun j => nth j lo 0 + (nth j hi 0 - nth j lo 0) * u i j) (seq 0 (length lo)).
Lemma sample_fin u lo hi k : length lo = length hi -> uni_sample u (length lo) (map XR (lo ++ hi)) k = map (fun i => map XR (drawn u lo hi i)) (seq 0 k).
Proof.
  intros H. unfold uni_sample, drawn. apply map_ext. intros i. rewrite map_map. apply map_ext_in. intros j Hj. apply in_seq in Hj. rewrite nth_lo, nth_hi by (assumption || lia). reflexivity.
Qed.
Lemma drawn_nth u lo hi i j : (j < length lo)%nat -> nth j (drawn u lo hi i) 0 = nth j lo 0 + (nth j hi 0 - nth j lo 0) * u i j.
Proof. intros H. unfold drawn. set (f := fun j0 => nth j0 lo 0 + (nth j0 hi 0 - nth j0 lo 0) * u i j0). rewrite (nth_indep _ 0 (f 0%nat)) by (rewrite map_length, seq_length; exact H). rewrite map_nth, seq_nth by exact H. reflexivity. Qed.
(** k samples, all in the box and hence accepted and of positive density. *)
Theorem C41_samples :
  forall u lo hi k, Proper lo hi -> (forall i j, 0 <= u i j < 1) ->
  length (uni_sample u (length lo) (map XR (lo ++ hi)) k) = k
  /\ (forall s, In s (uni_sample u (length lo) (map XR (lo ++ hi)) k) -> exists x, s = map XR x /\ length x = length lo /\ Inside lo hi x
      /\ uni_check_output (length lo) (map XR (lo ++ hi)) s = Ok true /\ uni_pdf (length lo) (map XR (lo ++ hi)) s = Ok (XR (1 / volume lo hi))).
Proof.
  intros u lo hi k Hp Hu. rewrite sample_fin by apply Hp. split; [now rewrite map_length, seq_length|].
  intros s Hs. apply in_map_iff in Hs. destruct Hs as (i & <- & _). exists (drawn u lo hi i). assert (Hl : length (drawn u lo hi i) = length lo) by (unfold drawn; now rewrite map_length, seq_length).
  assert (I : Inside lo hi (drawn u lo hi i)).
  { intros j Hj. rewrite drawn_nth by exact Hj. pose proof (proj2 Hp j Hj). pose proof (Hu i j). split; [|]; nra. }
  split; [reflexivity|]. split; [exact Hl|]. split; [exact I|]. split; [apply (proj1 (C41_accepted lo hi _ Hp Hl)); exact I | apply (proj1 (C41_density lo hi _ Hp Hl)); exact I].
Qed.
Print Assumptions C41_samples.
(** The sampler has the law of the density: a sample falls into a smaller box iff its uniform numbers fall into intervals whose lengths multiply to the
    density times the volume of that box. *)
Fixpoint lengths (lo hi a b : list R) : R :=
  match lo, hi, a, b with
  | l :: lo', h :: hi', x :: a', y :: b' => ((y - l) / (h - l) - (x - l) / (h - l)) * lengths lo' hi' a' b'
  | _, _, _, _ => 1
  end.
Theorem C41_law :
  forall u lo hi a b i, Proper lo hi -> length a = length lo -> length b = length lo ->
  ((forall j, (j < length lo)%nat -> nth j a 0 <= nth j (drawn u lo hi i) 0 < nth j b 0)
   <-> forall j, (j < length lo)%nat -> (nth j a 0 - nth j lo 0) / (nth j hi 0 - nth j lo 0) <= u i j < (nth j b 0 - nth j lo 0) / (nth j hi 0 - nth j lo 0))
  /\ lengths lo hi a b = 1 / volume lo hi * volume a b.
Proof.
  intros u lo hi a b i Hp Ha Hb. split.
  - assert (E : forall j, (j < length lo)%nat -> (nth j a 0 <= nth j (drawn u lo hi i) 0 < nth j b 0) <-> ((nth j a 0 - nth j lo 0) / (nth j hi 0 - nth j lo 0) <= u i j < (nth j b 0 - nth j lo 0) / (nth j hi 0 - nth j lo 0))).
    { intros j Hj. rewrite drawn_nth by exact Hj. pose proof (proj2 Hp j Hj) as Hw. set (w := nth j hi 0 - nth j lo 0). assert (Hw' : 0 < w) by (unfold w; lra).
      assert (Q : forall c, (c - nth j lo 0) / w * w = c - nth j lo 0) by (intros c; field; lra). pose proof (Q (nth j a 0)) as Qa. pose proof (Q (nth j b 0)) as Qb.
      set (qa := (nth j a 0 - nth j lo 0) / w) in *. set (qb := (nth j b 0 - nth j lo 0) / w) in *. clearbody qa qb w. split; intros (H1 & H2); split; nra. }
    split; intros H j Hj; apply (E j Hj), (H j Hj).
  - revert hi a b Hp Ha Hb. induction lo as [|l lo IH]; intros [|h hi] [|x a] [|y b] Hp Ha Hb; try discriminate; try (destruct Hp as (Hp & _); discriminate); [cbn; field|].
    apply Proper_cons in Hp. destruct Hp as (H0 & Hp). cbn [lengths]. rewrite IH by (cbn in *; congruence). rewrite !volume_cons. pose proof (volume_pos lo hi Hp). field. lra.
Qed.
Print Assumptions C41_law.
Example C41_case :
  Proper [0; 1] [2; 5] /\ volume [0; 1] [2; 5] = 8 /\ Inside [0; 1] [2; 5] [2; 1] /\ ~ Inside [0; 1] [2; 5] [1; 6]
  /\ uni_pdf 2 (map XR [0; 1; 2; 5]) (map XR [2; 1]) = Ok (XR (1 / 8)) /\ drawn (fun _ _ => / 2) [0; 1] [2; 5] 0 = [0 + (2 - 0) * / 2; 1 + (5 - 1) * / 2].
Proof.
  assert (P : Proper [0; 1] [2; 5]) by (apply Proper_cons; split; [lra|]; apply Proper_cons; split; [lra|]; split; [reflexivity | cbn; lia]).
  assert (V : volume [0; 1] [2; 5] = 8) by (unfold volume; cbn; lra).
  assert (I : Inside [0; 1] [2; 5] [2; 1]) by (apply Inside_cons; split; [lra|]; apply Inside_cons; split; [lra | apply Inside_nil]).
  split; [exact P|]. split; [exact V|]. split; [exact I|]. split; [|split; [|reflexivity]].
  - rewrite !Inside_cons. lra.
  - rewrite <- V. apply (C41_density [0; 1] [2; 5] [2; 1] P eq_refl). exact I.
Qed.

(** ** C58 *)
(** Exponential: the cumulative distribution function is 1 - exp (- rate t), the density its derivative, and a sample is at most t iff the uniform number
    is at most its value. *)
Definition expo_cdf (rate t : R) : R := 1 - exp (- (rate * t)).
Theorem C58_exponential :
  forall rate, 0 < rate ->
  expo_cdf rate 0 = 0
  /\ (forall t, 0 < t -> derivable_pt_lim (expo_cdf rate) t (expo_pdf rate t))
  /\ (forall eps, 0 < eps -> exists T, forall t, T <= t -> 1 - eps < expo_cdf rate t < 1)
  /\ (forall x, x < 0 -> expo_pdf rate x = 0) /\ (forall x, 0 <= x -> expo_pdf rate x = rate * exp (- (rate * x)))
  /\ (forall u, 0 <= u < 1 -> 0 <= expo_draw rate u /\ forall t, 0 <= t -> (expo_draw rate u <= t <-> u <= expo_cdf rate t)).
Proof.
  intros rate Hr. assert (Ex : forall x, 0 <= x -> expo_pdf rate x = rate * exp (- (rate * x))).
  { intros x Hx. unfold expo_pdf. destruct (Rle_dec 0 x); [|lra]. replace (x / (1 / rate)) with (rate * x) by (field; lra). field. lra. }
  split; [unfold expo_cdf; rewrite Rmult_0_r, Ropp_0, exp_0; ring|]. split; [|split; [|split; [|split; [exact Ex|]]]].
  - intros t Ht. rewrite Ex by lra. unfold expo_cdf. replace (rate * exp (- (rate * t))) with (0 - exp (- (rate * t)) * (- (rate * 1))) by ring.
    apply derivable_pt_lim_minus; [apply derivable_pt_lim_const|].
    apply (derivable_pt_lim_comp (fun t => - (rate * t)) exp t (- (rate * 1)) (exp (- (rate * t)))); [|apply derivable_pt_lim_exp].
    apply derivable_pt_lim_opp. apply (derivable_pt_lim_scal id rate t 1). apply derivable_pt_lim_id.
  - intros eps He. exists (Rmax 0 (- ln eps / rate + 1)). intros t Ht. unfold expo_cdf. pose proof (exp_pos (- (rate * t))). split; [|lra].
    assert (Hx : - (rate * t) < ln eps). { pose proof (Rmax_r 0 (- ln eps / rate + 1)). assert (Hlt : - ln eps / rate < t) by lra. apply (Rmult_lt_compat_l rate) in Hlt; [|exact Hr]. replace (rate * (- ln eps / rate)) with (- ln eps) in Hlt by (field; lra). lra. }
    apply exp_increasing in Hx. rewrite exp_ln in Hx by exact He. lra.
  - intros x Hx. unfold expo_pdf. destruct (Rle_dec 0 x); [lra | reflexivity].
  - intros u Hu. unfold expo_draw. assert (Hl : ln (1 - u) <= 0). { destruct (Req_dec u 0) as [->|Hn]; [rewrite Rminus_0_r, ln_1; lra|]. rewrite <- ln_1. left. apply ln_increasing; lra. }
    replace (- (1 / rate) * ln (1 - u)) with (- ln (1 - u) / rate) by (field; lra). set (q := - ln (1 - u) / rate). assert (Q : q * rate = - ln (1 - u)) by (unfold q; field; lra). clearbody q. split; [nra|].
    intros t Ht. unfold expo_cdf. split; intros H.
    + assert (Hx : - (rate * t) <= ln (1 - u)) by nra. assert (He : exp (- (rate * t)) <= exp (ln (1 - u))) by (destruct Hx as [Hx|Hx]; [left; now apply exp_increasing | rewrite Hx; lra]). rewrite exp_ln in He by lra. lra.
    + assert (Hx : exp (- (rate * t)) <= 1 - u) by lra. assert (Hy : - (rate * t) <= ln (1 - u)). { rewrite <- (ln_exp (- (rate * t))). destruct Hx as [Hx|Hx]; [left; apply ln_increasing; [apply exp_pos | exact Hx] | rewrite Hx; lra]. } nra.
Qed.
Print Assumptions C58_exponential.

(** Normal and LogNormal: whatever the distribution function of the standard normal numbers of the generator, if its derivative is the standard normal density,
    then the distribution function of the samples has the implemented density as derivative. *)
Theorem C58_normal :
  forall Phi, (forall z, derivable_pt_lim Phi z (phi z)) -> forall mu sigma, 0 < sigma ->
  (forall g t, normal_draw mu sigma g <= t <-> g <= (t - mu) / sigma) /\ (forall t, derivable_pt_lim (fun t => Phi ((t - mu) / sigma)) t (normal_pdf mu sigma t))
  /\ (forall t, 0 < normal_pdf mu sigma t) /\ (forall d, normal_pdf mu sigma (mu + d) = normal_pdf mu sigma (mu - d)).
Proof.
  intros Phi HP mu sigma Hs. split; [|split; [|split]].
  - intros g t. unfold normal_draw. set (q := (t - mu) / sigma). assert (Q : q * sigma = t - mu) by (unfold q; field; lra). clearbody q. split; intros H; nra.
  - intros t. unfold normal_pdf. replace (phi ((t - mu) / sigma) / sigma) with (phi ((t - mu) / sigma) * ((1 - 0) * / sigma)) by (field; lra).
    apply (derivable_pt_lim_comp (fun t => (t - mu) / sigma) Phi t); [|apply HP]. unfold Rdiv.
    replace ((1 - 0) * / sigma) with ((1 - 0) * (fct_cte (/ sigma)) t + (t - mu) * 0) by (unfold fct_cte; ring).
    apply (derivable_pt_lim_mult (fun t => t - mu) (fct_cte (/ sigma))); [|apply derivable_pt_lim_const].
    apply (derivable_pt_lim_minus id (fct_cte mu)); [apply derivable_pt_lim_id | apply derivable_pt_lim_const].
  - intros t. unfold normal_pdf, phi. apply Rdiv_lt_0_compat; [|exact Hs]. apply Rdiv_lt_0_compat; [apply exp_pos|]. apply sqrt_lt_R0. pose proof PI_RGT_0. lra.
  - intros d. unfold normal_pdf, phi. do 4 f_equal. field. lra.
Qed.
Print Assumptions C58_normal.
Theorem C58_lognormal :
  forall Phi, (forall z, derivable_pt_lim Phi z (phi z)) -> forall mu sigma, 0 < sigma ->
  (forall g, 0 < lognormal_draw mu sigma g)
  /\ (forall g t, 0 < t -> (lognormal_draw mu sigma g <= t <-> g <= (ln t - mu) / sigma))
  /\ (forall t, 0 < t -> derivable_pt_lim (fun t => Phi ((ln t - mu) / sigma)) t (lognormal_pdf mu sigma t))
  /\ (forall t, t <= 0 -> lognormal_pdf mu sigma t = 0)
  /\ (forall t, 0 < t -> lognormal_pdf mu sigma t = normal_pdf mu sigma (ln t) / t).
Proof.
  intros Phi HP mu sigma Hs.
  assert (E : forall t, 0 < t -> lognormal_pdf mu sigma t = normal_pdf mu sigma (ln t) / t).
  { intros t Ht. unfold lognormal_pdf, normal_pdf. destruct (Rlt_dec 0 t); [|lra]. pose proof (exp_pos mu). replace (ln (t / exp mu)) with (ln t - mu) by (unfold Rdiv; rewrite ln_mult, ln_Rinv, ln_exp by (try apply Rinv_0_lt_compat; assumption); ring). field. lra. }
  split; [intros g; apply exp_pos|]. split; [|split; [|split; [|exact E]]].
  - intros g t Ht. unfold lognormal_draw. set (q := (ln t - mu) / sigma). assert (Q : q * sigma = ln t - mu) by (unfold q; field; lra). clearbody q. split; intros H.
    + assert (H' : mu + sigma * g <= ln t). { rewrite <- (ln_exp (mu + sigma * g)). destruct H as [H|H]; [left; apply ln_increasing; [apply exp_pos | exact H] | rewrite H; lra]. } nra.
    + rewrite <- (exp_ln t) by exact Ht. assert (H' : mu + sigma * g <= ln t) by nra. destruct H' as [H'|H']; [left; now apply exp_increasing | rewrite H'; lra].
  - intros t Ht. rewrite E by exact Ht. unfold Rdiv at 2. change (fun t => Phi ((ln t - mu) / sigma)) with (comp (fun y => Phi ((y - mu) / sigma)) ln). apply derivable_pt_lim_comp; [now apply derivable_pt_lim_ln|]. apply (C58_normal Phi HP mu sigma Hs).
  - intros t Ht. unfold lognormal_pdf. destruct (Rlt_dec 0 t); [lra | reflexivity].
Qed.
Print Assumptions C58_lognormal.
(** The second parameter is documented as the variance; the density is that of the standard deviation. *)
Theorem C58_variance_refuted :
  forall mu s, 0 < s -> s <> 1 -> normal_pdf mu s mu <> 1 / sqrt (2 * PI * s) /\ normal_pdf mu s mu = 1 / sqrt (2 * PI * (s * s)).
Proof.
  intros mu s Hs H1. pose proof PI_RGT_0 as Hpi. assert (E : normal_pdf mu s mu = 1 / sqrt (2 * PI) * / s).
  { unfold normal_pdf, phi. replace ((mu - mu) / s) with 0 by (field; lra). replace (- (0 * 0) / 2) with 0 by field. rewrite exp_0. reflexivity. }
  assert (S0 : 0 < sqrt (2 * PI)) by (apply sqrt_lt_R0; lra). rewrite E. split.
  - rewrite (sqrt_mult (2 * PI) s) by lra. intros H. assert (Hss : 0 < sqrt s) by now apply sqrt_lt_R0. assert (Es : sqrt s = s).
    { apply (f_equal (fun z => z * (sqrt (2 * PI) * s * sqrt s))) in H. replace (1 / sqrt (2 * PI) * / s * (sqrt (2 * PI) * s * sqrt s)) with (sqrt s) in H by (field; lra). replace (1 / (sqrt (2 * PI) * sqrt s) * (sqrt (2 * PI) * s * sqrt s)) with s in H by (field; lra). exact H. }
    pose proof (sqrt_sqrt s (Rlt_le _ _ Hs)) as Hq. rewrite Es in Hq. apply H1. apply (Rmult_eq_reg_l s); lra.
  - rewrite (sqrt_mult (2 * PI) (s * s)), sqrt_square by nra. field. lra.
Qed.
Print Assumptions C58_variance_refuted.
(** the checks of the parameters *)
Theorem C58_inputs :
  (forall m s, second_positive [XR m; XR s] = true <-> 0 < s) /\ (forall vs, length vs <> 2%nat -> second_positive vs = false)
  /\ (forall r, expo_check_input [XR r] = true <-> 0 < r) /\ (forall vs, length vs <> 1%nat -> expo_check_input vs = false).
Proof.
  split; [intros m s; cbn; destruct (Rle_dec s 0); split; intros; try discriminate; try reflexivity; lra|]. split; [intros [|a [|b [|c vs]]] H; try reflexivity; cbn in H; lia|].
  split; [intros r; cbn; destruct (Rle_dec r 0); split; intros; try discriminate; try reflexivity; lra|]. intros [|a [|b vs]] H; try reflexivity; cbn in H; lia.
Qed.
Print Assumptions C58_inputs.
(** StudentT: positive and symmetric about the mean, but every evaluation shifts the array it is given, so that a second evaluation of the same array
    is at another point and gives another value. *)
Theorem C58_student :
  forall gam, (forall z, 0 < z -> 0 < gam z) -> forall mean df t, 0 < df ->
  (exists d, fst (student_pdf gam mean df [t]) = [d] /\ 0 < d) /\ fst (student_pdf gam mean df [mean + t]) = fst (student_pdf gam mean df [mean - t]).
Proof.
  intros gam Hg mean df t Hd. pose proof PI_RGT_0 as Hpi. split.
  - eexists. split; [reflexivity|]. unfold student_kernel. apply Rdiv_lt_0_compat; [apply Hg; lra|]. apply Rmult_lt_0_compat; [|apply exp_pos]. apply Rmult_lt_0_compat; [apply sqrt_lt_R0; nra | apply Hg; lra].
  - unfold student_pdf. cbn [fst map]. unfold student_kernel. replace ((mean + t - mean) * (mean + t - mean)) with (t * t) by ring. replace ((mean - t - mean) * (mean - t - mean)) with (t * t) by ring. reflexivity.
Qed.
Print Assumptions C58_student.
Theorem C58_student_repeated_refuted :
  forall gam, (forall z, 0 < z -> 0 < gam z) -> forall mean df x, 0 < df ->
  snd (student_pdf gam mean df x) = map (fun t => t - mean) x
  /\ (mean <> 0 -> let x1 := snd (student_pdf gam mean df [mean]) in x1 <> [mean] /\ fst (student_pdf gam mean df x1) <> fst (student_pdf gam mean df [mean])).
Proof.
  intros gam Hg mean df x Hd. split; [reflexivity|]. intros Hm. cbn [student_pdf fst snd map]. split; [intros H; injection H as H; lra|].
  intros H. injection H as H. unfold student_kernel in H. pose proof PI_RGT_0 as Hpi. replace (mean - mean) with 0 in H by ring. replace (0 - mean) with (- mean) in H by ring.
  assert (A : 0 < gam ((df + 1) / 2)) by (apply Hg; lra). assert (B : 0 < sqrt (df * PI) * gam (df / 2)) by (apply Rmult_lt_0_compat; [apply sqrt_lt_R0; nra | apply Hg; lra]).
  set (p1 := Rpower (1 + - mean * - mean / df) ((df + 1) / 2)) in *. set (p0 := Rpower (1 + 0 * 0 / df) ((df + 1) / 2)) in *.
  assert (Hq : 0 < - mean * - mean / df) by (apply Rdiv_lt_0_compat; nra).
  assert (L : p0 < p1). { unfold p0, p1. apply Rlt_Rpower_l; [lra|]. replace (0 * 0 / df) with 0 by (field; lra). lra. }
  assert (P0 : 0 < p0) by apply exp_pos. clearbody p0 p1.
  apply (f_equal (fun z => z * (sqrt (df * PI) * gam (df / 2)) * p0 * p1 / gam ((df + 1) / 2))) in H.
  replace (gam ((df + 1) / 2) / (sqrt (df * PI) * gam (df / 2) * p1) * (sqrt (df * PI) * gam (df / 2)) * p0 * p1 / gam ((df + 1) / 2)) with p0 in H by (field; split; [|split; [|split]]; nra).
  replace (gam ((df + 1) / 2) / (sqrt (df * PI) * gam (df / 2) * p0) * (sqrt (df * PI) * gam (df / 2)) * p0 * p1 / gam ((df + 1) / 2)) with p1 in H by (field; split; [|split; [|split]]; nra).
  lra.
Qed.
Print Assumptions C58_student_repeated_refuted.
Example C58_case : 0 < expo_pdf 2 1 /\ expo_draw 2 0 = 0 /\ snd (student_pdf (fun _ => 1) 3 1 [5]) = [5 - 3].
Proof.
  destruct (C58_exponential 2 ltac:(lra)) as (_ & _ & _ & _ & A & _). split; [rewrite A by lra; pose proof (exp_pos (- (2 * 1))); lra|]. split; [|reflexivity].
  unfold expo_draw. rewrite Rminus_0_r, ln_1. ring.
Qed.
