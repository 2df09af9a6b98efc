(** Property C36: when exactly the statistics of the observations kept from the call before are used again. *)
From Coq Require Import Reals Lra.
From Verif Require Import M_Base M_Num M_XReal L_PMC M_Stats S_Stats L_Stats M_Distance S_Distance L_Distance P_Distance.
Open Scope nat_scope.

(** Two floats that are ==: NaN is not equal to anything, not even to itself. *)
Definition SameNumber (a b : xr) : Prop := a = b /\ a <> XNaN.
(** Two observations whose arrays agree in all entries after broadcasting. *)
Definition Fits (d0 d1 : datum) : Prop :=
  Forall2 SameNumber (arr d0) (arr d1)
  \/ (exists u, arr d0 = [u] /\ Forall (SameNumber u) (arr d1))
  \/ (exists v, arr d1 = [v] /\ Forall (SameNumber v) (arr d0)).
(** The list at address [ds] (kept from an earlier call, by reference) and the list at [a] (the argument now), both with their contents of now. *)
Definition SameData (h : heap) (ds a : nat) : Prop :=
  length (h ds) = length (h a) /\ exists x rest, h a = x :: rest /\
  (length (arr x) = 1 -> ds = a \/ Forall2 (fun d0 d1 => exists u v, arr d0 = [u] /\ arr d1 = [v] /\ SameNumber u v) (h ds) (h a))
  /\ (length (arr x) <> 1 -> Forall2 Fits (h ds) (h a)).

Lemma xeqb_same : forall a b, xeqb a b = true <-> SameNumber a b.
Proof.
  intros a b. unfold SameNumber. destruct a as [x| | |], b as [y| | |]; cbn [xeqb]; try (split; [discriminate | intros [E N]; (discriminate E || congruence)]);
    try (split; [intros _; split; [reflexivity | discriminate] | reflexivity]).
  destruct (Req_EM_T x y) as [->|N]; [split; [intros _; split; [reflexivity | discriminate] | reflexivity]|]. split; [discriminate | intros [E _]; congruence].
Qed.
Lemma eqs_same : forall a b, length a = length b -> (eqs a b = true <-> Forall2 SameNumber a b).
Proof.
  induction a as [|x a IH]; intros [|y b] E; try discriminate E; cbn [eqs]; [split; [constructor | reflexivity]|]. injection E as E.
  rewrite Bool.andb_true_iff, xeqb_same, (IH b E). split; [intros [H1 H2]; constructor; assumption | intros H; inversion H; subst; split; assumption].
Qed.
Lemma F2_len : forall A B (P : A -> B -> Prop) a b, Forall2 P a b -> length a = length b.
Proof. intros A B P a b H. induction H; cbn; congruence. Qed.
Lemma all_same_fits : forall d0 d1, all_same d0 d1 = Ok true <-> Fits d0 d1.
Proof.
  intros d0 d1. unfold all_same, Fits. cbv zeta. generalize (arr d0) (arr d1). intros x y. destruct (length x =? length y) eqn:E.
  - apply Nat.eqb_eq in E. assert (Q : Ok (eqs x y) = Ok true <-> Forall2 SameNumber x y).
    { rewrite <- (eqs_same x y E). split; [intros H; injection H as H; exact H | intros ->; reflexivity]. }
    rewrite Q. split; [left; assumption|]. intros [H|[(u & -> & H)|(v & -> & H)]]; [exact H| |].
    + destruct y as [|b [|c y]]; try discriminate E. inversion H; subst. constructor; [assumption | constructor].
    + destruct x as [|b [|c x]]; try discriminate E. inversion H; subst. constructor; [|constructor]. destruct H2 as [-> N]. split; [reflexivity | exact N].
  - apply Nat.eqb_neq in E.
    assert (L1 : forall u y, Ok (forallb (xeqb u) y) = Ok true <-> Forall (SameNumber u) y).
    { intros u y0. transitivity (forallb (xeqb u) y0 = true); [split; [intros H; injection H as H; exact H | intros ->; reflexivity]|].
      rewrite forallb_forall, Forall_forall. split; intros H v Hv; [apply xeqb_same, H, Hv | apply xeqb_same, H, Hv]. }
    assert (L2 : forall v x, Ok (forallb (fun u => xeqb u v) x) = Ok true <-> Forall (SameNumber v) x).
    { intros u y0. transitivity (forallb (fun v => xeqb v u) y0 = true); [split; [intros H; injection H as H; exact H | intros ->; reflexivity]|].
      rewrite forallb_forall, Forall_forall. split; intros H v Hv; specialize (H v Hv).
      - apply xeqb_same in H. destruct H as [-> N]. split; [reflexivity | exact N].
      - apply xeqb_same. destruct H as [-> N]. split; [reflexivity | exact N]. }
    destruct x as [|u [|u' x]].
    + destruct y as [|v [|v' y]]; [congruence| |].
      * rewrite L2. split; [intros _; right; right; exists v; split; [reflexivity | constructor] | intros _; constructor].
      * split; [discriminate|]. intros [H|[(w & H & _)|(w & H & _)]]; [inversion H | discriminate H | discriminate H].
    + rewrite L1. split; [intros H; right; left; exists u; split; [reflexivity | exact H]|].
      intros [H|[(w & H & H')|(w & H & H')]]; [apply F2_len in H; congruence | injection H as <-; exact H'|]. rewrite H in E. cbn in E. congruence.
    + destruct y as [|v [|v' y]].
      * split; [discriminate|]. intros [H|[(w & H & _)|(w & H & _)]]; [inversion H | discriminate H | discriminate H].
      * rewrite L2. split; [intros H; right; right; exists v; split; [reflexivity | exact H]|].
        intros [H|[(w & H & H')|(w & H & H')]]; [apply F2_len in H; congruence | discriminate H | injection H as <-; exact H'].
      * split; [discriminate|]. intros [H|[(w & H & _)|(w & H & _)]]; [apply F2_len in H; congruence | discriminate H | discriminate H].
Qed.
Lemma all_branch_fits : forall a b, length a = length b -> (all_branch a b = Ok true <-> Forall2 Fits a b).
Proof.
  induction a as [|x a IH]; intros [|y b] E; try discriminate E; cbn [all_branch]; [split; [constructor | reflexivity]|]. injection E as E. specialize (IH b E).
  destruct (all_same x y) as [t|e] eqn:S; [|split; [discriminate|]; intros H; inversion H; subst; apply all_same_fits in H3; congruence].
  destruct (all_branch a b) as [t'|e] eqn:R; [|split; [discriminate|]; intros H; inversion H; subst; apply IH in H5; congruence].
  split.
  - intros H. injection H as H. apply Bool.andb_true_iff in H. destruct H as [-> ->]. constructor; [apply all_same_fits, S | apply IH; reflexivity].
  - intros H. inversion H; subst. apply all_same_fits in H3. apply IH in H5. rewrite S in H3. injection H3 as ->. injection H5 as ->. reflexivity.
Qed.
Lemma truth_same : forall a b, truth a b = Ok true <-> exists u v, arr a = [u] /\ arr b = [v] /\ SameNumber u v.
Proof.
  intros a b. unfold truth. cbv zeta. generalize (arr a) (arr b). intros x y. split.
  - destruct x as [|u [|u' x]], y as [|v [|v' y]]; try discriminate.
    + intros H. injection H as H. exists u, v. split; [reflexivity|]. split; [reflexivity|]. apply xeqb_same, H.
    + destruct (length (u :: u' :: x) =? length (v :: v' :: y)); discriminate.
  - intros (u & v & -> & -> & H). f_equal. apply xeqb_same, H.
Qed.
Lemma list_branch_same : forall a b, length a = length b ->
  (list_branch a b = Ok true <-> Forall2 (fun d0 d1 => exists u v, arr d0 = [u] /\ arr d1 = [v] /\ SameNumber u v) a b).
Proof.
  induction a as [|x a IH]; intros [|y b] E; try discriminate E; cbn [list_branch]; [split; [constructor | reflexivity]|]. injection E as E. specialize (IH b E).
  destruct (truth x y) as [[|]|e] eqn:T.
  - rewrite IH. split; [intros H; constructor; [apply truth_same, T | exact H] | intros H; inversion H; assumption].
  - split; [discriminate|]. intros H. inversion H; subst. apply truth_same in H3. congruence.
  - split; [discriminate|]. intros H. inversion H; subst. apply truth_same in H3. congruence.
Qed.
Lemma compare_same : forall h ds a, compare h ds a = Ok true <-> SameData h ds a.
Proof.
  intros h ds a. unfold compare, SameData. destruct (length (h a) =? length (h ds)) eqn:L; cbn [negb].
  2: { apply Nat.eqb_neq in L. split; [discriminate | intros [E _]; congruence]. }
  apply Nat.eqb_eq in L. symmetry in L. destruct (h a) as [|x rest] eqn:Ea; [split; [discriminate | intros (_ & x & rest & E & _); discriminate E]|].
  destruct (length (arr x) =? 1) eqn:S.
  - apply Nat.eqb_eq in S. split.
    + intros H. split; [exact L|]. exists x, rest. split; [reflexivity|]. split; [intros _ | congruence].
      destruct (ds =? a) eqn:D; [left; apply Nat.eqb_eq, D | right; apply list_branch_same; assumption].
    + intros (_ & x' & rest' & E & H & _). injection E as <- <-. destruct (H S) as [->|H']; [rewrite Nat.eqb_refl; reflexivity|].
      destruct (ds =? a); [reflexivity | apply list_branch_same; assumption].
  - apply Nat.eqb_neq in S. split.
    + intros H. split; [exact L|]. exists x, rest. split; [reflexivity|]. split; [congruence | intros _; apply all_branch_fits; assumption].
    + intros (_ & x' & rest' & E & _ & H). injection E as <- <-. apply all_branch_fits; [exact L | exact (H S)].
Qed.


(** C36.  The second of two calls on one object.  The statistics of the first call are used again exactly if the list passed then - with
    the contents it has now - has as many observations as the list passed now and they agree: number by number if the first observation is
    one number (or if it is the same list), and array by array, after broadcasting, if not.  NaN agrees with nothing.  In all other cases in
    which the lists can be compared, the statistics are those of the list passed now. *)
Theorem C36_reuse : forall stat V (f : mat -> mat -> res V) h0 h1 a b a' b' s1 s2, stat (h0 a) = Ok s1 -> stat (h0 b) = Ok s2 ->
  let second := nth_error (calls stat f [(h0, Some a, Some b); (h1, Some a', Some b')] fresh_cache) 1 in
  let value r := Some (match r with Err e => Err e | Ok s => match stat (h1 b') with Err e => Err e | Ok s' => if mcols s =? mcols s' then f s s' else Err ValueError end end) in
  (SameData h1 a a' -> second = value (Ok s1))
  /\ (~ SameData h1 a a' -> (exists t, compare h1 a a' = Ok t) -> second = value (stat (h1 a'))).
Proof.
  intros stat V f h0 h1 a b a' b' s1 s2 Ha Hb second value.
  assert (E : second = nth_error (calls stat f [(h1, Some a', Some b')] (mkcache (Some s1) (Some a) false)) 0).
  { unfold second. cbn [calls]. unfold call at 1, calc. cbn [fresh_cache c_ref c_s1 c_same]. rewrite Ha, Hb. destruct (negb (mcols s1 =? mcols s2)); reflexivity. }
  rewrite E. unfold value. cbn [calls]. unfold call, calc. cbn [c_ref c_s1 c_same]. split.
  - intros S. apply compare_same in S. rewrite S. destruct (stat (h1 b')) as [s|]; [|reflexivity]. destruct (mcols s1 =? mcols s); reflexivity.
  - intros N (t & T). rewrite T. destruct t; [apply compare_same in T; contradiction|].
    destruct (stat (h1 a')) as [s|]; [|reflexivity]. destruct (stat (h1 b')) as [s'|]; [|reflexivity]. destruct (mcols s =? mcols s'); reflexivity.
Qed.
Print Assumptions C36_reuse.
(** C36.  Which lists of the same length cannot be compared, and what the call then raises: two empty lists; arrays of different lengths, none of
    length one (if the first observation is not one number); two arrays of more than one number and the same length, or one number and
    a longer array, behind equal numbers only (if the first observation is one number and the lists are two objects). *)
Theorem C36_incomparable : forall stat V (f : mat -> mat -> res V) h0 h1 a b a' b' s1 s2 e, stat (h0 a) = Ok s1 -> stat (h0 b) = Ok s2 ->
  length (h1 a) = length (h1 a') ->
  (h1 a' = [] /\ e = IndexError
   \/ (exists x rest, h1 a' = x :: rest /\ length (arr x) <> 1 /\ e = AttributeError
       /\ Exists (fun p => length (arr (fst p)) <> length (arr (snd p)) /\ length (arr (fst p)) <> 1 /\ length (arr (snd p)) <> 1) (combine (h1 a) (h1 a')))
   \/ (exists x rest eq0 u rest0 eq1 v rest1, h1 a' = x :: rest /\ length (arr x) = 1 /\ a <> a' /\ e = ValueError /\ h1 a = eq0 ++ u :: rest0 /\ h1 a' = eq1 ++ v :: rest1
       /\ Forall2 (fun d0 d1 => exists u v, arr d0 = [u] /\ arr d1 = [v] /\ SameNumber u v) eq0 eq1
       /\ (length (arr u) = 1 /\ 2 <= length (arr v) \/ 2 <= length (arr u) /\ (length (arr v) = 1 \/ length (arr v) = length (arr u))))) ->
  nth_error (calls stat f [(h0, Some a, Some b); (h1, Some a', Some b')] fresh_cache) 1 = Some (Err e).
Proof.
  intros stat V f h0 h1 a b a' b' s1 s2 e Ha Hb L H.
  assert (C : compare h1 a a' = Err e).
  { unfold compare. rewrite <- L, Nat.eqb_refl. cbn [negb]. destruct H as [[-> ->]|[(x & rest & E & N & -> & X)|(x & rest & eq0 & u & rest0 & eq1 & v & rest1 & E & N & D & -> & E0 & E1 & F & B)]]; [reflexivity| |].
    2: { rewrite E, N. cbn [Nat.eqb]. apply Nat.eqb_neq in D. rewrite D, <- E, E0, E1. clear -F B. induction F as [|p q l l' T F IH].
         - cbn [app list_branch]. unfold truth. cbv zeta. destruct (arr u) as [|? [|? ?]], (arr v) as [|? [|? ?]]; cbn in B |- *; try reflexivity; try (exfalso; lia).
           destruct B as [[B _]|[_ [B|B]]]; try discriminate B. injection B as ->. rewrite Nat.eqb_refl. reflexivity.
         - cbn [app list_branch]. apply truth_same in T. rewrite T. exact IH. }
    rewrite E in *. apply Nat.eqb_neq in N. rewrite N. revert X L. generalize (x :: rest) (h1 a). clear. intros d1 d0. revert d1.
    induction d0 as [|u d0 IH]; intros [|v d1] X L; try (cbn in X; inversion X; fail); try discriminate L. cbn [combine] in X. injection L as L. cbn [all_branch].
    inversion X as [p l (N1 & N2 & N3) | p l X']; subst.
    - cbn [fst snd] in *. unfold all_same. cbv zeta. apply Nat.eqb_neq in N1. rewrite N1.
      destruct (arr u) as [|? [|? ?]], (arr v) as [|? [|? ?]]; try reflexivity; cbn in *; congruence.
    - rewrite (IH d1 X' L). destruct (all_same u v) as [t|e'] eqn:S; [reflexivity|]. unfold all_same in S. cbv zeta in S.
      destruct (length (arr u) =? length (arr v)); [discriminate S|]. destruct (arr u) as [|? [|? ?]], (arr v) as [|? [|? ?]]; congruence. }
  cbn [calls]. unfold call at 1, calc. cbn [fresh_cache c_ref c_s1 c_same]. rewrite Ha, Hb. destruct (negb (mcols s1 =? mcols s2)); cbn [nth_error calls]; unfold call, calc; cbn [c_ref c_s1 c_same]; rewrite C; reflexivity.
Qed.
Print Assumptions C36_incomparable.

(** An array with a NaN entry is never found to be the same, so its statistics are computed in every call. *)
Example C36_nan : forall h x, h 0 = [Vec [x; XNaN]] -> ~ SameData h 0 0.
Proof.
  intros h x E (_ & d & r & Ed & _ & H). rewrite E in Ed. injection Ed as <- <-. rewrite E in H. cbn [arr length] in H. specialize (H ltac:(discriminate)).
  inversion H as [|? ? ? ? F _]; subst. destruct F as [F|[(u & F & _)|(u & F & _)]]; [|discriminate F|discriminate F]. cbn [arr] in F.
  inversion F as [|? ? ? ? _ F']; subst. inversion F' as [|? ? ? ? [_ N] _]; subst. apply N; reflexivity.
Qed.
(** A one-entry array agrees with a longer one only if all entries are that entry. *)
Example C36_broadcast : forall h x y, h 0 = [Vec [XR x]] -> h 1 = [Vec [XR x; XR y]] -> (SameData h 0 1 <-> x = y).
Proof.
  intros h x y E0 E1. unfold SameData. rewrite E0, E1. split.
  - intros (_ & d & r & Ed & _ & H). injection Ed as <- <-. specialize (H ltac:(discriminate)). inversion H as [|? ? ? ? F _]; subst. cbn [arr] in F.
    destruct F as [F|[(u & F & G)|(u & F & _)]]; [apply F2_len in F; discriminate F | | discriminate F]. cbn [arr] in *. injection F as <-.
    inversion G as [|? ? _ G']; subst. inversion G' as [|? ? [Q _] _]; subst. injection Q as Q. exact Q.
  - intros ->. split; [reflexivity|]. exists (Vec [XR y; XR y]), []. split; [reflexivity|]. split; [discriminate|]. intros _. constructor; [|constructor].
    right. left. exists (XR y). split; [reflexivity|]. repeat constructor; discriminate.
Qed.
Example C36_reuse_case : SameData h_ex 0 0 /\ (exists s, ident (h_ex 0) = Ok s).
Proof. split; [split; [reflexivity|]; exists (Num (XR 0)), [Num (XR 1)]; split; [reflexivity|]; split; [intros _; left; reflexivity | intros N; exfalso; apply N; reflexivity] | eexists; reflexivity]. Qed.
(** The three kinds of lists that cannot be compared. *)
Example C36_incomparable_case : exists h, h 0 = [] /\ h 1 = [Num (XR 1); Vec [XR 1; XR 2]] /\ h 2 = [Num (XR 1); Num (XR 1)] /\ h 3 = [Vec [XR 1; XR 2]] /\ h 4 = [Vec []]
  /\ compare h 0 0 = Err IndexError /\ compare h 3 4 = Err AttributeError /\ compare h 1 2 = Err ValueError /\ compare h 2 2 = Ok true.
Proof.
  exists (fun n => match n with 1 => [Num (XR 1); Vec [XR 1; XR 2]] | 2 => [Num (XR 1); Num (XR 1)] | 3 => [Vec [XR 1; XR 2]] | 4 => [Vec []] | _ => [] end).
  do 5 (split; [reflexivity|]). split; [reflexivity|]. split; [reflexivity|]. split; [|reflexivity].
  unfold compare. cbn -[xeqb]. rewrite (proj2 (xeqb_same (XR 1) (XR 1))); [reflexivity | split; [reflexivity | discriminate]].
Qed.
