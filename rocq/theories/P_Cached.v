(** C47: memoised functions are transparent. *)
From Coq Require Import Lia.
From Verif Require Import M_Base M_Cached.

Section C47.
Variables (K V St : Type).
Variable keq : K -> K -> bool.
Hypothesis keq_iff : forall x y, keq x y = true <-> x = y.
Variable hashable : K -> bool.

Lemma lookup_in : forall (c : list (K * V)) x v, lookup keq c x = Some v -> In (x, v) c.
Proof.
  induction c as [|[k w] c IH]; intros x v H; [discriminate|]. cbn in H. destruct (keq k x) eqn:E.
  - apply keq_iff in E. left. congruence.
  - right. apply IH. assumption.
Qed.
Lemma lookup_none : forall (c : list (K * V)) x, lookup keq c x = None -> ~ In x (map fst c).
Proof.
  induction c as [|[k w] c IH]; intros x H HI; [destruct HI|]. cbn in H. destruct HI as [HI|HI].
  - cbn in HI. subst. assert (E : keq x x = true) by (apply keq_iff; reflexivity). rewrite E in H. discriminate.
  - destruct (keq k x); [discriminate|]. apply (IH x); assumption.
Qed.
Lemma lookup_some : forall (c : list (K * V)) x, In x (map fst c) -> exists v, lookup keq c x = Some v.
Proof.
  intros c x H. destruct (lookup keq c x) as [v|] eqn:E; [eauto|]. exfalso. apply (lookup_none c x E H).
Qed.

(** The function without the decorator, on a hashable argument it gives [f x]. *)
Section Pure.
Variable f : K -> res V.
Variable func : K -> St -> res V * St.
Hypothesis pure : forall x s, fst (func x s) = f x.

Lemma calls_pure : forall xs (c : list (K * V)) s, (forall x v, In (x, v) c -> f x = Ok v) ->
  fst (calls keq hashable func xs c s) = map (fun x => if hashable x then f x else Err TypeError) xs.
Proof.
  induction xs as [|x xs IH]; intros c s HC; [reflexivity|].
  cbn [calls map]. unfold wrapped. destruct (hashable x) eqn:Hx; cbn [negb].
  - destruct (lookup keq c x) as [v|] eqn:EL.
    + specialize (IH c s HC). destruct (calls keq hashable func xs c s) as [rs evs]. cbn [fst] in *. rewrite IH.
      f_equal. symmetry. apply HC. apply lookup_in. assumption.
    + pose proof (pure x s) as P. destruct (func x s) as [[v|e] s'] eqn:EF; cbn [fst] in P.
      * assert (HC' : forall y w, In (y, w) ((x, v) :: c) -> f y = Ok w) by (intros y w [H|H]; [congruence|auto]).
        specialize (IH ((x, v) :: c) s' HC'). destruct (calls keq hashable func xs ((x, v) :: c) s') as [rs evs]. cbn [fst] in *. congruence.
      * specialize (IH c s' HC). destruct (calls keq hashable func xs c s') as [rs evs]. cbn [fst] in *. congruence.
  - specialize (IH c s HC). destruct (calls keq hashable func xs c s) as [rs evs]. cbn [fst] in *. congruence.
Qed.
(** In every sequence of calls the results are the ones of the function itself. *)
Theorem C47_transparent : forall xs s,
  fst (use keq hashable func xs s) = map (fun x => if hashable x then f x else Err TypeError) xs.
Proof. intros. apply calls_pure. intros x v []. Qed.
End Pure.

(** The function is evaluated at most once per distinct argument on which it does not raise (whatever it does to the
    state), and only on arguments of the calls. *)
Section Once.
Variable func : K -> St -> res V * St.
Lemma calls_once : forall xs (c : list (K * V)) s x,
  (forall s' e, fst (func x s') <> Err e) -> (forall y z, keq y z = true \/ y <> z) ->
  (In x (map fst c) -> ~ In x (snd (calls keq hashable func xs c s))) /\
  (forall l1 l2, snd (calls keq hashable func xs c s) = l1 ++ x :: l2 -> ~ In x l1 /\ ~ In x l2).
Proof.
  induction xs as [|a xs IH]; intros c s x HX HD.
  - cbn. split; [intros _ []|]. intros l1 l2 H. destruct l1; discriminate.
  - cbn [calls]. unfold wrapped. destruct (hashable a); cbn [negb].
    + destruct (lookup keq c a) as [v|] eqn:EL.
      * specialize (IH c s x HX HD). destruct (calls keq hashable func xs c s). exact IH.
      * destruct (func a s) as [[v|e] s'] eqn:EF.
        -- specialize (IH ((a, v) :: c) s' x HX HD). destruct (calls keq hashable func xs ((a, v) :: c) s') as [rs evs].
           cbn [snd app map fst] in *. destruct IH as [I1 I2]. split.
           ++ intros HI [E|HIn].
              ** subst a. apply (lookup_none c x EL HI).
              ** apply I1; [right; assumption|assumption].
           ++ intros l1 l2 E. destruct (HD a x) as [E1|N].
              ** apply keq_iff in E1. subst a. destruct l1 as [|b l1].
                 --- cbn in E. injection E as <-. split; [intros []|]. apply I1. left. reflexivity.
                 --- cbn in E. injection E as <- E. exfalso. apply I1; [left; reflexivity|]. rewrite E. apply in_or_app. right. left. reflexivity.
              ** destruct l1 as [|b l1]; cbn in E; [congruence|]. injection E as <- E. destruct (I2 l1 l2 E) as [J1 J2].
                 split; [|assumption]. intros [F|F]; [congruence|contradiction].
        -- assert (N : a <> x). { intros ->. apply (HX s e). rewrite EF. reflexivity. }
           specialize (IH c s' x HX HD). destruct (calls keq hashable func xs c s') as [rs evs].
           cbn [snd app] in *. destruct IH as [I1 I2]. split.
           ++ intros HI [E|HIn]; [congruence|]. apply I1; assumption.
           ++ intros l1 l2 E. destruct l1 as [|b l1]; cbn in E; [congruence|]. injection E as <- E. destruct (I2 l1 l2 E) as [J1 J2].
              split; [|assumption]. intros [F|F]; [congruence|contradiction].
    + specialize (IH c s x HX HD). destruct (calls keq hashable func xs c s). exact IH.
Qed.
Lemma calls_args : forall xs (c : list (K * V)) s x, In x (snd (calls keq hashable func xs c s)) -> In x xs.
Proof.
  induction xs as [|a xs IH]; intros c s x H; [destruct H|]. cbn [calls] in H. unfold wrapped in H.
  destruct (hashable a); cbn [negb] in H.
  - destruct (lookup keq c a) as [v|].
    + destruct (calls keq hashable func xs c s) as [rs evs] eqn:E. cbn in H. right. apply (IH c s). rewrite E. assumption.
    + destruct (func a s) as [[v|e] s'].
      * destruct (calls keq hashable func xs ((a, v) :: c) s') as [rs evs] eqn:E. cbn in H. destruct H as [H|H]; [left; assumption|].
        right. apply (IH ((a, v) :: c) s'). rewrite E. assumption.
      * destruct (calls keq hashable func xs c s') as [rs evs] eqn:E. cbn in H. destruct H as [H|H]; [left; assumption|].
        right. apply (IH c s'). rewrite E. assumption.
  - destruct (calls keq hashable func xs c s) as [rs evs] eqn:E. cbn in H. right. apply (IH c s). rewrite E. assumption.
Qed.
Theorem C47_once : forall xs s x, (forall s' e, fst (func x s') <> Err e) ->
  forall l1 l2, snd (use keq hashable func xs s) = l1 ++ x :: l2 -> ~ In x l1 /\ ~ In x l2.
Proof.
  intros xs s x HX l1 l2. apply (calls_once xs [] s x HX).
  intros y z. destruct (keq y z) eqn:E; [left; reflexivity|]. right. intros H. apply keq_iff in H. congruence.
Qed.
Theorem C47_arguments : forall xs s x, In x (snd (use keq hashable func xs s)) -> In x xs.
Proof. intros xs s x. apply calls_args. Qed.

(** For any function, pure or not: once a call on an argument has returned a value, every later call on it returns the
    same value. *)
Lemma calls_hit : forall xs (c : list (K * V)) s x v, lookup keq c x = Some v -> hashable x = true ->
  Forall (fun yr => fst yr = x -> snd yr = Ok v) (combine xs (fst (calls keq hashable func xs c s))).
Proof.
  induction xs as [|a xs IH]; intros c s x v HL HH; [constructor|]. cbn [calls]. unfold wrapped.
  assert (HA : a = x -> lookup keq c a = Some v) by (intros ->; assumption).
  assert (HB : a = x -> hashable a = true) by (intros ->; assumption).
  destruct (hashable a) eqn:Ha; cbn [negb].
  - destruct (lookup keq c a) as [w|] eqn:EL.
    + specialize (IH c s x v HL HH). destruct (calls keq hashable func xs c s) as [rs evs]. constructor; [|exact IH].
      cbn. intros E. specialize (HA E). congruence.
    + destruct (func a s) as [[w|e] s'].
      * assert (HL' : lookup keq ((a, w) :: c) x = Some v).
        { cbn. destruct (keq a x) eqn:E; [|assumption]. apply keq_iff in E. specialize (HA E). discriminate. }
        specialize (IH ((a, w) :: c) s' x v HL' HH). destruct (calls keq hashable func xs ((a, w) :: c) s') as [rs evs]. constructor; [|exact IH].
        cbn. intros E. specialize (HA E). discriminate.
      * specialize (IH c s' x v HL HH). destruct (calls keq hashable func xs c s') as [rs evs]. constructor; [|exact IH].
        cbn. intros E. specialize (HA E). discriminate.
  - specialize (IH c s x v HL HH). destruct (calls keq hashable func xs c s) as [rs evs]. constructor; [|exact IH].
    cbn. intros E. specialize (HB E). discriminate.
Qed.
Lemma calls_stable : forall xs (c : list (K * V)) s i j x v, i < j -> nth_error xs i = Some x -> nth_error xs j = Some x ->
  nth_error (fst (calls keq hashable func xs c s)) i = Some (Ok v) -> nth_error (fst (calls keq hashable func xs c s)) j = Some (Ok v).
Proof.
  induction xs as [|a xs IH]; intros c s i j x v Hij Hi Hj HR; [destruct i; discriminate|].
  destruct j as [|j]; [lia|]. cbn [nth_error] in Hj.
  destruct i as [|i].
  - cbn [nth_error] in Hi. injection Hi as ->.
    assert (HIT : forall c' s', lookup keq c' x = Some v -> hashable x = true ->
              nth_error (fst (calls keq hashable func xs c' s')) j = Some (Ok v)).
    { intros c' s' HL HH. pose proof (calls_hit xs c' s' x v HL HH) as F. rewrite Forall_forall in F.
      assert (LEN : forall ys (d : list (K * V)) t, length (fst (calls keq hashable func ys d t)) = length ys).
      { clear. induction ys as [|y ys IH]; intros d t; [reflexivity|]. cbn [calls].
        destruct (wrapped keq hashable func y d t) as [[[r d'] t'] ev]. specialize (IH d' t').
        destruct (calls keq hashable func ys d' t') as [rs evs]. cbn in *. congruence. }
      destruct (nth_error (fst (calls keq hashable func xs c' s')) j) as [r|] eqn:E.
      - assert (HIn : In (x, r) (combine xs (fst (calls keq hashable func xs c' s')))).
        { clear -Hj E. revert j Hj E. generalize (fst (calls keq hashable func xs c' s')) as rs.
          induction xs as [|y ys IHy]; intros rs j Hj E; [destruct j; discriminate|].
          destruct rs as [|r0 rs]; [destruct j; discriminate|].
          destruct j as [|j]; cbn in *; [left; congruence|]. right. apply (IHy rs j); assumption. }
        specialize (F _ HIn eq_refl). cbn in F. congruence.
      - apply nth_error_None in E. rewrite LEN in E. assert (j < length xs) by (apply nth_error_Some; congruence). lia. }
    cbn [calls] in *. unfold wrapped in *. destruct (hashable x) eqn:HH; cbn [negb] in *.
    + destruct (lookup keq c x) as [w|] eqn:EL.
      * specialize (HIT c s). destruct (calls keq hashable func xs c s) as [rs evs]. cbn [fst nth_error] in *.
        apply HIT; [congruence|reflexivity].
      * destruct (func x s) as [[w|e] s'].
        -- specialize (HIT ((x, w) :: c) s'). destruct (calls keq hashable func xs ((x, w) :: c) s') as [rs evs]. cbn [fst nth_error] in *.
           apply HIT; [|reflexivity]. cbn. assert (E : keq x x = true) by (apply keq_iff; reflexivity). rewrite E. congruence.
        -- destruct (calls keq hashable func xs c s') as [rs evs]. cbn in HR. discriminate.
    + destruct (calls keq hashable func xs c s) as [rs evs]. cbn in HR. discriminate.
  - cbn [nth_error] in Hi. cbn [calls] in *. destruct (wrapped keq hashable func a c s) as [[[r c'] s'] ev].
    specialize (IH c' s' i j x v ltac:(lia) Hi Hj). destruct (calls keq hashable func xs c' s') as [rs evs]. cbn [fst nth_error] in *.
    apply IH. assumption.
Qed.
Theorem C47_stable : forall xs s i j x v, i < j -> nth_error xs i = Some x -> nth_error xs j = Some x ->
  nth_error (fst (use keq hashable func xs s)) i = Some (Ok v) -> nth_error (fst (use keq hashable func xs s)) j = Some (Ok v).
Proof. intros xs s i j x v. apply calls_stable. Qed.
End Once.
End C47.
(** On an argument where it raises, the function is evaluated again at every call. *)
Theorem C47_raising_refuted :
  ~ (forall (func : nat -> unit -> res nat * unit) xs, NoDup (snd (use Nat.eqb (fun _ => true) func xs tt))).
Proof.
  intros H. specialize (H (fun x s => (Err ValueError, s)) [3; 3]). cbn in H.
  inversion H as [|? ? N _]. apply N. left. reflexivity.
Qed.
(** For a function that depends on changing state, the wrapped one may differ from it. *)
Theorem C47_stateful_refuted :
  exists (func : nat -> nat -> res nat * nat) xs, fst (use Nat.eqb (fun _ => true) func xs 0) <>
    fst (fold_left (fun rs x => let '(r, s') := func x (snd rs) in (fst rs ++ [r], s')) xs ([], 0)).
Proof. exists (fun x s => (Ok s, S s)), [5; 5]. discriminate. Qed.
Print Assumptions C47_transparent.
Print Assumptions C47_once.
Print Assumptions C47_stable.

(** A function evaluated on 3, 4, 3, 4, 5: three evaluations, the same results. *)
Example C47_example :
  let func := fun (x : nat) (s : nat) => (Ok (x * x), S s) in
  use Nat.eqb (fun _ => true) func [3; 4; 3; 4; 5] 0 = ([Ok 9; Ok 16; Ok 9; Ok 16; Ok 25], [3; 4; 5]) /\
  (forall x s, fst (func x s) = Ok (x * x)) /\ (forall x s' e, fst (func x s') <> Err e).
Proof. split; [reflexivity|]. split; [reflexivity|]. discriminate. Qed.

Print Assumptions C47_arguments.
Print Assumptions C47_raising_refuted.
Print Assumptions C47_stateful_refuted.
