(** Lemmas for C79: sampling from the prior as a random program, its law. *)
From Coq Require Import Reals Lra Lia Qreals Permutation.
From Verif Require Import M_Base M_Num M_XReal M_Stats S_Stats L_Stats L_Distance L_PosDef S_Law P_Law L_Law S_Gen L_Gen.
From Verif Require Import M_Graph S_Graph L_Graph L_Graph2 L_Graph3 L_Graph4 S_PriorLaw L_PriorLaw.
Open Scope R_scope.

Lemma nth_ext_error {X} (l : list X) : forall l', (forall i, nth_error l i = nth_error l' i) -> l = l'.
Proof.
  induction l as [|x l IH]; intros [|y l'] H; [reflexivity|specialize (H 0%nat); discriminate|specialize (H 0%nat); discriminate|]. pose proof (H 0%nat) as H0. injection H0 as ->. f_equal. apply IH. intros i. apply (H (Datatypes.S i)).
Qed.
Section Prior.
Variable A : Type.
Variable outs : list A.
Variable p : A -> R.
Hypothesis law : Law outs p.
Variable g : graph.
Hypothesis Hwf : wf g.
Hypothesis no_oper : forall n, is_oper g n = false.
Variable samp : nat -> list (option Q) -> A -> list Q.
(** answers have the declared dimension and pass the simulator's own check *)
Hypothesis dims : forall n ins a, is_free g n = true -> length (samp n ins a) = gdim g n.
Hypothesis checks : forall n ins a, is_free g n = true -> gchk_in g n ins = true -> gchk_out g n ins (samp n ins a) = true.
(** answers follow the density *)
Hypothesis density : forall n ins x, is_free g n = true -> gchk_in g n ins = true -> length x = gdim g n -> lowest x ->
  chance outs p (fun a => if vec_dec (samp n ins a) x then true else false) = Q2R (gdens g n ins x).
Notation gl := (with_draws g samp).
Variable roots : list nat.
Hypothesis Hi : indep g roots.

Lemma wf_l l : wf (gl l).
Proof. exact Hwf. Qed.
Lemma plan_l l : plan (gl l) roots = plan g roots.
Proof. rewrite <- (plan_silent (gl l)), <- (plan_silent g). reflexivity. Qed.
Lemma free_oper n : is_hyper g n = false -> is_free g n = true.
Proof. intros H. unfold is_free. rewrite H, no_oper. reflexivity. Qed.

(** one pass, compared with the target w: refused, or equal to w so far or not *)
Definition ass := nat -> option (list Q).
Definition hits (w : ass) (n : nat) (x : list Q) : bool := match w n with Some y => if vec_dec x y then true else false | None => false end.
Fixpoint cl (w : ass) (T : list nat) (v : ass) (ok : bool) (l : list A) : res (list A * (unit + bool)) :=
  match T with
  | [] => Ok (l, inr ok)
  | n :: T' => if is_hyper g n then cl w T' v ok l
               else if gchk_in g n (inputs_at g v n) then
                 match l with
                 | [] => Err OutOfFuel
                 | a :: l' => cl w T' (upd v n (Some (samp n (inputs_at g v n) a))) (ok && hits w n (samp n (inputs_at g v n) a)) l'
                 end
               else Ok (l, inl tt)
  end.
Fixpoint El (w : ass) (T : list nat) (v : ass) (ok : bool) (G : unit + bool -> R) : R :=
  match T with
  | [] => G (inr ok)
  | n :: T' => if is_hyper g n then El w T' v ok G
               else if gchk_in g n (inputs_at g v n) then
                 expect outs p (fun a => El w T' (upd v n (Some (samp n (inputs_at g v n) a))) (ok && hits w n (samp n (inputs_at g v n) a)) G)
               else G (inl tt)
  end.
Lemma cl_law w T : forall v ok, Gives outs p (fun _ l => cl w T v ok l) (fun _ => True) (fun G x => x = El w T v ok G).
Proof.
  induction T as [|n T IH]; intros v ok; cbn [cl El].
  - intros h G B x Hb Ht ->. apply (no_draw A outs p (fun _ l => Ok (l, inr ok)) (inr ok) (fun _ _ => eq_refl) h G B _ Hb); [intros y _; apply Ht; exact I|reflexivity].
  - destruct (is_hyper g n); [apply IH|]. destruct (gchk_in g n (inputs_at g v n)).
    + intros h G B x Hb Ht ->. set (P1 := fun (_ : nat) (l : list A) => match l with [] => Err OutOfFuel | a :: l' => Ok (l', a) end : res (list A * A)).
      apply (Tends_ext A outs p (after P1 (fun a => after (fun _ l => cl w T (upd v n (Some (samp n (inputs_at g v n) a))) (ok && hits w n (samp n (inputs_at g v n) a)) l) h))); [intros f [|a l] _; reflexivity|].
      destruct (Rle_dec 0 B) as [B0|B0]; [|exfalso; specialize (Hb (inl tt) 0%nat []); pose proof (Rabs_pos (h (inl tt) 0%nat [])); lra].
      apply (one_draw A outs p law P1 (fun a => a) (fun _ => True) (fun _ _ _ => eq_refl) (fun _ _ _ => I) _ (fun a => El w T (upd v n (Some (samp n (inputs_at g v n) a))) (ok && hits w n (samp n (inputs_at g v n) a)) G) B); [intros a f l; apply after_bound; [exact B0|exact Hb]| |reflexivity].
      intros a _. apply (IH _ _ h G B _ Hb Ht). reflexivity.
    + intros h G B x Hb Ht ->. apply (no_draw A outs p (fun _ l => Ok (l, inl tt)) (inl tt) (fun _ _ => eq_refl) h G B _ Hb); [intros y _; apply Ht; exact I|reflexivity].
Qed.
Lemma El_ext w T : forall v ok G H, (forall z, G z = H z) -> El w T v ok G = El w T v ok H.
Proof.
  induction T as [|n T IH]; intros v ok G H E; cbn [El]; [apply E|]. destruct (is_hyper g n); [apply IH, E|]. destruct (gchk_in g n (inputs_at g v n)); [|apply E]. apply expect_ext. intros a _. apply IH, E.
Qed.
Lemma El_plus w T : forall v ok G H, El w T v ok (fun z => G z + H z) = El w T v ok G + El w T v ok H.
Proof.
  induction T as [|n T IH]; intros v ok G H; cbn [El]; [reflexivity|]. destruct (is_hyper g n); [apply IH|]. destruct (gchk_in g n (inputs_at g v n)); [|reflexivity]. rewrite <- expect_plus. apply expect_ext. intros a _. apply IH.
Qed.
Lemma El_scale w T k : forall v ok G, El w T v ok (fun z => k * G z) = k * El w T v ok G.
Proof.
  induction T as [|n T IH]; intros v ok G; cbn [El]; [reflexivity|]. destruct (is_hyper g n); [apply IH|]. destruct (gchk_in g n (inputs_at g v n)); [|reflexivity]. rewrite <- expect_scale. apply expect_ext. intros a _. apply IH.
Qed.
Lemma El_one w T : forall v ok, El w T v ok (fun _ => 1) = 1.
Proof.
  induction T as [|n T IH]; intros v ok; cbn [El]; [reflexivity|]. destruct (is_hyper g n); [apply IH|]. destruct (gchk_in g n (inputs_at g v n)); [|reflexivity]. rewrite (expect_ext _ _ _ _ (fun _ => 1)) by (intros a _; apply IH). apply expect_const, law.
Qed.
Lemma El_nonneg w T : forall v ok G, (forall z, 0 <= G z) -> 0 <= El w T v ok G.
Proof.
  induction T as [|n T IH]; intros v ok G H; cbn [El]; [apply H|]. destruct (is_hyper g n); [apply IH, H|]. destruct (gchk_in g n (inputs_at g v n)); [|apply H]. apply (expect_nonneg _ _ _ law). intros a _. apply IH, H.
Qed.
(** the chance of an accepted pass does not depend on the target *)
Definition acc_ind (z : unit + bool) : R := match z with inl _ => 0 | inr _ => 1 end.
Definition hit_ind (z : unit + bool) : R := match z with inr true => 1 | _ => 0 end.
Lemma El_acc w w' T : forall v ok ok', El w T v ok acc_ind = El w' T v ok' acc_ind.
Proof. induction T as [|n T IH]; intros v ok ok'; cbn [El]; [reflexivity|]. destruct (is_hyper g n); [apply IH|]. destruct (gchk_in g n (inputs_at g v n)); [|reflexivity]. apply expect_ext. intros a _. apply IH. Qed.
Lemma El_missed w T : forall v, El w T v false hit_ind = 0.
Proof.
  induction T as [|n T IH]; intros v; cbn [El]; [reflexivity|]. destruct (is_hyper g n); [apply IH|]. destruct (gchk_in g n (inputs_at g v n)); [|reflexivity]. rewrite (expect_ext _ _ _ _ (fun _ => 0)) by (intros a _; apply IH). apply expect_const, law.
Qed.
Definition target_factor (w : ass) (n : nat) : R :=
  if is_hyper g n then 1 else if gchk_in g n (inputs_at g w n) then match w n with Some x => Q2R (gdens g n (inputs_at g w n) x) | None => 0 end else 0.
Definition prodR (l : list R) : R := fold_right Rmult 1 l.
Lemma El_hit w T1 T : forall v, (forall l1 n l2, T1 ++ T = l1 ++ n :: l2 -> forall q, In q (gpar g n) -> In q l1) -> NoDup (T1 ++ T) ->
  (forall n, In n T -> is_hyper g n = false -> exists x, w n = Some x /\ length x = gdim g n /\ lowest x) ->
  (forall n, In n T1 \/ is_hyper g n = true -> v n = w n) -> El w T v true hit_ind = prodR (map (target_factor w) T).
Proof.
  revert T1. induction T as [|n T IH]; intros T1 v Ht Hn Hw Hv; cbn [El map prodR fold_right]; [reflexivity|].
  assert (Hin : inputs_at g v n = inputs_at g w n) by (apply inputs_at_ext; intros q Hq; apply Hv; left; apply (Ht T1 n T eq_refl q Hq)).
  assert (Ht' : forall l1 m l2, (T1 ++ [n]) ++ T = l1 ++ m :: l2 -> forall q, In q (gpar g m) -> In q l1) by (rewrite <- app_assoc; exact Ht).
  assert (Hn' : NoDup ((T1 ++ [n]) ++ T)) by (rewrite <- app_assoc; exact Hn).
  assert (Hw' : forall m, In m T -> is_hyper g m = false -> exists x, w m = Some x /\ length x = gdim g m /\ lowest x) by (intros m Hm; apply Hw; right; exact Hm).
  unfold target_factor at 1. destruct (is_hyper g n) eqn:Eh.
  - rewrite Rmult_1_l. apply (IH (T1 ++ [n])); [exact Ht'|exact Hn'|exact Hw'|]. intros m [Hm|Hm]; [|apply Hv; right; exact Hm]. apply in_app_or in Hm. destruct Hm as [Hm|[<-|[]]]; [apply Hv; left; exact Hm|apply Hv; right; exact Eh].
  - rewrite Hin. destruct (gchk_in g n (inputs_at g w n)) eqn:Ec; [|unfold hit_ind; ring]. destruct (Hw n (or_introl eq_refl) Eh) as (x & Hx & Hl & Hlow). rewrite Hx.
    rewrite <- (density n (inputs_at g w n) x (free_oper n Eh) Ec Hl Hlow). fold (prodR (map (target_factor w) T)). unfold chance. rewrite Rmult_comm, <- expect_scale. apply expect_ext. intros a _. cbn [andb]. unfold hits. rewrite Hx.
    destruct (vec_dec (samp n (inputs_at g w n) a) x) as [E|N]; [|rewrite El_missed; ring]. rewrite Rmult_1_r.
    apply (IH (T1 ++ [n])); [exact Ht'|exact Hn'|exact Hw'|]. intros m Hm. unfold upd. destruct (Nat.eqb_spec m n) as [->|N]; [rewrite E; symmetry; exact Hx|]. apply Hv. destruct Hm as [Hm|Hm]; [|right; exact Hm]. apply in_app_or in Hm. destruct Hm as [Hm|[->|[]]]; [left; exact Hm|contradiction].
Qed.

(** the program and the walk *)
Notation T := (plan g roots).
Definition hitv (w v : ass) (n : nat) : bool := match v n with Some x => hits w n x | None => false end.
Definition same_out (T : list nat) (v v' : ass) : Prop := forall n, ~ In n T \/ is_hyper g n = true -> v' n = v n.
Lemma nth_pre {X} (pre : list X) l : nth_error (pre ++ l) (length pre) = nth_error l 0.
Proof. rewrite nth_error_app2 by lia. f_equal. lia. Qed.
Lemma cl_pass w T : NoDup T -> forall v ok pre l,
  match cl w T v ok l with
  | Ok (l', z) => exists pre' v', pre ++ l = pre' ++ l' /\ pass (gl (pre ++ l)) T v (length pre) = (v', length pre', match z with inl _ => false | inr _ => true end)
      /\ same_out T v v' /\ forall b, z = inr b -> b = ok && forallb (fun n => is_hyper g n || hitv w v' n) T
  | Err _ => (exists v' t', pass (gl (pre ++ l)) T v (length pre) = (v', t', false) /\ (length (pre ++ l) <= t')%nat /\ same_out T v v') /\ exists n, In n T /\ is_hyper g n = false
  end.
Proof.
  induction T as [|n T IH]; intros Hn v ok pre l; cbn [cl pass].
  - exists pre, v. split; [reflexivity|]. split; [reflexivity|]. split; [intros n _; reflexivity|]. intros b E. injection E as <-. cbn. rewrite Bool.andb_true_r. reflexivity.
  - inversion Hn as [|? ? N0 N1]; subst. change (is_hyper (gl (pre ++ l)) n) with (is_hyper g n). change (inputs_at (gl (pre ++ l)) v n) with (inputs_at g v n). cbn [with_draws gchk_in gsim]. destruct (is_hyper g n) eqn:Eh.
    + specialize (IH N1 v ok pre l). destruct (cl w T v ok l) as [[l' z]|e].
      * destruct IH as (pre' & v' & E1 & E2 & E3 & E4). exists pre', v'. split; [exact E1|]. split; [exact E2|]. split.
        { intros m [Hm|Hm]; apply E3; [left; intros X; apply Hm; right; exact X|right; exact Hm]. }
        intros b Hb. cbn [forallb]. rewrite Eh. cbn [orb andb]. apply E4, Hb.
      * destruct IH as ((v' & t' & E1 & E2 & E3) & m & Hm & Em). split; [|exists m; split; [right; exact Hm|exact Em]]. exists v', t'. split; [exact E1|]. split; [exact E2|].
        intros k [Hk|Hk]; apply E3; [left; intros X; apply Hk; right; exact X|right; exact Hk].
    + destruct (gchk_in g n (inputs_at g v n)).
      2:{ exists pre, v. split; [reflexivity|]. split; [reflexivity|]. split; [intros m _; reflexivity|]. intros b E. discriminate. }
      rewrite nth_pre. destruct l as [|a l]; cbn [nth_error].
      { split; [|exists n; split; [left; reflexivity|exact Eh]]. exists v, (Datatypes.S (length pre)). split; [reflexivity|]. rewrite app_length. cbn. split; [lia|]. intros m _. reflexivity. }
      set (x := samp n (inputs_at g v n) a). specialize (IH N1 (upd v n (Some x)) (ok && hits w n x) (pre ++ [a]) l). replace (length (pre ++ [a])) with (Datatypes.S (length pre)) in IH by (rewrite app_length; cbn; lia).
      rewrite <- app_assoc in IH. cbn [app] in IH.
      assert (K : forall v', same_out T (upd v n (Some x)) v' -> same_out (n :: T) v v').
      { intros v' H m Hm. rewrite H; [unfold upd; destruct (Nat.eqb_spec m n) as [->|_]; [|reflexivity]; exfalso; destruct Hm as [Hm|Hm]; [apply Hm; left; reflexivity|congruence]|]. destruct Hm as [Hm|Hm]; [left; intros X; apply Hm; right; exact X|right; exact Hm]. }
      destruct (cl w T (upd v n (Some x)) (ok && hits w n x) l) as [[l' z]|e].
      * destruct IH as (pre' & v' & E1 & E2 & E3 & E4). exists pre', v'. split; [exact E1|]. split; [exact E2|]. split; [apply K, E3|]. intros b Hb. rewrite (E4 b Hb). cbn [forallb]. rewrite Eh. cbn [orb]. unfold hitv at 2. rewrite (E3 n (or_introl N0)). unfold upd. rewrite Nat.eqb_refl. rewrite Bool.andb_assoc. reflexivity.
      * destruct IH as ((v' & t' & E1 & E2 & E3) & m & Hm & Em). split; [|exists m; split; [right; exact Hm|exact Em]]. exists v', t'. split; [exact E1|]. split; [exact E2|]. apply K, E3.
Qed.
Lemma pass_end lf T : forall v t, (length lf <= t)%nat -> (exists n, In n T /\ is_hyper g n = false) -> exists v' t', pass (gl lf) T v t = (v', t', false) /\ (length lf <= t')%nat.
Proof.
  induction T as [|n T IH]; intros v t Ht (m & Hm & Em); [destruct Hm|]. cbn [pass]. change (is_hyper (gl lf) n) with (is_hyper g n). change (inputs_at (gl lf) v n) with (inputs_at g v n). cbn [with_draws gchk_in gsim]. destruct (is_hyper g n) eqn:Eh.
  - destruct Hm as [->|Hm]; [congruence|]. apply IH; [exact Ht|exists m; auto].
  - destruct (gchk_in g n (inputs_at g v n)); [|exists v, t; auto]. destruct (nth_error lf t) eqn:E; [assert (X : nth_error lf t <> None) by congruence; apply nth_error_Some in X; lia|]. exists v, (Datatypes.S t). split; [reflexivity|lia].
Qed.
Lemma cl_ext w T1 T : forall v v' ok l, (forall l1 n l2, T1 ++ T = l1 ++ n :: l2 -> forall q, In q (gpar g n) -> In q l1) -> (forall n, In n T1 \/ is_hyper g n = true -> v n = v' n) -> cl w T v ok l = cl w T v' ok l.
Proof.
  revert T1. induction T as [|n T IH]; intros T1 v v' ok l Ht Hv; cbn [cl]; [reflexivity|].
  assert (Ht' : forall l1 m l2, (T1 ++ [n]) ++ T = l1 ++ m :: l2 -> forall q, In q (gpar g m) -> In q l1) by (rewrite <- app_assoc; exact Ht).
  destruct (is_hyper g n) eqn:Eh.
  - apply (IH (T1 ++ [n])); [exact Ht'|]. intros m [Hm|Hm]; [|apply Hv; right; exact Hm]. apply in_app_or in Hm. destruct Hm as [Hm|[<-|[]]]; [apply Hv; left; exact Hm|apply Hv; right; exact Eh].
  - assert (Hin : inputs_at g v n = inputs_at g v' n) by (apply inputs_at_ext; intros q Hq; apply Hv; left; apply (Ht T1 n T eq_refl q Hq)). rewrite Hin. destruct (gchk_in g n (inputs_at g v' n)); [|reflexivity]. destruct l as [|a l]; [reflexivity|].
    apply (IH (T1 ++ [n])); [exact Ht'|]. intros m Hm. unfold upd. destruct (Nat.eqb_spec m n) as [->|N]; [reflexivity|]. apply Hv. destruct Hm as [Hm|Hm]; [|right; exact Hm]. apply in_app_or in Hm. destruct Hm as [Hm|[->|[]]]; [left; exact Hm|contradiction].
Qed.
Lemma Anc_l l a n : Anc (gl l) a n <-> Anc g a n.
Proof. split; (induction 1 as [a n H|a q n H _ IH]; [apply anc_par; exact H|apply anc_step with q; [exact H|exact IH]]). Qed.
Lemma clean_l l s : clean (gl l) roots s <-> clean g roots s.
Proof. split; intros H r n Hr Hn; apply (H r n Hr); (destruct Hn as [Hn|Hn]; [left; exact Hn|right; apply (Anc_l l), Hn]). Qed.
Lemma order_l l : order (gl l) roots = order g roots.
Proof.
  assert (X : forall f n, exf (gl l) f n = exf g f n) by (induction f as [|f IH]; intros n; [reflexivity|]; cbn [exf]; f_equal; change (gpar (gl l) n) with (gpar g n); apply flat_map_ext; exact IH).
  unfold order. change (is_free (gl l)) with (is_free g). f_equal. f_equal. change (flat_map (gpar (gl l)) roots) with (flat_map (gpar g) roots). apply flat_map_ext. intros n. apply X.
Qed.
Lemma pass_l l s : clean g roots s -> vals_ok g s ->
  let '(v', t', b) := pass (gl l) T (val s) (ctr s) in
  exists s1 s2, sample_roots (gl l) (depth roots) roots s = (s1, Ok b) /\ reset_flags (gl l) roots s1 = (s2, Ok tt) /\ clean g roots s2 /\ vals_ok g s2 /\ val s2 = v' /\ ctr s2 = t'.
Proof.
  intros Hc Hv. pose proof (pass_spec (gl l) (wf_l l) no_oper) as P.
  assert (P' := fun X Y => P X Y roots s (proj2 (clean_l l s) Hc) Hv). clear P. cbn beta in P'. rewrite (plan_l l) in P'. destruct (pass (gl l) T (val s) (ctr s)) as [[v' t'] b]. destruct P' as (s1 & s2 & E1 & E2 & E3 & E4 & E5 & E6 & _).
  - intros n ins t x Hf E. cbn in E. destruct (nth_error l t); [injection E as <-|discriminate]. eexists _, _. split; [reflexivity|]. apply dims, Hf.
  - intros n ins t y rest Hf Hc' E. cbn in E. destruct (nth_error l t); [injection E as <- _|discriminate]. apply checks; assumption.
  - exists s1, s2. split; [exact E1|]. split; [exact E2|]. split; [apply (clean_l l), E3|]. split; [exact E4|]. split; assumption.
Qed.
Notation once w v0 := (fun (_ : nat) (_ : unit) (l : list A) => cl w T v0 true l).
Lemma ended lf tries : forall s, clean g roots s -> vals_ok g s -> (length lf <= ctr s)%nat -> (exists n, In n T /\ is_hyper g n = false) -> exists s', sample_from_prior (gl lf) roots tries s = (s', Err OutOfFuel).
Proof.
  induction tries as [|tries IH]; intros s Hc Hv Ht Hf; [exists s; reflexivity|]. pose proof (pass_l lf s Hc Hv) as P. destruct (pass_end lf T (val s) (ctr s) Ht Hf) as (v' & t' & E & Ht'). rewrite E in P. destruct P as (s1 & s2 & E1 & E2 & E3 & E4 & E5 & E6).
  cbn [sample_from_prior]. unfold bind. rewrite E1, E2. apply IH; [exact E3|exact E4|lia|exact Hf].
Qed.
Lemma run_loop w v0 F j : forall pre l s, clean g roots s -> vals_ok g s -> ctr s = length pre -> (forall n, is_hyper g n = true -> val s n = v0 n) ->
  match loop A unit bool (once w v0) F j tt l with
  | Ok (_, b) => exists s', sample_from_prior (gl (pre ++ l)) roots j s = (s', Ok tt) /\ clean g roots s' /\ b = forallb (fun n => is_hyper g n || hitv w (val s') n) T
  | Err _ => exists s' e, sample_from_prior (gl (pre ++ l)) roots j s = (s', Err e)
  end.
Proof.
  destruct (plan_facts g Hwf no_oper roots Hi) as (Nd & _ & Top).
  induction j as [|j IH]; intros pre l s Hc Hv Ht Hh; [exists s, OutOfFuel; reflexivity|]. cbn [loop sample_from_prior].
  pose proof (pass_l (pre ++ l) s Hc Hv) as P. rewrite Ht in P. pose proof (cl_pass w T Nd (val s) true pre l) as C. rewrite (cl_ext w [] T (val s) v0 true l Top) in C; [|intros n [[]|Hn]; apply Hh, Hn].
  destruct (cl w T v0 true l) as [[l' z]|e].
  - destruct C as (pre' & v' & C1 & C2 & C3 & C4). rewrite C2 in P. destruct P as (s1 & s2 & E1 & E2 & E3 & E4 & E5 & E6). unfold bind. rewrite E1, E2. destruct z as [u|b].
    + destruct u. rewrite C1. apply IH; [exact E3|exact E4|exact E6|]. intros n Hn. rewrite E5. rewrite (C3 n (or_intror Hn)). apply Hh, Hn.
    + exists s2. split; [reflexivity|]. split; [exact E3|]. rewrite E5. apply (C4 b eq_refl).
  - destruct C as ((v' & t' & C1 & C2 & C3) & Hf). rewrite C1 in P. destruct P as (s1 & s2 & E1 & E2 & E3 & E4 & E5 & E6). unfold bind. rewrite E1, E2.
    destruct (ended (pre ++ l) j s2 E3 E4 ltac:(lia) Hf) as (s3 & E). exists s3, OutOfFuel. exact E.
Qed.

(** limits *)
Notation Es w v0 := (fun (_ : unit) (G : unit + bool -> R) => El w T v0 true G).
Lemma upto_loop w v0 G q Z : El w T v0 true (fun z => match z with inr b => G b | inl _ => 0 end) = q -> El w T v0 true acc_ind = Z -> forall N,
  upto unit bool (Es w v0) G (Datatypes.S N) tt = q + (1 - Z) * upto unit bool (Es w v0) G N tt.
Proof.
  intros Hq HZ N. cbn [upto]. set (u := upto unit bool (Es w v0) G N tt).
  rewrite (El_ext w T v0 true _ (fun z => match z with inr b => G b | inl _ => 0 end + (u * 1 + (- u) * acc_ind z))) by (intros [[]|b]; cbn; fold u; ring).
  rewrite El_plus, El_plus, Hq, (El_scale w T u v0 true (fun _ => 1)), El_one, El_scale, HZ. ring.
Qed.
Lemma beyond_loop w v0 Z : El w T v0 true acc_ind = Z -> forall N, beyond unit bool (Es w v0) N tt = (1 - Z) ^ N.
Proof.
  intros HZ N. induction N as [|N IH]; [reflexivity|]. cbn [beyond pow]. rewrite <- IH. set (u := beyond unit bool (Es w v0) N tt).
  rewrite (El_ext w T v0 true _ (fun z => u * 1 + (- u) * acc_ind z)) by (intros [[]|b]; cbn; fold u; ring).
  rewrite El_plus, (El_scale w T u v0 true (fun _ => 1)), El_one, El_scale, HZ. ring.
Qed.
Lemma cv_pow Z : 0 < Z <= 1 -> Un_cv (fun N => (1 - Z) ^ N) 0.
Proof. intros HZ e He. destruct (pow_lt_1_zero (1 - Z)) with (y := e) as (N & HN); [rewrite Rabs_pos_eq; lra|exact He|]. exists N. intros n Hn. unfold R_dist. rewrite Rminus_0_r. apply HN, Hn. Qed.
Lemma loop_cv w v0 G q Z : El w T v0 true (fun z => match z with inr b => G b | inl _ => 0 end) = q -> El w T v0 true acc_ind = Z -> 0 < Z <= 1 -> Un_cv (fun N => upto unit bool (Es w v0) G N tt) (q / Z).
Proof.
  intros Hq HZ Hr. apply (cv_ext (fun N => q / Z - q / Z * (1 - Z) ^ N)).
  - induction n as [|n IH]; [cbn; ring|]. rewrite (upto_loop w v0 G q Z Hq HZ), <- IH. cbn [pow]. field. lra.
  - replace (q / Z) with (q / Z - q / Z * 0) at 1 by ring. apply CV_minus; [apply cv_const|]. apply CV_mult; [apply cv_const|apply cv_pow, Hr].
Qed.
Lemma loop_tends w v0 (G : bool -> R) q Z : (forall b, Rabs (G b) <= 1) -> El w T v0 true (fun z => match z with inr b => G b | inl _ => 0 end) = q -> El w T v0 true acc_ind = Z -> 0 < Z <= 1 ->
  Tends outs p (after (fun f l => loop A unit bool (once w v0) f f tt l) (fun b _ _ => G b)) (q / Z).
Proof.
  intros Hb Hq HZ Hr. pose proof (loop_gives A outs p law unit bool (once w v0) (fun _ => True) (fun _ => True) (Es w v0)) as L.
  assert (L1 : Gives outs p (fun f l => loop A unit bool (once w v0) f f tt l) (fun _ => True) (fun G v => Un_cv (fun N => upto unit bool (Es w v0) G N tt) v)).
  { apply L; [|exact I|apply (cv_ext (fun N => (1 - Z) ^ N)); [intros N; symmetry; apply beyond_loop, HZ|apply cv_pow, Hr]].
    intros [] _. apply (Gives_weak A outs p _ (fun _ => True) _ (fun G x => x = El w T v0 true G)); [intros [[]|b] _; exact I|auto|apply cl_law]. }
  apply (L1 (fun b _ _ => G b) G 1 (q / Z)); [intros b _ _; apply Hb|intros b _; apply Tends_const, law|]. apply loop_cv; assumption.
Qed.

(** products *)
Lemma prodR_perm l l' : Permutation l l' -> prodR l = prodR l'.
Proof. induction 1 as [|x l l' _ IH|x y l|l l' l'' _ IH1 _ IH2]; cbn; [reflexivity|fold (prodR l); fold (prodR l'); rewrite IH; reflexivity|ring|congruence]. Qed.
Lemma prodR_free w l : prodR (map (target_factor w) l) = prodR (map (target_factor w) (filter (is_free g) l)).
Proof.
  induction l as [|n l IH]; [reflexivity|]. cbn [map filter prodR fold_right]. fold (prodR (map (target_factor w) l)). rewrite IH. destruct (is_free g n) eqn:E; [reflexivity|]. unfold target_factor at 1. unfold is_free in E. rewrite no_oper, Bool.andb_true_r in E. apply Bool.negb_false_iff in E. rewrite E. fold (prodR (map (target_factor w) (filter (is_free g) l))). apply Rmult_1_l.
Qed.
Lemma prodR_Q l : prodR (map Q2R l) = Q2R (prodQ l).
Proof. induction l as [|x l IH]; cbn [map prodR fold_right prodQ]; [unfold Q2R; cbn; lra|]. fold (prodR (map Q2R l)). fold (prodQ l). rewrite IH. symmetry. apply Q2R_mult. Qed.
Lemma prodR_zero l : In 0 l -> prodR l = 0.
Proof. induction l as [|x l IH]; cbn; [tauto|]. intros [->|H]; [ring|]. fold (prodR l). rewrite IH by exact H. ring. Qed.
Lemma plan_order : Permutation (filter (is_free g) T) (order g roots).
Proof.
  destruct (plan_facts g Hwf no_oper roots Hi) as (Nd & In' & _). apply NoDup_Permutation; [apply NoDup_filter, Nd|apply (order_NoDup g)|]. intros n. rewrite filter_In, In', (order_In g Hwf). tauto.
Qed.

(** the three limits *)
Variable s : st.
Hypothesis Hc : clean g roots s.
Hypothesis Hv : vals_ok g s.
Hypothesis Ht : ctr s = 0%nat.
Definition chance_once : R := El (fun _ => None) T (val s) true acc_ind.
Lemma once_range : 0 <= chance_once <= 1.
Proof.
  unfold chance_once. split; [apply El_nonneg; intros [[]|b]; cbn; lra|]. rewrite <- (El_one (fun _ => None) T (val s) true).
  assert (D : El (fun _ => None) T (val s) true (fun _ => 1) = El (fun _ => None) T (val s) true acc_ind + El (fun _ => None) T (val s) true (fun z => 1 + -1 * acc_ind z)) by (rewrite <- El_plus; apply El_ext; intros z; ring).
  rewrite D. assert (N : 0 <= El (fun _ => None) T (val s) true (fun z => 1 + -1 * acc_ind z)) by (apply El_nonneg; intros [[]|b]; cbn; lra). lra.
Qed.
Lemma once_law : Tends outs p (fun _ l => if drawn_at_once (gl l) roots s then 1 else 0) chance_once.
Proof.
  destruct (plan_facts g Hwf no_oper roots Hi) as (Nd & _ & Top).
  apply (Tends_ext A outs p (after (fun _ l => cl (fun _ => None) T (val s) true l) (fun z _ _ => acc_ind z))).
  - intros f l _. unfold drawn_at_once, after. pose proof (pass_l l s Hc Hv) as P. rewrite Ht in P. pose proof (cl_pass (fun _ => None) T Nd (val s) true [] l) as C. cbn [app length] in C.
    destruct (cl (fun _ => None) T (val s) true l) as [[l' [[]|b]]|e].
    + destruct C as (pre' & v' & _ & C & _). rewrite C in P. destruct P as (s1 & s2 & -> & _). reflexivity.
    + destruct C as (pre' & v' & _ & C & _). rewrite C in P. destruct P as (s1 & s2 & -> & _). reflexivity.
    + destruct C as ((v' & t' & C & _) & _). rewrite C in P. destruct P as (s1 & s2 & -> & _). reflexivity.
  - apply (cl_law (fun _ => None) T (val s) true (fun z _ _ => acc_ind z) acc_ind 1); [intros [[]|b] _ _; cbn; [rewrite Rabs_R0|rewrite Rabs_R1]; lra|intros z _; apply Tends_const, law|reflexivity].
Qed.
Lemma once_sure : (forall n ins, is_free g n = true -> gchk_in g n ins = true) -> chance_once = 1.
Proof.
  intros H. unfold chance_once. generalize (val s) true. induction T as [|n l IH]; intros v b; cbn [El]; [reflexivity|]. destruct (is_hyper g n) eqn:Eh; [apply IH|]. rewrite (H n _ (free_oper n Eh)). rewrite (expect_ext _ _ _ _ (fun _ => 1)) by (intros a _; apply IH). apply expect_const, law.
Qed.
Hypothesis Hpos : 0 < chance_once.
Lemma returned_law : Tends outs p (fun f l => match sample_from_prior (gl l) roots f s with (_, Ok _) => 1 | _ => 0 end) 1.
Proof.
  apply (Tends_ext A outs p (after (fun f l => loop A unit bool (once (fun _ => None) (val s)) f f tt l) (fun b _ _ => 1))).
  - intros f l _. unfold after. pose proof (run_loop (fun _ => None) (val s) f f [] l s Hc Hv Ht (fun _ _ => eq_refl)) as P. cbn [app] in P. destruct (loop A unit bool (once (fun _ => None) (val s)) f f tt l) as [[l' b]|e]; [destruct P as (s' & -> & _)|destruct P as (s' & e' & ->)]; reflexivity.
  - apply (Tends_eq A outs p _ (chance_once / chance_once)); [field; lra|]. apply (loop_tends (fun _ => None) (val s) (fun _ => 1) chance_once chance_once); [intros _; rewrite Rabs_R1; lra| |reflexivity|pose proof once_range; lra].
    apply El_ext. intros [[]|b]; reflexivity.
Qed.
Lemma sampled_law (w : ass) params : length params = length (order g roots) -> (forall i n, nth_error (order g roots) i = Some n -> w n = nth_error params i) -> (forall n, ~ In n (order g roots) -> w n = val s n) ->
  Forall lowest params -> (forall i n x, nth_error (order g roots) i = Some n -> nth_error params i = Some x -> length x = gdim g n) ->
  Tends outs p (fun f l => if sampled_to (gl l) roots f s params then 1 else 0) (prodR (map (target_factor w) (order g roots)) / chance_once).
Proof.
  intros Hl Hw Hw' Hlow Hd. destruct (plan_facts g Hwf no_oper roots Hi) as (Nd & Mem & Top).
  assert (Hin : forall n, In n T -> is_hyper g n = false -> exists i x, nth_error (order g roots) i = Some n /\ nth_error params i = Some x /\ w n = Some x).
  { intros n Hn Eh. assert (Ho : In n (order g roots)) by (apply (order_In g Hwf); split; [apply free_oper, Eh|apply Mem, Hn]). apply In_nth_error in Ho. destruct Ho as (i & Ei). destruct (nth_error params i) as [x|] eqn:Ex.
    - exists i, x. split; [exact Ei|]. split; [exact Ex|]. rewrite (Hw i n Ei). exact Ex.
    - exfalso. apply nth_error_None in Ex. assert (X : nth_error (order g roots) i <> None) by congruence. apply nth_error_Some in X. lia. }
  assert (Hhyp : forall n, is_hyper g n = true -> val s n = w n).
  { intros n Hn. symmetry. apply Hw'. intros Ho. apply (order_In g Hwf) in Ho. destruct Ho as (Ho & _). unfold is_free in Ho. rewrite Hn in Ho. discriminate. }
  assert (Hget : map w (order g roots) = map Some params).
  { apply nth_ext_error. intros i. rewrite !nth_error_map. destruct (nth_error (order g roots) i) as [n|] eqn:Ei; cbn [option_map].
    - rewrite (Hw i n Ei). destruct (nth_error params i) eqn:Ex; [reflexivity|]. apply nth_error_None in Ex. assert (X : nth_error (order g roots) i <> None) by congruence. apply nth_error_Some in X. lia.
    - apply nth_error_None in Ei. replace (nth_error params i) with (@None (list Q)); [reflexivity|]. symmetry. apply nth_error_None. lia. }
  apply (Tends_ext A outs p (after (fun f l => loop A unit bool (once w (val s)) f f tt l) (fun (b : bool) _ _ => if b then 1 else 0))).
  - intros f l _. unfold after, sampled_to. pose proof (run_loop w (val s) f f [] l s Hc Hv Ht (fun _ _ => eq_refl)) as P. cbn [app] in P. destruct (loop A unit bool (once w (val s)) f f tt l) as [[l' b]|e]; [destruct P as (s' & -> & Hc' & Hb)|destruct P as (s' & e' & ->); reflexivity].
    destruct (get_parameters_spec (gl l) (wf_l l) roots s' (proj2 (clean_l l s') Hc')) as (s2 & E & _). rewrite E. rewrite (order_l l).
    assert (Eb : b = if params_dec (map (val s') (order g roots)) (map Some params) then true else false); [|rewrite <- Eb; reflexivity].
    rewrite Hb. destruct (params_dec (map (val s') (order g roots)) (map Some params)) as [E1|N1].
    + apply forallb_forall. intros n Hn. destruct (is_hyper g n) eqn:Eh; [reflexivity|]. cbn [orb]. destruct (Hin n Hn Eh) as (i & x & Ei & Ex & Ew). unfold hitv.
      assert (Es' : val s' n = Some x) by (assert (X : nth_error (map (val s') (order g roots)) i = nth_error (map Some params) i) by congruence; rewrite !nth_error_map, Ei, Ex in X; cbn [option_map] in X; congruence).
      rewrite Es'. unfold hits. rewrite Ew. destruct (vec_dec x x); congruence.
    + apply Bool.not_true_is_false. intros X. apply N1. rewrite <- Hget. apply map_ext_in. intros n Hn. apply (order_In g Hwf) in Hn. destruct Hn as (Hf & Ha). apply Mem in Ha. rewrite forallb_forall in X. specialize (X n Ha).
      assert (Eh : is_hyper g n = false) by (unfold is_free in Hf; destruct (is_hyper g n); [discriminate|reflexivity]). rewrite Eh in X. cbn [orb] in X. unfold hitv, hits in X. destruct (val s' n) as [x|]; [|discriminate]. destruct (w n) as [y|]; [|discriminate]. destruct (vec_dec x y); [congruence|discriminate].
  - apply loop_tends; [intros [|]; [rewrite Rabs_R1|rewrite Rabs_R0]; lra| |apply El_acc|pose proof once_range; lra].
    rewrite <- (prodR_perm _ _ (Permutation_map (target_factor w) plan_order)), <- prodR_free.
    rewrite <- (El_hit w [] T (val s)); [apply El_ext; intros [[]|[|]]; reflexivity|exact Top|exact Nd| |intros n [[]|Hn]; apply Hhyp, Hn].
    intros n Hn Eh. destruct (Hin n Hn Eh) as (i & x & Ei & Ex & Ew). exists x. split; [exact Ew|]. split; [apply (Hd i n x Ei Ex)|]. rewrite Forall_forall in Hlow. apply Hlow, (nth_error_In _ i), Ex.
Qed.
End Prior.
