(** Refinement proof: every execution of the MPI backend computes what the sequential specification allows. *)
From Verif Require Import M_Base M_MPI S_MPI.
From Coq Require Import Permutation Sorted.

(** * Lists *)
Lemma upd_eq {A} (f : nat -> A) i x : upd f i x i = x.
Proof. unfold upd. rewrite Nat.eqb_refl. reflexivity. Qed.
Lemma upd_neq {A} (f : nat -> A) i j x : j <> i -> upd f i x j = f j.
Proof. intros H. unfold upd. destruct (Nat.eqb_spec j i); [congruence | reflexivity]. Qed.

Lemma concat_split {A} (f : nat -> list A) N i : i < N ->
  exists X Y, forall g, (forall j, j <> i -> g j = f j) -> concat (map g (seq 0 N)) = X ++ g i ++ Y.
Proof.
  intros Hi. exists (concat (map f (seq 0 i))), (concat (map f (seq (S i) (N - S i)))). intros g Hg.
  replace N with (i + S (N - S i)) at 1 by lia. rewrite seq_app, map_app, concat_app. cbn [Nat.add seq map concat].
  f_equal; [f_equal; apply map_ext_in; intros j Hj; apply in_seq in Hj; apply Hg; lia|].
  f_equal. f_equal. apply map_ext_in. intros j Hj. apply in_seq in Hj. apply Hg. lia.
Qed.
Lemma concat_all_nil {A} (f : nat -> list A) N : (forall i, i < N -> f i = []) -> concat (map f (seq 0 N)) = [].
Proof.
  intros H. assert (G : forall l, (forall i, In i l -> f i = []) -> concat (map f l) = []).
  { induction l as [|x l IH]; intros Hl; cbn; [reflexivity|]. rewrite Hl by (left; reflexivity). apply IH. intros i Hi. apply Hl. right. exact Hi. }
  apply G. intros i Hi. apply in_seq in Hi. apply H. lia.
Qed.
Lemma concat_ext {A} (f g : nat -> list A) N : (forall i, i < N -> f i = g i) ->
  concat (map f (seq 0 N)) = concat (map g (seq 0 N)).
Proof. intros H. f_equal. apply map_ext_in. intros i Hi. apply in_seq in Hi. apply H. lia. Qed.

(** * Sorting by tag *)
Section Sort.
Context {V : Type}.
Definition tagged (rs : list V) : list (nat * V) := combine (seq 1 (length rs)) rs.
Definition lt1 (p q : nat * V) : Prop := fst p < fst q.
Definition le1 (p q : nat * V) : Prop := fst p <= fst q.

Lemma ins_perm (p : nat * V) l : Permutation (ins p l) (p :: l).
Proof.
  induction l as [|q l IH]; cbn; [apply Permutation_refl|]. destruct (fst p <=? fst q); [apply Permutation_refl|].
  rewrite IH. apply perm_swap.
Qed.
Lemma isort_perm (l : list (nat * V)) : Permutation (isort l) l.
Proof. induction l as [|p l IH]; cbn; [constructor|]. rewrite ins_perm. constructor. exact IH. Qed.
Lemma ins_sorted (p : nat * V) l : StronglySorted le1 l -> StronglySorted le1 (ins p l).
Proof.
  induction 1 as [|q l Hs IH Hf]; cbn; [repeat constructor|]. destruct (Nat.leb_spec (fst p) (fst q)).
  - constructor; [constructor; assumption|]. constructor; [exact H|]. eapply Forall_impl; [|exact Hf].
    unfold le1. intros a Ha. lia.
  - constructor; [exact IH|]. apply (Permutation_Forall (Permutation_sym (ins_perm p l))). constructor; [unfold le1; lia | exact Hf].
Qed.
Lemma isort_sorted (l : list (nat * V)) : StronglySorted le1 (isort l).
Proof. induction l as [|p l IH]; cbn; [constructor | apply ins_sorted; exact IH]. Qed.
Lemma strict (l : list (nat * V)) : StronglySorted le1 l -> NoDup (map fst l) -> StronglySorted lt1 l.
Proof.
  induction 1 as [|q l Hs IH Hf]; intros Hn; [constructor|]. cbn in Hn. inversion Hn; subst.
  constructor; [apply IH; assumption|]. rewrite Forall_forall in *. intros p Hp. specialize (Hf p Hp). unfold le1, lt1 in *.
  assert (fst q <> fst p). { intros E. apply H1. rewrite E. apply in_map. exact Hp. } lia.
Qed.
Lemma sorted_unique (l l' : list (nat * V)) : StronglySorted lt1 l -> StronglySorted lt1 l' -> Permutation l l' -> l = l'.
Proof.
  intros H. revert l'. induction H as [|p l Hs IH Hf]; intros l' Hs' Hp.
  - apply Permutation_nil in Hp. auto.
  - destruct l' as [|p' l']; [apply Permutation_sym, Permutation_nil in Hp; discriminate|].
    inversion Hs' as [|? ? Hs2 Hf2]; subst.
    assert (p = p').
    { assert (Hin : In p (p' :: l')) by (apply (Permutation_in _ Hp); left; reflexivity).
      assert (Hin' : In p' (p :: l)) by (apply (Permutation_in _ (Permutation_sym Hp)); left; reflexivity).
      destruct Hin as [E|Hin]; [congruence|]. destruct Hin' as [E|Hin']; [congruence|].
      rewrite Forall_forall in Hf, Hf2. specialize (Hf _ Hin'). specialize (Hf2 _ Hin). unfold lt1 in *. lia. }
    subst p'. f_equal. apply IH; [exact Hs2|]. apply Permutation_cons_inv in Hp. exact Hp.
Qed.
Lemma tagged_fst_gen (rs : list V) a : map fst (combine (seq a (length rs)) rs) = seq a (length rs).
Proof. revert a. induction rs as [|r rs IH]; intros a; cbn; [reflexivity|]. rewrite IH. reflexivity. Qed.
Lemma tagged_snd (rs : list V) a : map snd (combine (seq a (length rs)) rs) = rs.
Proof. revert a. induction rs as [|r rs IH]; intros a; cbn; [reflexivity|]. rewrite IH. reflexivity. Qed.
Lemma tagged_sorted (rs : list V) : StronglySorted lt1 (tagged rs).
Proof.
  unfold tagged. generalize 1 as a. induction rs as [|r rs IH]; intros a; cbn; constructor; [apply IH|].
  apply Forall_forall. intros [t v] Hin. apply in_combine_l in Hin. apply in_seq in Hin. unfold lt1. cbn. lia.
Qed.
Lemma sort_tagged (d : list (nat * V)) rs : Permutation d (tagged rs) -> map snd (isort d) = rs.
Proof.
  intros H. assert (isort d = tagged rs).
  { apply sorted_unique; [|apply tagged_sorted | rewrite isort_perm; exact H].
    apply strict; [apply isort_sorted|]. apply (Permutation_NoDup (l := map fst (tagged rs))).
    - apply Permutation_map. rewrite isort_perm. symmetry. exact H.
    - unfold tagged. rewrite tagged_fst_gen. apply seq_NoDup. }
  rewrite H0. apply tagged_snd.
Qed.
Lemma combine_app2 {A B} (a1 a2 : list A) (b1 b2 : list B) : length a1 = length b1 ->
  combine (a1 ++ a2) (b1 ++ b2) = combine a1 b1 ++ combine a2 b2.
Proof.
  revert b1. induction a1 as [|x a1 IH]; intros [|y b1] H; cbn in *; try lia; [reflexivity|]. rewrite IH by lia. reflexivity.
Qed.
Lemma tagged_app_last (rs : list V) r : tagged (rs ++ [r]) = tagged rs ++ [(S (length rs), r)].
Proof.
  unfold tagged. rewrite app_length, Nat.add_comm. cbn [length Nat.add]. rewrite seq_S.
  rewrite combine_app2 by apply seq_length. reflexivity.
Qed.
End Sort.

Section Proof.
Variable V : Type.
Variable isexc : V -> bool.
Variable rewrap : V -> option V.
Variable N : nat.
Hypothesis HN : 0 < N.
Notation rf := (run_function rewrap).
Definition store := nat -> option (option (list (nat * V))).

(** effect of a command on the stores of a leader *)
Definition apply1 (m : msg V) (s : store) : store :=
  match m with
  | MPar id => upd s id (Some None)
  | MDelP id => upd s id None
  | _ => s
  end.
Definition applyb1 (m : msg V) (b : nat -> option V) : nat -> option V :=
  match m with
  | MBcast id v => upd b id (Some v)
  | MDelB id => upd b id None
  | _ => b
  end.
(** plain commands, that succeed on these stores *)
Definition okm (m : msg V) (s : store) (b : nat -> option V) : Prop :=
  match m with
  | MPar _ | MBcast _ _ => True
  | MDelP id => s id <> None
  | MDelB id => b id <> None
  | MMap _ _ _ | MCollect _ => False
  end.
Fixpoint applyq (q : list (msg V)) (s : store) : store := match q with [] => s | m :: q' => applyq q' (apply1 m s) end.
Fixpoint applyb (q : list (msg V)) (b : nat -> option V) := match q with [] => b | m :: q' => applyb q' (applyb1 m b) end.
Fixpoint okq (q : list (msg V)) (s : store) (b : nat -> option V) : Prop :=
  match q with [] => True | m :: q' => okm m s b /\ okq q' (apply1 m s) (applyb1 m b) end.

Lemma applyq_app q1 q2 s : applyq (q1 ++ q2) s = applyq q2 (applyq q1 s).
Proof. revert s. induction q1 as [|m q1 IH]; intros s; cbn; [reflexivity | apply IH]. Qed.
Lemma applyb_app q1 q2 b : applyb (q1 ++ q2) b = applyb q2 (applyb q1 b).
Proof. revert b. induction q1 as [|m q1 IH]; intros b; cbn; [reflexivity | apply IH]. Qed.
Lemma okq_app q1 q2 s b : okq (q1 ++ q2) s b <-> okq q1 s b /\ okq q2 (applyq q1 s) (applyb q1 b).
Proof. revert s b. induction q1 as [|m q1 IH]; intros s b; cbn; [tauto|]. rewrite IH. tauto. Qed.

(** the leader is between commands, or about to receive the sentinel; [s'] is its store once it has *)
Definition quiet (p : lphase V) (d : list (option (nat * V))) (s s' : store) : Prop :=
  (p = LIdle /\ d = [] /\ s' = s)
  \/ (exists src dst f rdd, p = LWait src dst f rdd /\ d = [None] /\ s' = upd s dst (Some (Some rdd))).

Definition pw {A} (f g : nat -> A) : Prop := forall n, f n = g n.

Definition LNext (p : lphase V) q d (g : list (list (nat * V))) (s : store) b (r : nat) (F : store) B : Prop :=
  r = 0 /\ g = [] /\ exists s', quiet p d s s' /\ okq q s' b /\ pw F (applyq q s') /\ pw B (applyb q b).

Definition LMap src dst f (done : bool) p q d (g : list (list (nat * V))) (s : store) b r (F : store) B : Prop :=
  if done then LNext p q d g s b r F B
  else g = [] /\
   ((exists q0 F0, q = q0 ++ [MMap src dst f] /\ LNext p q0 d g s b r F0 B /\ pw F (upd F0 dst (Some (Some []))))
   \/ (exists rdd, p = LAsk src dst f rdd /\ q = [] /\ d = [] /\ r = 0 /\ pw F (upd s dst (Some (Some rdd))) /\ pw B b)
   \/ (exists rdd, p = LWait src dst f rdd /\ q = [] /\ d = [] /\ r = 1 /\ pw F (upd s dst (Some (Some rdd))) /\ pw B b)
   \/ (exists rdd t x v, p = LWait src dst f rdd /\ q = [] /\ d = [Some (t, x)] /\ r = 0 /\ rf f x = Some v
        /\ pw F (upd s dst (Some (Some (rdd ++ [(t, v)])))) /\ pw B b)).

Definition dat (o : option (option (list (nat * V)))) : list (nat * V) :=
  match o with Some (Some d) => d | _ => [] end.

Definition LGather id p q d (g : list (list (nat * V))) (s : store) b r (F : store) B : Prop :=
  (exists q0, q = q0 ++ [MCollect id] /\ LNext p q0 d g s b r F B)
  \/ (p = LIdle /\ q = [] /\ d = [] /\ r = 0 /\ g = [dat (F id)] /\ pw F s /\ pw B b).

Definition reqs (c : cfg V) (i : nat) : nat := count_occ Nat.eq_dec (map fst (rq c)) i.

Definition LInv (c : cfg V) (f : func V) (i : nat) (F : store) (B : nat -> option V) : Prop :=
  match sph c with
  | SNext => LNext (lp c i) (cq c i) (dq c i) (gq c i) (lpds c i) (lbds c i) (reqs c i) F B
  | SMap src dst pend done => LMap src dst f (done i) (lp c i) (cq c i) (dq c i) (gq c i) (lpds c i) (lbds c i) (reqs c i) F B
  | SGather id => LGather id (lp c i) (cq c i) (dq c i) (gq c i) (lpds c i) (lbds c i) (reqs c i) F B
  | SDead => False
  end.

Definition pendof (c : cfg V) (id : nat) : list V :=
  match sph c with SMap _ dst pend _ => if Nat.eqb id dst then pend else [] | _ => [] end.
Definition tags (d : list (option (nat * V))) : list nat := flat_map (fun o => match o with Some (t, _) => [t] | None => [] end) d.
Definition flying (c : cfg V) (id : nat) : list nat :=
  match sph c with SMap _ dst _ _ => if Nat.eqb id dst then concat (map (fun i => tags (dq c i)) (seq 0 N)) else [] | _ => [] end.
Definition logtags (lg : list (nat * nat)) (id : nat) : list nat :=
  map snd (filter (fun e => Nat.eqb (fst e) id) lg).

(** the scheduler's view of the data *)
Definition Sched (c : cfg V) (f : func V) (a : astate V) : Prop :=
  match sph c with
  | SNext => rq c = []
  | SMap src dst pend done =>
      (forall r pid, In (r, pid) (rq c) -> pid = src /\ r < N)
      /\ (exists l rs, apds a src = Some (PRaw l) /\ apds a dst = Some (PRes rs) /\ results rewrap f l = Some rs
                       /\ pend = firstn (length pend) l) /\ alive a dst = true
      /\ (forall i, i < N -> done i = true -> pend = [])
  | SGather id => rq c = [] /\ alive a id = true /\ exists rs, apds a id = Some (PRes rs)
  | SDead => False
  end.

Definition Data (c : cfg V) (a : astate V) (F : nat -> store) : Prop :=
  (forall i id, i < N -> alive a id = false -> F i id = None)
  /\ (forall i id l, i < N -> alive a id = true -> apds a id = Some (PRaw l) -> F i id = Some None)
  /\ (forall id rs, alive a id = true -> apds a id = Some (PRes rs) ->
        (forall i, i < N -> exists d, F i id = Some (Some d))
        /\ exists prs, Permutation (concat (map (fun i => dat (F i id)) (seq 0 N)) ++ tagged prs) (tagged rs)
                       /\ prs = firstn (length prs) rs /\ length prs = length (pendof c id)).

Record Inv (c : cfg V) (a : astate V) (es : list (exp V)) (f : func V) (F : nat -> store) : Prop := {
  i_np : npds c = anp a;
  i_nb : nbds c = anb a;
  i_sb : pw (sbds c) (abds a);
  i_sp : forall id, spds c id = match apds a id with Some (PRaw l) => Some l | _ => None end;
  i_idp : forall id, apds a id <> None -> 1 <= id <= anp a;
  i_live : forall id, alive a id = true -> apds a id <> None;
  i_idb : forall id, abds a id <> None -> 1 <= id <= anb a;
  i_outs : Forall2 (allowed isexc) es (outs c);
  i_sched : Sched c f a;
  i_data : Data c a F;
  i_loc : forall i, i < N -> LInv c f i (F i) (abds a);
  i_log : forall id, match apds a id with
                     | Some (PRes rs) => Permutation (logtags (log c) id ++ flying c id ++ seq 1 (length (pendof c id))) (seq 1 (length rs))
                     | _ => logtags (log c) id = []
                     end
}.

(** * Local lemmas *)
Lemma okm_pw m s s' b b' : pw s s' -> pw b b' -> okm m s b -> okm m s' b'.
Proof. intros Hs Hb. destruct m; cbn; auto; [rewrite Hs | rewrite Hb]; auto. Qed.
Lemma apply1_pw m s s' : pw s s' -> pw (apply1 m s) (apply1 m s').
Proof. intros H n. destruct m; cbn; auto; unfold upd; destruct (Nat.eqb n _); auto. Qed.
Lemma applyb1_pw m b b' : pw b b' -> pw (applyb1 m b) (applyb1 m b').
Proof. intros H n. destruct m; cbn; auto; unfold upd; destruct (Nat.eqb n _); auto. Qed.
Lemma pw_trans {A} (f g h : nat -> A) : pw f g -> pw g h -> pw f h.
Proof. intros H1 H2 n. rewrite H1. apply H2. Qed.
Lemma pw_sym {A} (f g : nat -> A) : pw f g -> pw g f.
Proof. intros H n. symmetry. apply H. Qed.
Lemma pw_refl {A} (f : nat -> A) : pw f f.
Proof. intros n. reflexivity. Qed.
Lemma upd_pw {A} (f g : nat -> A) i x : pw f g -> pw (upd f i x) (upd g i x).
Proof. intros H n. unfold upd. destruct (Nat.eqb n i); auto. Qed.

Lemma LNext_push p q d g s b r F B m : LNext p q d g s b r F B -> okm m F B ->
  LNext p (q ++ [m]) d g s b r (apply1 m F) (applyb1 m B).
Proof.
  intros (Hr & Hg & s' & Hq & Hok & HF & HB) Hm. split; [exact Hr|]. split; [exact Hg|]. exists s'. split; [exact Hq|].
  split; [|split].
  - apply okq_app. split; [exact Hok|]. cbn. split; [|exact I]. apply (okm_pw m F _ B _ HF HB Hm).
  - rewrite applyq_app. apply apply1_pw. exact HF.
  - rewrite applyb_app. apply applyb1_pw. exact HB.
Qed.
Lemma LNext_pw p q d g s b r F B F' B' : LNext p q d g s b r F B -> pw F' F -> pw B' B -> LNext p q d g s b r F' B'.
Proof.
  intros (Hr & Hg & s' & Hq & Hok & HF & HB) H1 H2. split; [exact Hr|]. split; [exact Hg|]. exists s'.
  split; [exact Hq|]. split; [exact Hok|]. split; eapply pw_trans; eauto.
Qed.
(** an idle leader takes a plain command *)
Lemma LNext_take m q d g s b r F B : LNext LIdle (m :: q) d g s b r F B ->
  okm m s b /\ LNext LIdle q d g (apply1 m s) (applyb1 m b) r F B.
Proof.
  intros (Hr & Hg & s' & Hq & Hok & HF & HB). destruct Hq as [(_ & Hd & ->)|(src & dst & f & rdd & E & _)]; [|discriminate].
  cbn in Hok. destruct Hok as [Hm Hok]. split; [exact Hm|]. split; [exact Hr|]. split; [exact Hg|].
  exists (apply1 m s). split; [left; auto|]. split; [exact Hok|]. split; [exact HF | exact HB].
Qed.
(** receiving the sentinel *)
Lemma LNext_recv src dst f rdd q d o g s b r F B : LNext (LWait src dst f rdd) q (o :: d) g s b r F B ->
  o = None /\ d = [] /\ LNext LIdle q d g (upd s dst (Some (Some rdd))) b r F B.
Proof.
  intros (Hr & Hg & s' & Hq & Hok & HF & HB).
  destruct Hq as [(E & _)|(src' & dst' & f' & rdd' & E & Hd & ->)]; [discriminate|]. inversion E; subst.
  inversion Hd; subst. split; [reflexivity|]. split; [reflexivity|]. split; [reflexivity|]. split; [reflexivity|].
  eexists. split; [left; repeat split|]. auto.
Qed.
Lemma LNext_phase p q d g s b r F B : LNext p q d g s b r F B -> (forall src dst f rdd, p <> LAsk src dst f rdd) /\ p <> LDead.
Proof.
  intros (_ & _ & s' & [(-> & _)|(src' & dst' & f' & rdd' & -> & _)] & _); split; congruence.
Qed.

Lemma results_length f l rs : results rewrap f l = Some rs -> length rs = length l.
Proof.
  revert rs. induction l as [|x l IH]; intros rs H; cbn in H; [inversion H; reflexivity|].
  destruct (rf f x) as [r|]; [|discriminate]. destruct (results rewrap f l) as [rs'|]; [|discriminate].
  inversion H; subst. cbn. rewrite (IH rs' eq_refl). reflexivity.
Qed.
Lemma results_nth f l : forall rs k x, results rewrap f l = Some rs -> nth_error l k = Some x ->
  exists v, nth_error rs k = Some v /\ rf f x = Some v.
Proof.
  induction l as [|y l IH]; intros rs k x H Hk; [destruct k; discriminate|]. cbn in H.
  destruct (rf f y) as [r|] eqn:Hr; [|discriminate]. destruct (results rewrap f l) as [rs'|]; [|discriminate].
  inversion H; subst. destruct k as [|k]; cbn in Hk |- *.
  - inversion Hk; subst. eauto.
  - eapply IH; eauto.
Qed.
Lemma firstn_S_nth {A} (l : list A) k x : nth_error l k = Some x -> firstn (S k) l = firstn k l ++ [x].
Proof.
  revert k. induction l as [|y l IH]; intros [|k] H; cbn in *; try discriminate; [inversion H; reflexivity|].
  rewrite (IH k H). reflexivity.
Qed.

Lemma count_app x (l1 l2 : list nat) : count_occ Nat.eq_dec (l1 ++ l2) x = count_occ Nat.eq_dec l1 x + count_occ Nat.eq_dec l2 x.
Proof. apply count_occ_app. Qed.

(** * Steps that do not issue a command *)
Definition frame (c c' : cfg V) (i : nat) : Prop :=
  prog c' = prog c /\ sph c' = sph c /\ npds c' = npds c /\ nbds c' = nbds c /\ spds c' = spds c /\ sbds c' = sbds c
  /\ outs c' = outs c
  /\ forall j, j <> i -> lp c' j = lp c j /\ cq c' j = cq c j /\ dq c' j = dq c j /\ gq c' j = gq c j
                        /\ lpds c' j = lpds c j /\ lbds c' j = lbds c j /\ reqs c' j = reqs c j.

Lemma leader_step c c' a es f F i : Inv c a es f F -> frame c c' i ->
  LInv c' f i (F i) (abds a) -> Sched c' f a ->
  (forall id, Permutation (logtags (log c') id ++ flying c' id) (logtags (log c) id ++ flying c id)) ->
  (forall id, match apds a id with Some (PRes _) => True | _ => logtags (log c') id = logtags (log c) id end) ->
  Inv c' a es f F.
Proof.
  intros HI (E1 & E2 & E3 & E4 & E5 & E6 & E7 & Hj) Hl Hs Hlog1 Hlog2. destruct HI.
  assert (Hpend : forall id, pendof c' id = pendof c id) by (intros id; unfold pendof; rewrite E2; reflexivity).
  constructor; try assumption; try congruence.
  - intros id. rewrite E5. apply i_sp0.
  - destruct i_data0 as (D1 & D2 & D3). split; [exact D1|]. split; [exact D2|]. intros id rs Ha Hr.
    destruct (D3 id rs Ha Hr) as [D4 (prs & D5 & D6 & D7)]. split; [exact D4|]. exists prs. rewrite Hpend. auto.
  - intros j Hjn. destruct (Nat.eq_dec j i) as [->|Hne]; [exact Hl|].
    specialize (i_loc0 j Hjn). destruct (Hj j Hne) as (A1 & A2 & A3 & A4 & A5 & A6 & A7).
    unfold LInv in *. rewrite E2, A1, A2, A3, A4, A5, A6, A7. exact i_loc0.
  - intros id. specialize (i_log0 id). specialize (Hlog1 id). specialize (Hlog2 id).
    destruct (apds a id) as [[l|rs]|]; try congruence.
    rewrite Hpend, app_assoc, Hlog1, <- app_assoc. exact i_log0.
Qed.
Lemma flying_frame c c' i id : frame c c' i -> tags (dq c' i) = tags (dq c i) -> flying c' id = flying c id.
Proof.
  intros (E1 & E2 & E3 & E4 & E5 & E6 & E7 & Hj) Ht. unfold flying. rewrite E2. destruct (sph c); try reflexivity.
  destruct (id =? dst); [|reflexivity]. apply concat_ext. intros j _. destruct (Nat.eq_dec j i) as [->|Hne]; [exact Ht|].
  destruct (Hj j Hne) as (_ & _ & -> & _). reflexivity.
Qed.
Lemma leader_step_nolog c c' a es f F i : Inv c a es f F -> frame c c' i ->
  LInv c' f i (F i) (abds a) -> Sched c' f a -> log c' = log c -> tags (dq c' i) = tags (dq c i) -> Inv c' a es f F.
Proof.
  intros HI Hfr Hl Hs Hlog Ht. apply (leader_step c c' a es f F i HI Hfr Hl Hs).
  - intros id. rewrite Hlog, (flying_frame c c' i id Hfr Ht). apply Permutation_refl.
  - intros id. rewrite Hlog. destruct (apds a id) as [[l|rs]|]; auto.
Qed.

Ltac frame_tac := unfold frame, reqs; cbn [prog sph npds nbds spds sbds outs rq cq dq gq lp lpds lbds log set_lp]; do 7 (split; [reflexivity || (cbn; congruence)|]); let j := fresh "j" in let Hj := fresh "Hj" in
  intros j Hj; rewrite ?upd_neq by assumption; repeat split.

Lemma plain_take c i m q c' q0 F0 B0 : lp c i = LIdle -> cq c i = m :: q -> ltake c i = Some c' ->
  LNext LIdle (m :: q0) (dq c i) (gq c i) (lpds c i) (lbds c i) (reqs c i) F0 B0 ->
  frame c c' i /\ lp c' i = LIdle /\ cq c' i = q /\ dq c' = dq c /\ gq c' = gq c /\ rq c' = rq c /\ log c' = log c
  /\ LNext LIdle q0 (dq c i) (gq c i) (lpds c' i) (lbds c' i) (reqs c i) F0 B0.
Proof.
  intros Hp Hq H HL. unfold ltake in H. rewrite Hp, Hq in H. apply LNext_take in HL. destruct HL as [Hm HL].
  destruct m as [id|src dst f0|id|id v|id|id]; cbn in Hm; try contradiction; cbn [apply1 applyb1] in *;
    try (destruct (lpds c i id) eqn:E; [|congruence]); try (destruct (lbds c i id) eqn:E'; [|congruence]);
    inversion H; subst c'; cbn; rewrite !upd_eq, Hp; (split; [frame_tac|]); repeat (split; [reflexivity|]); exact HL.
Qed.

Lemma inv_take c a es f F i c' : Inv c a es f F -> i < N -> ltake c i = Some c' -> Inv c' a es f F /\ prog c' = prog c /\ sph c' = sph c.
Proof.
  intros HI Hi H. pose proof (i_loc _ _ _ _ _ HI i Hi) as Hl. pose proof (i_sched _ _ _ _ _ HI) as Hs.
  assert (Hp : lp c i = LIdle) by (unfold ltake in H; destruct (lp c i); congruence).
  assert (Hq : exists m q, cq c i = m :: q). { unfold ltake in H. rewrite Hp in H. destruct (cq c i) as [|m q]; [discriminate | eauto]. }
  destruct Hq as (m & q & Hq).
  assert (Hfin : frame c c' i -> rq c' = rq c -> log c' = log c -> tags (dq c' i) = tags (dq c i) -> LInv c' f i (F i) (abds a) ->
                 Inv c' a es f F /\ prog c' = prog c /\ sph c' = sph c).
  { intros Hf Hr Hlg Ht Hli. split; [|destruct Hf as (? & ? & _); auto].
    apply (leader_step_nolog c c' a es f F i HI Hf Hli); auto. unfold Sched in *. destruct Hf as (_ & -> & _). rewrite Hr. exact Hs. }
  assert (Hplain : forall q0 F0 B0, LNext LIdle (m :: q0) (dq c i) (gq c i) (lpds c i) (lbds c i) (reqs c i) F0 B0 ->
     (LNext (lp c' i) q0 (dq c' i) (gq c' i) (lpds c' i) (lbds c' i) (reqs c' i) F0 B0 -> cq c' i = q -> sph c' = sph c -> LInv c' f i (F i) (abds a)) ->
     Inv c' a es f F /\ prog c' = prog c /\ sph c' = sph c).
  { intros q0 F0 B0 HL HX. destruct (plain_take c i m q c' q0 F0 B0 Hp Hq H HL) as (A1 & A2 & A3 & A4 & A5 & A6 & A7 & A8).
    apply Hfin; auto; [rewrite A4; reflexivity|]. apply HX; [|exact A3 | apply A1].
    rewrite A2, A4, A5. unfold reqs in *. rewrite A6. exact A8. }
  unfold LInv in Hl. rewrite Hp, Hq in Hl. destruct (sph c) as [|src dst pend done|id|] eqn:Hsph; [| | |contradiction].
  - apply (Hplain q (F i) (abds a) Hl). intros HL Hcq Hsp. unfold LInv. rewrite Hsp, Hcq. exact HL.
  - unfold LMap in Hl. destruct (done i) eqn:Hd.
    + apply (Hplain q (F i) (abds a) Hl). intros HL Hcq Hsp. unfold LInv. rewrite Hsp, Hcq. unfold LMap. rewrite Hd. exact HL.
    + destruct Hl as (Hg & [(q0 & F0 & E & HL & HF)|[(rdd & E & _)|[(rdd & E & _)|(rdd & t & x & v & E & _)]]]); try discriminate.
      destruct q0 as [|m0 q0]; cbn in E; inversion E; subst.
      * (* takes the map command *)
        unfold ltake in H. rewrite Hp, Hq in H. inversion H; subst c'; clear H.
        destruct HL as (Hr & _ & s' & Hqt & _ & HF0 & HB). destruct Hqt as [(_ & Hdq & ->)|(? & ? & ? & ? & E' & _)]; [|discriminate].
        cbn in HF0, HB. apply Hfin; try reflexivity.
        -- frame_tac.
        -- unfold LInv. cbn. rewrite ?Hsph. unfold LMap. rewrite Hd, !upd_eq. split; [exact Hg|]. right. left. exists [].
           repeat (split; [reflexivity || assumption|]). split; [|exact HB].
           eapply pw_trans; [exact HF|]. apply upd_pw. exact HF0.
      * apply (Hplain q0 F0 (abds a) HL). intros HL' Hcq Hsp. unfold LInv. rewrite Hsp, Hcq. unfold LMap. rewrite Hd.
        split; [apply HL'|]. left. exists q0, F0. split; [reflexivity|]. split; [exact HL' | exact HF].
  - destruct Hl as [(q0 & E & HL)|(_ & E & _)]; [|discriminate].
    destruct q0 as [|m0 q0]; cbn in E; inversion E; subst.
    + (* contributes to the gather *)
      unfold Sched in Hs. rewrite Hsph in Hs. destruct Hs as (Hrq & Hal & rs & Hrs).
      destruct (i_data _ _ _ _ _ HI) as (_ & _ & D3). destruct (D3 id rs Hal Hrs) as [D4 _]. destruct (D4 i Hi) as [d Hd].
      destruct HL as (Hr & Hg & s' & Hqt & _ & HF0 & HB). destruct Hqt as [(_ & Hdq & ->)|(? & ? & ? & ? & E' & _)]; [|discriminate].
      cbn in HF0, HB.
      unfold ltake in H. rewrite Hp, Hq in H. rewrite <- HF0, Hd in H. inversion H; subst c'; clear H.
      apply Hfin; try reflexivity.
      * frame_tac.
      * unfold LInv. cbn. rewrite ?Hsph. right. rewrite !upd_eq, Hg, Hp, Hd. repeat (split; [reflexivity || assumption|]). exact HB.
    + apply (Hplain q0 (F i) (abds a) HL). intros HL' Hcq Hsp. unfold LInv. rewrite Hsp, Hcq. left. exists q0. auto.
Qed.

Lemma inv_ask c a es f F i c' : Inv c a es f F -> i < N -> lask c i = Some c' -> Inv c' a es f F /\ prog c' = prog c /\ sph c' = sph c.
Proof.
  intros HI Hi H. pose proof (i_loc _ _ _ _ _ HI i Hi) as Hl. pose proof (i_sched _ _ _ _ _ HI) as Hs. unfold lask in H.
  destruct (lp c i) as [|src dst f0 rdd|src dst f0 rdd|] eqn:Hp; try discriminate. unfold LInv in Hl. rewrite Hp in Hl.
  destruct (sph c) as [|src' dst' pend done|id|] eqn:Hsph; [| | |contradiction].
  - exfalso. apply LNext_phase in Hl. destruct Hl as [Hl _]. eapply Hl. reflexivity.
  - unfold LMap in Hl. destruct (done i) eqn:Hd.
    { exfalso. apply LNext_phase in Hl. destruct Hl as [Hl _]. eapply Hl. reflexivity. }
    destruct Hl as (Hg & [(q0 & F0 & E & HL & HF)|[(rdd' & E & Hq & Hdq & Hr & HF & HB)|[(rdd' & E & _)|(rdd' & t & x & v & E & _)]]]); try discriminate.
    { exfalso. apply LNext_phase in HL. destruct HL as [HL _]. eapply HL. reflexivity. }
    inversion E; subst src' dst' f0 rdd'. inversion H; subst c'; clear H.
    split; [|split; (reflexivity || (cbn; congruence))]. eapply (leader_step_nolog c _ a es f F i HI); try reflexivity.
    + frame_tac. rewrite map_app, count_occ_app. cbn [map fst count_occ]. destruct (Nat.eq_dec i j); [congruence|]. rewrite Nat.add_0_r. reflexivity.
    + unfold LInv. cbn. rewrite ?Hsph. unfold LMap. rewrite Hd, !upd_eq. split; [exact Hg|]. right. right. left. exists rdd.
      split; [reflexivity|]. split; [exact Hq|]. split; [exact Hdq|]. split; [|split; assumption].
      unfold reqs in *. cbn [rq]. rewrite map_app, count_occ_app, Hr. cbn [map fst count_occ]. destruct (Nat.eq_dec i i); [reflexivity | congruence].
    + unfold Sched in *. cbn. rewrite ?Hsph in *. destruct Hs as (H1 & H2). split; [|exact H2].
      intros r pid Hin. apply in_app_iff in Hin. destruct Hin as [Hin|[E'|[]]]; [apply H1; exact Hin|]. inversion E'; subst. auto.
  - exfalso. destruct Hl as [(q0 & E & HL)|(E & _)]; [|discriminate]. apply LNext_phase in HL. destruct HL as [HL _]. eapply HL. reflexivity.
Qed.

Lemma logtags_app lg e id : logtags (lg ++ [e]) id = logtags lg id ++ (if fst e =? id then [snd e] else []).
Proof. unfold logtags. rewrite filter_app, map_app. cbn. destruct (fst e =? id); reflexivity. Qed.

Lemma inv_recv c a es f F i c' : Inv c a es f F -> i < N -> lrecv rewrap c i = Some c' -> Inv c' a es f F /\ prog c' = prog c /\ sph c' = sph c.
Proof.
  intros HI Hi H. pose proof (i_loc _ _ _ _ _ HI i Hi) as Hl. pose proof (i_sched _ _ _ _ _ HI) as Hs. unfold lrecv in H.
  destruct (lp c i) as [|src dst f0 rdd|src dst f0 rdd|] eqn:Hp; try discriminate.
  destruct (dq c i) as [|o d] eqn:Hdq; [discriminate|].
  unfold LInv in Hl. rewrite Hp, Hdq in Hl.
  (* receiving the sentinel under LNext *)
  assert (Hsent : forall q0 F0 B0, LNext (LWait src dst f0 rdd) q0 (o :: d) (gq c i) (lpds c i) (lbds c i) (reqs c i) F0 B0 ->
    (LNext (lp c' i) q0 (dq c' i) (gq c' i) (lpds c' i) (lbds c' i) (reqs c' i) F0 B0 -> cq c' i = cq c i -> sph c' = sph c -> LInv c' f i (F i) (abds a)) ->
    Inv c' a es f F /\ prog c' = prog c /\ sph c' = sph c).
  { intros q0 F0 B0 HL HX. apply LNext_recv in HL. destruct HL as (-> & -> & HL). inversion H; subst c'; clear H.
    split; [|split; (reflexivity || (cbn; congruence))]. eapply (leader_step_nolog c _ a es f F i HI); try reflexivity.
    - frame_tac.
    - apply HX; [|reflexivity|reflexivity]. cbn. rewrite !upd_eq. exact HL.
    - exact Hs.
    - cbn. rewrite upd_eq, Hdq. reflexivity. }
  destruct (sph c) as [|src' dst' pend done|id|] eqn:Hsph; [| | |contradiction].
  - apply (Hsent (cq c i) (F i) (abds a) Hl). intros HL Hcq Hsp. unfold LInv. rewrite Hsp, Hcq. exact HL.
  - unfold LMap in Hl. destruct (done i) eqn:Hd.
    { apply (Hsent (cq c i) (F i) (abds a) Hl). intros HL Hcq Hsp. unfold LInv. rewrite Hsp, Hcq. unfold LMap. rewrite Hd. exact HL. }
    destruct Hl as (Hg & [(q0 & F0 & E & HL & HF)|[(rdd' & E & _)|[(rdd' & E & Hq & Hdq' & _)|(rdd' & t & x & v & E & Hq & Hdq' & Hr & Hv & HF & HB)]]]); try discriminate.
    { apply (Hsent q0 F0 (abds a) HL). intros HL' Hcq Hsp. unfold LInv. rewrite Hsp, Hcq. unfold LMap. rewrite Hd.
      split; [apply HL'|]. left. exists q0, F0. split; [exact E|]. auto. }
    inversion E; subst src' dst' f0 rdd'. inversion Hdq'; subst o d. rewrite Hv in H. inversion H; subst c'; clear H.
    clear Hsent. assert (Hfr : frame c (mkcfg (prog c) (SMap src dst pend done) (npds c) (nbds c) (spds c) (sbds c) (outs c) (rq c) (cq c)
                   (upd (dq c) i []) (gq c) (upd (lp c) i (LAsk src dst f (rdd ++ [(t, v)]))) (lpds c) (lbds c) (log c ++ [(dst, t)])) i) by frame_tac.
    split; [|split; (reflexivity || (cbn; congruence))]. apply (leader_step c _ a es f F i HI Hfr).
    + unfold LInv. cbn. rewrite ?Hsph. unfold LMap. rewrite Hd, !upd_eq. split; [exact Hg|]. right. left. exists (rdd ++ [(t, v)]).
      repeat (split; [reflexivity || assumption|]). exact HB.
    + unfold Sched in *. rewrite Hsph in Hs. exact Hs.
    + intros id. cbn [log]. rewrite logtags_app. unfold flying. cbn [sph dq fst snd]. rewrite ?Hsph.
      rewrite (Nat.eqb_sym id dst). destruct (Nat.eqb_spec dst id) as [->|Hne]; [|rewrite app_nil_r; apply Permutation_refl].
      destruct (concat_split (fun j => tags (dq c j)) N i Hi) as (X & Y & HXY).
      rewrite (HXY (fun j => tags (dq c j))) by reflexivity.
      rewrite (HXY (fun j => tags (upd (dq c) i [] j))) by (intros j Hj; rewrite upd_neq by exact Hj; reflexivity).
      rewrite upd_eq, Hdq. cbn. rewrite <- app_assoc. apply Permutation_app_head. cbn. apply Permutation_middle.
    + intros id. cbn [log]. rewrite logtags_app. cbn [fst snd]. unfold Sched in Hs. rewrite Hsph in Hs.
      destruct Hs as (_ & (l & rs & _ & Hrs & _) & _). destruct (Nat.eqb_spec dst id) as [->|Hne].
      * rewrite Hrs. exact I.
      * rewrite app_nil_r. destruct (apds a id) as [[?|?]|]; auto.
  - destruct Hl as [(q0 & E & HL)|(E & _)]; [|discriminate].
    apply (Hsent q0 (F i) (abds a) HL). intros HL' Hcq Hsp. unfold LInv. rewrite Hsp, Hcq. left. exists q0. auto.
Qed.

Lemma reqs_other ra rb r (pid : nat) j : j <> r ->
  count_occ Nat.eq_dec (map fst (ra ++ rb)) j = count_occ Nat.eq_dec (map fst (ra ++ (r, pid) :: rb)) j.
Proof. intros H. rewrite !map_app, !count_occ_app. cbn [map fst count_occ]. destruct (Nat.eq_dec r j); [congruence | reflexivity]. Qed.
Lemma reqs_self ra rb r (pid : nat) :
  count_occ Nat.eq_dec (map fst (ra ++ (r, pid) :: rb)) r = S (count_occ Nat.eq_dec (map fst (ra ++ rb)) r).
Proof. rewrite !map_app, !count_occ_app. cbn [map fst count_occ]. destruct (Nat.eq_dec r r); [lia | congruence]. Qed.

Lemma inv_serve c a es f F ra rb r pid c' : Inv c a es f F -> rq c = ra ++ (r, pid) :: rb -> serve c r pid (ra ++ rb) = Some c' ->
  (exists F', Inv c' a es f F') /\ prog c' = prog c /\
  exists src dst pend done pend' done', sph c = SMap src dst pend done /\ sph c' = SMap src dst pend' done' /\ r < N
   /\ done r = false
   /\ ((pend = [] /\ pend' = pend /\ done' = upd done r true)
       \/ (length pend = S (length pend') /\ done' = done)).
Proof.
  intros HI Hrq H. pose proof (i_sched _ _ _ _ _ HI) as Hs. unfold serve in H. unfold Sched in Hs.
  destruct (sph c) as [|src dst pend done|id|] eqn:Hsph; try discriminate.
  destruct Hs as (S1 & (l & rs & S2 & S3 & S4 & S5) & S6 & S7).
  assert (Hin : In (r, pid) (rq c)) by (rewrite Hrq; apply in_or_app; right; left; reflexivity).
  destruct (S1 r pid Hin) as [-> Hr]. rewrite Nat.eqb_refl in H.
  pose proof (i_loc _ _ _ _ _ HI r Hr) as Hl. unfold LInv in Hl. rewrite Hsph in Hl. unfold LMap in Hl.
  assert (Hreq : reqs c r = S (count_occ Nat.eq_dec (map fst (ra ++ rb)) r)) by (unfold reqs; rewrite Hrq; apply reqs_self).
  destruct (done r) eqn:Hd. { destruct Hl as (E & _). lia. }
  destruct Hl as (Hg & [(q0 & F0 & _ & (E & _) & _)|[(rdd & _ & _ & _ & E & _)|[(rdd & Hp & Hq & Hdq & E & HF & HB)|(rdd & t & x & v & _ & _ & _ & E & _)]]]); try lia.
  assert (S1' : forall r0 pid0, In (r0, pid0) (ra ++ rb) -> pid0 = src /\ r0 < N).
  { intros r0 pid0 H0. apply S1. rewrite Hrq. apply in_app_iff in H0. apply in_or_app. destruct H0; [left | right; right]; assumption. }
  assert (Hoth : forall j, j <> r -> count_occ Nat.eq_dec (map fst (ra ++ rb)) j = reqs c j).
  { intros j Hj. unfold reqs. rewrite Hrq. apply reqs_other. exact Hj. }
  destruct (rev pend) as [|x pr] eqn:Hrev.
  - (* sentinel *)
    assert (pend = []) by (rewrite <- (rev_involutive pend), Hrev; reflexivity). subst pend.
    inversion H; subst c'; clear H. split; [|split; [reflexivity|]].
    2:{ exists src, dst, [], done, [], (upd done r true). repeat (split; [reflexivity || assumption|]). left. auto. }
    exists F. destruct HI. constructor; try assumption.
    + unfold Sched. cbn. split; [exact S1'|]. split; [exists l, rs; auto|]. split; [exact S6|]. auto.
    + destruct i_data0 as (D1 & D2 & D3). split; [exact D1|]. split; [exact D2|]. intros id rs0 Ha Hrs.
      destruct (D3 id rs0 Ha Hrs) as [D4 D5]. split; [exact D4|]. unfold pendof in *. rewrite Hsph in D5. cbn. exact D5.
    + intros j Hj. specialize (i_loc0 j Hj). unfold LInv in *. rewrite Hsph in i_loc0. cbn. destruct (Nat.eq_dec j r) as [->|Hne].
      * rewrite !upd_eq. cbn. unfold LNext. split; [unfold reqs in *; cbn [rq]; lia|]. split; [exact Hg|].
        exists (upd (lpds c r) dst (Some (Some rdd))). split; [|rewrite Hq; cbn; auto].
        right. exists src, dst, f, rdd. rewrite Hdq. auto.
      * rewrite !upd_neq by exact Hne. rewrite <- (Hoth j Hne) in i_loc0. exact i_loc0.
    + intros id. specialize (i_log0 id). destruct (apds a id) as [[l0|rs0]|]; cbn [log]; auto.
      unfold flying, pendof in *. rewrite Hsph in i_log0. cbn [sph dq]. destruct (id =? dst); [|exact i_log0].
      erewrite concat_ext; [exact i_log0|]. intros j _. cbn. destruct (Nat.eq_dec j r) as [->|Hne]; [|rewrite upd_neq by exact Hne; reflexivity].
      rewrite upd_eq, Hdq. reflexivity.
  - (* an item *)
    assert (Hpend : pend = rev pr ++ [x]) by (rewrite <- (rev_involutive pend), Hrev; reflexivity).
    assert (Hlen : length pend = S (length (rev pr))) by (rewrite Hpend, app_length; cbn; lia).
    assert (Hnth : nth_error l (length (rev pr)) = Some x).
    { rewrite <- (firstn_skipn (length pend) l), <- S5, Hpend, <- app_assoc. rewrite nth_error_app2, Nat.sub_diag by lia. reflexivity. }
    destruct (results_nth f l rs _ x S4 Hnth) as (v & Hnv & Hv).
    inversion H; subst c'; clear H. split; [|split; [reflexivity|]].
    2:{ exists src, dst, pend, done, (rev pr), done. repeat (split; [reflexivity || assumption|]). right. auto. }
    exists (upd F r (upd (F r) dst (Some (Some (rdd ++ [(length pend, v)]))))). destruct HI. constructor; try assumption.
    + unfold Sched. cbn. split; [exact S1'|]. split; [|split; [exact S6|]].
      * exists l, rs. split; [exact S2|]. split; [exact S3|]. split; [exact S4|].
        rewrite Hpend, app_length in S5. cbn in S5. rewrite Nat.add_1_r in S5. rewrite (firstn_S_nth l _ x Hnth) in S5.
        apply app_inj_tail in S5. exact (proj1 S5).
      * intros j Hj Hdj. specialize (S7 j Hj Hdj). rewrite S7 in Hlen. discriminate.
    + destruct i_data0 as (D1 & D2 & D3). split; [|split].
      * intros j id Hj Ha. unfold upd at 1. destruct (Nat.eqb_spec j r) as [->|Hne]; [|apply D1; assumption].
        rewrite upd_neq; [apply D1; assumption|]. intros ->. congruence.
      * intros j id l0 Hj Ha Hl0. unfold upd at 1. destruct (Nat.eqb_spec j r) as [->|Hne]; [|eapply D2; eassumption].
        rewrite upd_neq; [eapply D2; eassumption|]. intros ->. congruence.
      * intros id rs0 Ha Hrs. destruct (D3 id rs0 Ha Hrs) as [D4 (prs & D5 & D6 & D7)]. split.
        -- intros j Hj. unfold upd at 1. destruct (Nat.eqb_spec j r) as [->|Hne]; [|apply D4; assumption].
           unfold upd. destruct (id =? dst); [eauto | apply D4; assumption].
        -- unfold pendof in *. rewrite Hsph in D7. cbn. destruct (Nat.eqb_spec id dst) as [->|Hne].
           ++ assert (rs0 = rs) by congruence. subst rs0. exists (firstn (length (rev pr)) rs).
              assert (Hprs : prs = firstn (length (rev pr)) rs ++ [v]).
              { rewrite D6, D7, Hlen. apply firstn_S_nth. exact Hnv. }
              assert (Hlp : length (firstn (length (rev pr)) rs) = length (rev pr)).
              { rewrite Hprs, app_length in D7. cbn in D7. lia. }
              split; [|split; [rewrite Hlp; reflexivity | exact Hlp]].
              rewrite <- D5, Hprs, tagged_app_last, Hlp.
              destruct (concat_split (fun j => dat (F j dst)) N r Hr) as (X & Y & HXY).
              rewrite (HXY (fun j => dat (F j dst))) by reflexivity.
              erewrite (HXY (fun j => dat (upd F r _ j dst))) by (intros j Hj; rewrite upd_neq by exact Hj; reflexivity).
              rewrite !upd_eq. cbn [dat]. rewrite (HF dst), upd_eq. cbn [dat]. rewrite Hlen.
              rewrite <- !app_assoc. apply Permutation_app_head. apply Permutation_app_head.
              rewrite (app_assoc Y). rewrite (Permutation_app_comm (Y ++ tagged _)). reflexivity.
           ++ exists prs. split; [|auto]. erewrite concat_ext; [exact D5|]. intros j _. cbn.
              unfold upd at 1. destruct (Nat.eqb_spec j r) as [->|Hne2]; [rewrite upd_neq by exact Hne; reflexivity | reflexivity].
    + intros j Hj. specialize (i_loc0 j Hj). unfold LInv in *. rewrite Hsph in i_loc0. cbn. destruct (Nat.eq_dec j r) as [->|Hne].
      * rewrite !upd_eq, Hd. cbn. split; [exact Hg|]. right. right. right. exists rdd, (length pend), x, v.
        rewrite Hdq. split; [exact Hp|]. split; [exact Hq|]. split; [reflexivity|].
        split; [unfold reqs in *; cbn [rq]; lia|]. split; [exact Hv|]. split; [|exact HB].
        intros n. unfold upd. destruct (Nat.eqb_spec n dst) as [->|Hn]; [reflexivity|]. rewrite (HF n), upd_neq by exact Hn. reflexivity.
      * rewrite !upd_neq by exact Hne. rewrite <- (Hoth j Hne) in i_loc0. exact i_loc0.
    + intros id. specialize (i_log0 id). destruct (apds a id) as [[l0|rs0]|]; cbn [log]; auto.
      unfold flying, pendof in *. rewrite Hsph in i_log0. cbn [sph dq]. destruct (id =? dst); [|exact i_log0].
      rewrite <- i_log0. apply Permutation_app_head.
      destruct (concat_split (fun j => tags (dq c j)) N r Hr) as (X & Y & HXY).
      rewrite (HXY (fun j => tags (dq c j))) by reflexivity.
      erewrite (HXY (fun j => tags (upd (dq c) r _ j))) by (intros j Hj; rewrite upd_neq by exact Hj; reflexivity).
      rewrite upd_eq, Hdq, Hlen, (seq_S (length (rev pr))). cbn. rewrite <- !app_assoc. cbn. apply Permutation_app_head.
      rewrite (Permutation_cons_append). rewrite <- app_assoc. reflexivity.
Qed.

Lemma quiet_tags p q d g s b r F B : LNext p q d g s b r F B -> tags d = [].
Proof. intros (_ & _ & s' & [(_ & -> & _)|(? & ? & ? & ? & _ & -> & _)] & _); reflexivity. Qed.

Lemma inv_map_end c a es f F c' : Inv c a es f F -> map_end N c = Some c' ->
  exists src dst pend done, sph c = SMap src dst pend done /\ Inv c' a (es ++ [EPds dst]) f F /\ prog c' = prog c /\ sph c' = SNext.
Proof.
  intros HI H. unfold map_end in H. destruct (sph c) as [|src dst pend done|id|] eqn:Hsph; try discriminate.
  destruct (forallb done (seq 0 N)) eqn:Hall; [|discriminate]. inversion H; subst c'; clear H.
  assert (Hd : forall i, i < N -> done i = true).
  { intros i Hi. rewrite forallb_forall in Hall. apply Hall. apply in_seq. lia. }
  exists src, dst, pend, done. split; [reflexivity|]. split; [|auto]. destruct HI.
  unfold Sched in i_sched0. rewrite Hsph in i_sched0. destruct i_sched0 as (S1 & (l & rs & S2 & S3 & S4 & S5) & S6 & S7).
  pose proof (S7 0 HN (Hd 0 HN)). subst pend.
  assert (Hl : forall i, i < N -> LNext (lp c i) (cq c i) (dq c i) (gq c i) (lpds c i) (lbds c i) (reqs c i) (F i) (abds a)).
  { intros i Hi. specialize (i_loc0 i Hi). unfold LInv in i_loc0. rewrite Hsph in i_loc0. unfold LMap in i_loc0. rewrite (Hd i Hi) in i_loc0. exact i_loc0. }
  constructor; try assumption.
  - cbn. apply Forall2_app; [exact i_outs0|]. constructor; [reflexivity | constructor].
  - unfold Sched. cbn. destruct (rq c) as [|[r pid] rest] eqn:Hrq; [reflexivity|]. exfalso.
    destruct (S1 r pid (or_introl eq_refl)) as [_ Hr]. destruct (Hl r Hr) as [E _]. unfold reqs in E. rewrite Hrq in E.
    cbn [map fst count_occ] in E. destruct (Nat.eq_dec r r); [discriminate | congruence].
  - destruct i_data0 as (D1 & D2 & D3). split; [exact D1|]. split; [exact D2|]. intros id rs0 Ha Hrs.
    destruct (D3 id rs0 Ha Hrs) as [D4 D5]. split; [exact D4|]. unfold pendof in *. rewrite Hsph in D5. cbn.
    destruct (id =? dst); exact D5.
  - intros id. specialize (i_log0 id). destruct (apds a id) as [[l0|rs0]|]; cbn [log]; auto.
    unfold flying, pendof in *. rewrite Hsph in i_log0. cbn [sph]. destruct (id =? dst); [|exact i_log0].
    rewrite (concat_all_nil (fun i => tags (dq c i))) in i_log0; [exact i_log0|]. intros i Hi. eapply quiet_tags. apply Hl. exact Hi.
Qed.

Lemma inv_gather_end c a es f F c' : Inv c a es f F -> gather_end isexc N c = Some c' ->
  exists id rs, sph c = SGather id /\ apds a id = Some (PRes rs) /\ Inv c' a (es ++ [ECollect rs]) f F /\ prog c' = prog c /\ sph c' = SNext.
Proof.
  intros HI H. unfold gather_end in H. destruct (sph c) as [|src dst pend done|id|] eqn:Hsph; try discriminate.
  destruct (forallb _ (seq 0 N)) eqn:Hall; [|discriminate]. inversion H; subst c'; clear H.
  rewrite forallb_forall in Hall. destruct HI.
  unfold Sched in i_sched0. rewrite Hsph in i_sched0. destruct i_sched0 as (S1 & S2 & rs & S3).
  assert (Hl : forall i, i < N -> lp c i = LIdle /\ cq c i = [] /\ dq c i = [] /\ reqs c i = 0 /\ gq c i = [dat (F i id)] /\ pw (F i) (lpds c i) /\ pw (abds a) (lbds c i)).
  { intros i Hi. specialize (i_loc0 i Hi). unfold LInv in i_loc0. rewrite Hsph in i_loc0.
    destruct i_loc0 as [(q0 & _ & (_ & Hg & _))|HL]; [|exact HL].
    specialize (Hall i). rewrite Hg in Hall. discriminate Hall. apply in_seq. lia. }
  exists id, rs. split; [reflexivity|]. split; [exact S3|]. split; [|auto]. constructor; try assumption.
  - cbn. apply Forall2_app; [exact i_outs0|]. constructor; [|constructor]. cbn.
    destruct i_data0 as (_ & _ & D3). destruct (D3 id rs S2 S3) as [_ (prs & D5 & D6 & D7)].
    unfold pendof in D7. rewrite Hsph in D7. destruct prs; [|discriminate]. cbn in D5. rewrite app_nil_r in D5.
    rewrite (concat_ext (fun i => hd [] (gq c i)) (fun i => dat (F i id))).
    2:{ intros i Hi. destruct (Hl i Hi) as (_ & _ & _ & _ & -> & _). reflexivity. }
    unfold collect_result. destruct (find _ _) as [[t v]|] eqn:Hf.
    + apply find_some in Hf. destruct Hf as [Hin Hexc]. right. exists v. split; [|auto].
      apply (Permutation_in _ D5) in Hin. apply in_combine_r in Hin. exact Hin.
    + left. split; [|rewrite (sort_tagged _ rs D5); reflexivity].
      apply Forall_forall. intros v Hv. rewrite <- (tagged_snd rs 1) in Hv. apply in_map_iff in Hv. destruct Hv as ([t v'] & <- & Hin).
      apply (Permutation_in _ (Permutation_sym D5)) in Hin. apply (find_none _ _ Hf) in Hin. exact Hin.
  - destruct i_data0 as (D1 & D2 & D3). split; [exact D1|]. split; [exact D2|]. intros id0 rs0 Ha Hrs.
    destruct (D3 id0 rs0 Ha Hrs) as [D4 D5]. split; [exact D4|]. unfold pendof in *. rewrite Hsph in D5. exact D5.
  - intros i Hi. destruct (Hl i Hi) as (A1 & A2 & A3 & A4 & A5 & A6 & A7). unfold LInv. cbn. rewrite A1, A2, A3, A5.
    split; [exact A4|]. split; [reflexivity|]. exists (lpds c i). split; [left; auto|]. cbn. auto.
  - intros id0. specialize (i_log0 id0). unfold flying, pendof in *. rewrite Hsph in i_log0. exact i_log0.
Qed.

Definition cur (c : cfg V) (a : astate V) : list (exp V) :=
  match sph c with
  | SMap _ dst _ _ => [EPds dst]
  | SGather id => match apds a id with Some (PRes rs) => [ECollect rs] | _ => [] end
  | _ => []
  end.

Lemma inv_issue c a es f F c' k p a1 e : Inv c a es f F -> issue c = Some c' -> prog c = k :: p -> acmd rewrap k a = Some (a1, e) ->
  prog c' = p /\ exists f' F' es', Inv c' a1 es' f' F' /\ es' ++ cur c' a1 = es ++ [e].
Proof.
  intros HI H Hprog Ha. unfold issue in H. destruct (sph c) as [|src dst pend done|id|] eqn:Hsph; try discriminate. rewrite Hprog in H.
  destruct HI.
  assert (Hl : forall i, i < N -> LNext (lp c i) (cq c i) (dq c i) (gq c i) (lpds c i) (lbds c i) (reqs c i) (F i) (abds a)).
  { intros i Hi. specialize (i_loc0 i Hi). unfold LInv in i_loc0. rewrite Hsph in i_loc0. exact i_loc0. }
  unfold Sched in i_sched0. rewrite Hsph in i_sched0.
  assert (Hfresh : apds a (S (anp a)) = None).
  { destruct (apds a (S (anp a))) eqn:E; [|reflexivity]. specialize (i_idp0 (S (anp a))). rewrite E in i_idp0. specialize (i_idp0 ltac:(discriminate)). lia. }
  assert (Hdead : alive a (S (anp a)) = false).
  { destruct (alive a (S (anp a))) eqn:E; [|reflexivity]. apply i_live0 in E. congruence. }
  assert (Hpend : forall id, pendof c id = []) by (intros id; unfold pendof; rewrite Hsph; reflexivity).
  assert (Hfly : forall id, flying c id = []) by (intros id; unfold flying; rewrite Hsph; reflexivity).
  destruct i_data0 as (D1 & D2 & D3).
  destruct k as [l|f0 src|id|v|id|id]; cbn in Ha.
  - (* parallelize *)
    inversion Ha; subst a1 e; clear Ha. inversion H; subst c'; clear H. split; [reflexivity|].
    exists f, (fun i => upd (F i) (S (anp a)) (Some None)), (es ++ [EPds (S (anp a))]). split; [|cbn; rewrite app_nil_r; reflexivity].
    constructor; cbn; try assumption.
    + congruence.
    + intros id. rewrite i_np0. unfold upd. destruct (id =? S (anp a)); [reflexivity | apply i_sp0].
    + intros id. unfold upd. destruct (Nat.eqb_spec id (S (anp a))) as [->|]; [lia|]. intros Hid. apply i_idp0 in Hid. lia.
    + intros id. unfold upd. destruct (Nat.eqb_spec id (S (anp a))) as [->|]; [discriminate | apply i_live0].
    + rewrite i_np0. apply Forall2_app; [exact i_outs0|]. constructor; [reflexivity | constructor].
    + split; [|split]; cbn.
      * intros i id Hi. unfold upd. destruct (id =? S (anp a)); [discriminate | apply D1; exact Hi].
      * intros i id l0 Hi. unfold upd. destruct (id =? S (anp a)); [reflexivity | eapply D2; exact Hi].
      * intros id rs. unfold upd. destruct (Nat.eqb_spec id (S (anp a))) as [->|Hne]; [discriminate|]. intros Hal Hrs.
        destruct (D3 id rs Hal Hrs) as [D4 D5]. split; [exact D4|]. rewrite Hpend in D5. exact D5.
    + intros i Hi. rewrite i_np0. exact (LNext_push _ _ _ _ _ _ _ _ _ (MPar (S (anp a))) (Hl i Hi) I).
    + intros id. specialize (i_log0 id). rewrite Hpend, Hfly in i_log0. unfold upd.
      destruct (Nat.eqb_spec id (S (anp a))) as [->|]; [rewrite Hfresh in i_log0; exact i_log0|].
      destruct (apds a id) as [[?|?]|]; exact i_log0.
  - (* map *)
    destruct (apds a src) as [[l|]|] eqn:Hsrc; try discriminate. destruct (results rewrap f0 l) as [rs|] eqn:Hrs; [|discriminate].
    inversion Ha; subst a1 e; clear Ha. rewrite i_sp0, Hsrc in H. inversion H; subst c'; clear H. split; [reflexivity|].
    exists f0, (fun i => upd (F i) (S (anp a)) (Some (Some []))), es. split; [|cbn; rewrite i_np0; reflexivity].
    assert (Hne0 : src <> S (anp a)) by (intros ->; congruence).
    constructor; cbn; try assumption.
    + congruence.
    + intros id. rewrite i_sp0. unfold upd. destruct (Nat.eqb_spec id (S (anp a))) as [->|]; [rewrite Hfresh|]; reflexivity.
    + intros id. unfold upd. destruct (Nat.eqb_spec id (S (anp a))) as [->|]; [lia|]. intros Hid. apply i_idp0 in Hid. lia.
    + intros id. unfold upd. destruct (Nat.eqb_spec id (S (anp a))) as [->|]; [discriminate | apply i_live0].
    + rewrite i_np0, i_sched0. split; [intros ? ? []|]. split; [|split; [rewrite upd_eq; reflexivity | discriminate]].
      exists l, rs. rewrite upd_neq by exact Hne0. rewrite upd_eq. rewrite firstn_all. auto.
    + split; [|split]; cbn.
      * intros i id Hi. unfold upd. destruct (id =? S (anp a)); [discriminate | apply D1; exact Hi].
      * intros i id l0 Hi. unfold upd. destruct (id =? S (anp a)); [discriminate | eapply D2; exact Hi].
      * intros id rs0. unfold upd. rewrite i_np0. destruct (Nat.eqb_spec id (S (anp a))) as [->|Hne].
        -- intros _ E. inversion E; subst rs0. split; [eauto|]. exists rs. rewrite firstn_all. rewrite concat_all_nil by reflexivity.
           split; [apply Permutation_refl|]. split; [reflexivity | eapply results_length; exact Hrs].
        -- intros Hal Hrs0. destruct (D3 id rs0 Hal Hrs0) as [D4 D5]. split; [exact D4|]. rewrite Hpend in D5. exact D5.
    + intros i Hi. unfold LInv. cbn. split; [apply (Hl i Hi)|]. left. exists (cq c i), (F i). rewrite i_np0. split; [reflexivity|].
      split; [apply (Hl i Hi) | apply pw_refl].
    + intros id. specialize (i_log0 id). rewrite Hpend, Hfly in i_log0. unfold upd, flying, pendof. cbn [sph dq]. rewrite i_np0.
      destruct (Nat.eqb_spec id (S (anp a))) as [->|].
      * rewrite Hfresh in i_log0. unfold logtags in i_log0. rewrite i_log0, (results_length _ _ _ Hrs). cbn [app].
        rewrite concat_all_nil; [apply Permutation_refl|]. intros i Hi. eapply quiet_tags. apply Hl. exact Hi.
      * destruct (apds a id) as [[?|?]|]; exact i_log0.
  - (* collect *)
    destruct (apds a id) as [[?|rs]|] eqn:Hid; try discriminate. destruct (alive a id) eqn:Hal; [|discriminate].
    inversion Ha; subst a1 e; clear Ha. inversion H; subst c'; clear H. split; [reflexivity|].
    exists f, F, es. split; [|unfold cur; cbn; rewrite Hid; reflexivity].
    constructor; cbn; try assumption.
    + split; [exact i_sched0|]. eauto.
    + split; [exact D1|]. split; [exact D2|]. intros id0 rs0 Hal0 Hrs0.
      destruct (D3 id0 rs0 Hal0 Hrs0) as [D4 D5]. split; [exact D4|]. rewrite Hpend in D5. exact D5.
    + intros i Hi. left. exists (cq c i). split; [reflexivity | apply Hl; exact Hi].
    + intros id0. specialize (i_log0 id0). rewrite Hpend, Hfly in i_log0. exact i_log0.
  - (* broadcast *)
    inversion Ha; subst a1 e; clear Ha. inversion H; subst c'; clear H. split; [reflexivity|].
    exists f, F, (es ++ [EBds (S (anb a))]). split; [|cbn; rewrite app_nil_r; reflexivity].
    constructor; cbn; try assumption.
    + congruence.
    + rewrite i_nb0. apply upd_pw. exact i_sb0.
    + intros id. unfold upd. destruct (Nat.eqb_spec id (S (anb a))) as [->|]; [lia|]. intros Hid. apply i_idb0 in Hid. lia.
    + rewrite i_nb0. apply Forall2_app; [exact i_outs0|]. constructor; [reflexivity | constructor].
    + split; [exact D1|]. split; [exact D2|]. intros id0 rs0 Hal0 Hrs0.
      destruct (D3 id0 rs0 Hal0 Hrs0) as [D4 D5]. split; [exact D4|]. rewrite Hpend in D5. exact D5.
    + intros i Hi. rewrite i_nb0. exact (LNext_push _ _ _ _ _ _ _ _ _ (MBcast (S (anb a)) v) (Hl i Hi) I).
    + intros id0. specialize (i_log0 id0). rewrite Hpend, Hfly in i_log0. exact i_log0.
  - (* delete pds *)
    destruct (alive a id) eqn:Hal; [|discriminate]. inversion Ha; subst a1 e; clear Ha. inversion H; subst c'; clear H. split; [reflexivity|].
    exists f, (fun i => upd (F i) id None), (es ++ [EDone]). split; [|cbn; rewrite app_nil_r; reflexivity].
    constructor; cbn; try assumption.
    + intros id0. unfold upd. destruct (Nat.eqb_spec id0 id); [discriminate | apply i_live0].
    + apply Forall2_app; [exact i_outs0|]. constructor; [reflexivity | constructor].
    + split; [|split]; cbn.
      * intros i id0 Hi. unfold upd. destruct (id0 =? id); [reflexivity | apply D1; exact Hi].
      * intros i id0 l0 Hi. unfold upd. destruct (id0 =? id); [discriminate | eapply D2; exact Hi].
      * intros id0 rs. unfold upd. destruct (Nat.eqb_spec id0 id) as [->|Hne]; [discriminate|]. intros Hal0 Hrs.
        destruct (D3 id0 rs Hal0 Hrs) as [D4 D5]. split; [exact D4|]. rewrite Hpend in D5. exact D5.
    + intros i Hi. refine (LNext_push _ _ _ _ _ _ _ _ _ (MDelP id) (Hl i Hi) _). cbn.
      pose proof (i_live0 id Hal) as Hnn. destruct (apds a id) as [[l|rs]|] eqn:E; [| |congruence].
      * rewrite (D2 i id l Hi Hal E). discriminate.
      * destruct (D3 id rs Hal E) as [D4 _]. destruct (D4 i Hi) as [d ->]. discriminate.
    + intros id0. specialize (i_log0 id0). rewrite Hpend, Hfly in i_log0. exact i_log0.
  - (* delete bds *)
    destruct (abds a id) as [v|] eqn:Hb; [|discriminate]. inversion Ha; subst a1 e; clear Ha.
    rewrite i_sb0, Hb in H. inversion H; subst c'; clear H. split; [reflexivity|].
    exists f, F, (es ++ [EDone]). split; [|cbn; rewrite app_nil_r; reflexivity].
    constructor; cbn; try assumption.
    + apply upd_pw. exact i_sb0.
    + intros id0. unfold upd. destruct (Nat.eqb_spec id0 id) as [->|]; [congruence|]. apply i_idb0.
    + apply Forall2_app; [exact i_outs0|]. constructor; [reflexivity | constructor].
    + split; [exact D1|]. split; [exact D2|]. intros id0 rs0 Hal0 Hrs0.
      destruct (D3 id0 rs0 Hal0 Hrs0) as [D4 D5]. split; [exact D4|]. rewrite Hpend in D5. exact D5.
    + intros i Hi. refine (LNext_push _ _ _ _ _ _ _ _ _ (MDelB id) (Hl i Hi) _). cbn. congruence.
    + intros id0. specialize (i_log0 id0). rewrite Hpend, Hfly in i_log0. exact i_log0.
Qed.

(** * All executions *)
Definition G (p0 : list (cmd V)) (c : cfg V) : Prop :=
  exists a es f F a2 es2, Inv c a es f F /\ arun rewrap (prog c) a = Some (a2, es2)
    /\ arun rewrap p0 a0 = Some (a2, es ++ cur c a ++ es2).

Lemma G_init p a2 es : arun rewrap p a0 = Some (a2, es) -> G p (init p).
Proof.
  intros H. exists a0, [], (fun v => Returned v), (fun _ _ => None), a2, es. split; [|split; [exact H | exact H]].
  constructor; cbn; try reflexivity; try discriminate; try congruence.
  - constructor.
  - split; [reflexivity|]. split; discriminate.
  - intros i Hi. unfold LInv. cbn. split; [reflexivity|]. split; [reflexivity|]. exists (fun _ => None). split; [left; auto|].
    split; [exact I|]. split; apply pw_refl.
Qed.

Lemma cur_eq c c' a : sph c' = sph c -> cur c' a = cur c a.
Proof. intros H. unfold cur. rewrite H. reflexivity. Qed.

Lemma G_step p0 c c' : G p0 c -> step isexc rewrap N c c' -> G p0 c'.
Proof.
  intros (a & es & f & F & a2 & es2 & HI & Hr & Hp0) H. destruct H as [c c' H|c c' ra rb r pid Hrq H|c c' H|c c' H|c c' i Hi H|c c' i Hi H|c c' i Hi H].
  - destruct (prog c) as [|k p] eqn:Hp. { unfold issue in H. rewrite Hp in H. destruct (sph c); discriminate. }
    cbn in Hr. destruct (acmd rewrap k a) as [[a1 e]|] eqn:Ha; [|discriminate].
    destruct (arun rewrap p a1) as [[a2' es3]|] eqn:Hr2; [|discriminate]. inversion Hr; subst a2' es2.
    destruct (inv_issue c a es f F c' k p a1 e HI H Hp Ha) as (Hp' & f' & F' & es' & HI' & He).
    exists a1, es', f', F', a2, es3. split; [exact HI'|]. rewrite Hp'. split; [exact Hr2|]. rewrite Hp0. f_equal. f_equal.
    rewrite (app_assoc es'), He. assert (Hc : cur c a = []). { unfold issue in H. unfold cur. rewrite Hp in H. destruct (sph c); try discriminate; reflexivity. }
    rewrite Hc, <- app_assoc. reflexivity.
  - destruct (inv_serve c a es f F ra rb r pid c' HI Hrq H) as ((F' & HI') & Hp & src & dst & pend & done & pend' & done' & E1 & E2 & _).
    exists a, es, f, F', a2, es2. split; [exact HI'|]. rewrite Hp. split; [exact Hr|]. unfold cur in *. rewrite E1 in Hp0. rewrite E2. exact Hp0.
  - destruct (inv_map_end c a es f F c' HI H) as (src & dst & pend & done & E & HI' & Hp & E').
    exists a, (es ++ [EPds dst]), f, F, a2, es2. split; [exact HI'|]. rewrite Hp. split; [exact Hr|]. unfold cur in *. rewrite E in Hp0. rewrite E'.
    rewrite Hp0, <- app_assoc. reflexivity.
  - destruct (inv_gather_end c a es f F c' HI H) as (id & rs & E & Hid & HI' & Hp & E').
    exists a, (es ++ [ECollect rs]), f, F, a2, es2. split; [exact HI'|]. rewrite Hp. split; [exact Hr|]. unfold cur in *. rewrite E, Hid in Hp0. rewrite E'.
    rewrite Hp0, <- app_assoc. reflexivity.
  - destruct (inv_take c a es f F i c' HI Hi H) as (HI' & Hp & Hs). exists a, es, f, F, a2, es2. rewrite Hp, (cur_eq c c' a Hs). auto.
  - destruct (inv_ask c a es f F i c' HI Hi H) as (HI' & Hp & Hs). exists a, es, f, F, a2, es2. rewrite Hp, (cur_eq c c' a Hs). auto.
  - destruct (inv_recv c a es f F i c' HI Hi H) as (HI' & Hp & Hs). exists a, es, f, F, a2, es2. rewrite Hp, (cur_eq c c' a Hs). auto.
Qed.
Lemma G_steps p0 c c' : steps isexc rewrap N c c' -> G p0 c -> G p0 c'.
Proof. induction 1 as [|c c1 c2 _ IH Hs]; intros HG; [exact HG|]. eapply G_step; [apply IH; exact HG | exact Hs]. Qed.

(** * Progress *)
Lemma quiet_can_step c i q0 F B : i < N -> LNext (lp c i) q0 (dq c i) (gq c i) (lpds c i) (lbds c i) (reqs c i) F B ->
  cq c i <> [] \/ lp c i <> LIdle -> exists c', step isexc rewrap N c c'.
Proof.
  intros Hi (_ & _ & s' & Hq & _) Hc. destruct Hq as [(Hp & Hd & _)|(src & dst & f & rdd & Hp & Hd & _)].
  - destruct Hc as [Hc|Hc]; [|congruence]. assert (exists c', ltake c i = Some c') as [c' Hc'].
    { unfold ltake. rewrite Hp. destruct (cq c i); [congruence|]. eauto. }
    exists c'. eapply st_take; eassumption.
  - assert (exists c', lrecv rewrap c i = Some c') as [c' Hc']. { unfold lrecv. rewrite Hp, Hd. eauto. }
    exists c'. eapply st_recv; eassumption.
Qed.

Lemma not_all (P : nat -> bool) n : forallb P (seq 0 n) = false -> exists i, i < n /\ P i = false.
Proof.
  intros H. destruct (existsb (fun i => negb (P i)) (seq 0 n)) eqn:E.
  - apply existsb_exists in E. destruct E as (i & Hin & Hi). apply in_seq in Hin. exists i. split; [lia|]. destruct (P i); [discriminate | reflexivity].
  - exfalso. assert (forallb P (seq 0 n) = true); [|congruence]. apply forallb_forall. intros i Hin.
    destruct (P i) eqn:Hp; [reflexivity|]. exfalso. rewrite <- not_true_iff_false in E. apply E. apply existsb_exists. exists i. rewrite Hp. auto.
Qed.

Definition quiescent (c : cfg V) : Prop := forall i, i < N -> lp c i = LIdle /\ cq c i = [] /\ dq c i = [].

Lemma progress p0 c : G p0 c ->
  (exists c', step isexc rewrap N c c') \/ (prog c = [] /\ sph c = SNext /\ rq c = [] /\ quiescent c).
Proof.
  intros (a & es & f & F & a2 & es2 & HI & Hr & Hp0). destruct (sph c) as [|src dst pend done|id|] eqn:Hsph.
  - destruct (prog c) as [|k p] eqn:Hp.
    + destruct (forallb (fun i => match lp c i, cq c i with LIdle, [] => true | _, _ => false end) (seq 0 N)) eqn:Hall.
      * right. split; [reflexivity|]. split; [reflexivity|]. split.
        -- pose proof (i_sched _ _ _ _ _ HI) as Hs. unfold Sched in Hs. rewrite Hsph in Hs. exact Hs.
        -- intros i Hi. rewrite forallb_forall in Hall. specialize (Hall i). cbn in Hall.
           pose proof (i_loc _ _ _ _ _ HI i Hi) as Hl. unfold LInv in Hl. rewrite Hsph in Hl. destruct Hl as (_ & _ & s' & Hq & _).
           destruct (lp c i) eqn:Hlp; try (discriminate Hall; apply in_seq; lia). destruct (cq c i); [|discriminate Hall; apply in_seq; lia].
           destruct Hq as [(_ & Hd & _)|(? & ? & ? & ? & E & _)]; [auto | discriminate].
      * left. apply not_all in Hall. destruct Hall as (i & Hi & Hc).
        pose proof (i_loc _ _ _ _ _ HI i Hi) as Hl. unfold LInv in Hl. rewrite Hsph in Hl.
        apply (quiet_can_step c i (cq c i) (F i) (abds a) Hi Hl). destruct (lp c i); try (right; discriminate). left. destruct (cq c i); congruence.
    + left. assert (exists c', issue c = Some c') as [c' Hc'].
      { unfold issue. rewrite Hsph, Hp. destruct k; eauto. - destruct (spds c src); eauto. - destruct (sbds c id); eauto. }
      exists c'. apply st_issue. exact Hc'.
  - left. destruct (forallb done (seq 0 N)) eqn:Hall.
    + assert (exists c', map_end N c = Some c') as [c' Hc']. { unfold map_end. rewrite Hsph, Hall. eauto. }
      exists c'. apply st_map_end. exact Hc'.
    + apply not_all in Hall. destruct Hall as (i & Hi & Hd). pose proof (i_loc _ _ _ _ _ HI i Hi) as Hl. unfold LInv in Hl. rewrite Hsph in Hl.
      unfold LMap in Hl. rewrite Hd in Hl.
      destruct Hl as (Hg & [(q0 & F0 & E & HL & _)|[(rdd & E & _)|[(rdd & E & _ & _ & Hr1 & _)|(rdd & t & x & v & E & _ & Hdq & _)]]]).
      * apply (quiet_can_step c i q0 F0 (abds a) Hi HL). left. rewrite E. destruct q0; discriminate.
      * assert (exists c', lask c i = Some c') as [c' Hc']. { unfold lask. rewrite E. eauto. } exists c'. eapply st_ask; eassumption.
      * assert (Hin : In i (map fst (rq c))). { apply (count_occ_In Nat.eq_dec). unfold reqs in Hr1. rewrite Hr1. lia. }
        apply in_map_iff in Hin. destruct Hin as ([r pid] & Er & Hin). cbn in Er. subst r. apply in_split in Hin. destruct Hin as (ra & rb & Hrq).
        assert (exists c', serve c i pid (ra ++ rb) = Some c') as [c' Hc'].
        { unfold serve. rewrite Hsph. destruct (pid =? src); [|eauto]. destruct (rev pend); eauto. }
        exists c'. eapply st_serve; eassumption.
      * assert (exists c', lrecv rewrap c i = Some c') as [c' Hc']. { unfold lrecv. rewrite E, Hdq. eauto. } exists c'. eapply st_recv; eassumption.
  - left. destruct (forallb (fun i => match gq c i with [] => false | _ => true end) (seq 0 N)) eqn:Hall.
    + assert (exists c', gather_end isexc N c = Some c') as [c' Hc']. { unfold gather_end. rewrite Hsph, Hall. eauto. }
      exists c'. apply st_gather. exact Hc'.
    + apply not_all in Hall. destruct Hall as (i & Hi & Hd). pose proof (i_loc _ _ _ _ _ HI i Hi) as Hl. unfold LInv in Hl. rewrite Hsph in Hl.
      destruct Hl as [(q0 & E & HL)|(_ & _ & _ & _ & Hg & _)]; [|rewrite Hg in Hd; discriminate].
      apply (quiet_can_step c i q0 (F i) (abds a) Hi HL). left. rewrite E. destruct q0; discriminate.
  - exfalso. pose proof (i_sched _ _ _ _ _ HI) as Hs. unfold Sched in Hs. rewrite Hsph in Hs. exact Hs.
Qed.

(** * Termination *)
Definition wph (p : lphase V) : nat := match p with LAsk _ _ _ _ => 3 | LWait _ _ _ _ => 1 | _ => 0 end.
Definition wl (c : cfg V) (i : nat) : nat := 5 * length (cq c i) + 4 * length (dq c i) + wph (lp c i).
Definition W (c : cfg V) : nat := list_sum (map (wl c) (seq 0 N)) + length (rq c).
Definition rank (c : cfg V) : nat := match sph c with SMap _ _ _ _ | SGather _ => 1 | _ => 0 end.
Definition npend (c : cfg V) : nat := match sph c with SMap _ _ pend _ => length pend | _ => 0 end.
Definition ntodo (c : cfg V) : nat :=
  match sph c with SMap _ _ _ done => list_sum (map (fun i => if done i then 0 else 1) (seq 0 N)) | _ => 0 end.

Lemma sum_split (f : nat -> nat) n i : i < n ->
  exists X, forall g, (forall j, j <> i -> g j = f j) -> list_sum (map g (seq 0 n)) = X + g i.
Proof.
  intros Hi. exists (list_sum (map f (seq 0 i)) + list_sum (map f (seq (S i) (n - S i)))). intros g Hg.
  replace n with (i + S (n - S i)) at 1 by lia. rewrite seq_app, map_app, list_sum_app. cbn [Nat.add seq map list_sum fold_right].
  rewrite (map_ext_in g f (seq 0 i)) by (intros j Hj; apply in_seq in Hj; apply Hg; lia).
  change (fold_right Nat.add 0 (map g (seq (S i) (n - S i)))) with (list_sum (map g (seq (S i) (n - S i)))).
  rewrite (map_ext_in g f (seq (S i) (n - S i))) by (intros j Hj; apply in_seq in Hj; apply Hg; lia). lia.
Qed.
Lemma W_decr c c' i : i < N -> (forall j, j <> i -> wl c' j = wl c j) -> wl c' i + length (rq c') < wl c i + length (rq c) -> W c' < W c.
Proof.
  intros Hi Hj Hlt. unfold W. destruct (sum_split (wl c) N i Hi) as (X & HX).
  rewrite (HX (wl c)) by reflexivity. rewrite (HX (wl c')) by exact Hj. lia.
Qed.

Definition smaller (c' c : cfg V) : Prop :=
  length (prog c') < length (prog c)
  \/ length (prog c') = length (prog c) /\ (rank c' < rank c
  \/ rank c' = rank c /\ (npend c' < npend c
  \/ npend c' = npend c /\ (ntodo c' < ntodo c
  \/ ntodo c' = ntodo c /\ W c' < W c))).

Lemma same_sched c c' : prog c' = prog c -> sph c' = sph c -> W c' < W c -> smaller c' c.
Proof. intros H1 H2 H3. unfold smaller, rank, npend, ntodo. rewrite H1, H2. auto 10. Qed.

Lemma step_smaller p0 c c' : G p0 c -> step isexc rewrap N c c' -> smaller c' c.
Proof.
  intros (a & es & f & F & a2 & es2 & HI & Hr & Hp0) H. destruct H as [c c' H|c c' ra rb r pid Hrq H|c c' H|c c' H|c c' i Hi H|c c' i Hi H|c c' i Hi H].
  - left. unfold issue in H. destruct (sph c); try discriminate. destruct (prog c) as [|k p]; [discriminate|].
    destruct k; try (destruct (spds c src)); try (destruct (sbds c id)); inversion H; cbn; lia.
  - destruct (inv_serve c a es f F ra rb r pid c' HI Hrq H) as (_ & Hp & src & dst & pend & done & pend' & done' & E1 & E2 & Hr0 & Hd & HX).
    right. split; [rewrite Hp; reflexivity|]. right. unfold rank, npend, ntodo. rewrite E1, E2. split; [reflexivity|].
    destruct HX as [(-> & -> & ->)|(Hlen & ->)]; [|left; lia]. right. split; [reflexivity|]. left.
    destruct (sum_split (fun i => if done i then 0 else 1) N r Hr0) as (X & HX). rewrite (HX (fun i => if done i then 0 else 1)) by reflexivity.
    rewrite (HX (fun i => if upd done r true i then 0 else 1)) by (intros j Hj; rewrite upd_neq by exact Hj; reflexivity). rewrite upd_eq, Hd. lia.
  - destruct (inv_map_end c a es f F c' HI H) as (src & dst & pend & done & E & HI' & Hp & E').
    right. split; [rewrite Hp; reflexivity|]. left. unfold rank. rewrite E, E'. lia.
  - destruct (inv_gather_end c a es f F c' HI H) as (id & rs & E & Hid & HI' & Hp & E').
    right. split; [rewrite Hp; reflexivity|]. left. unfold rank. rewrite E, E'. lia.
  - destruct (inv_take c a es f F i c' HI Hi H) as (HI' & Hp & Hs). apply same_sched; [exact Hp | exact Hs|].
    unfold ltake in H. destruct (lp c i) eqn:Hlp; try discriminate. destruct (cq c i) as [|m q] eqn:Hcq; [discriminate|].
    assert (Hm : cq c' = upd (cq c) i q /\ dq c' = dq c /\ rq c' = rq c /\ (forall j, j <> i -> lp c' j = lp c j) /\ wph (lp c' i) <= 3).
    { destruct m; try (destruct (lpds c i id) as [[|]|]); try (destruct (lbds c i id)); inversion H; subst; cbn [cq dq rq lp set_lp];
        (do 3 (split; [reflexivity|])); (split; [intros j Hj; rewrite ?upd_neq by exact Hj; reflexivity|]); rewrite ?upd_eq, ?Hlp; cbn; lia. }
    destruct Hm as (M1 & M2 & M3 & M4 & M5). apply (W_decr c c' i Hi).
    + intros j Hj. unfold wl. rewrite M1, M2, (M4 j Hj), upd_neq by exact Hj. reflexivity.
    + unfold wl. rewrite M1, M2, M3, upd_eq, Hcq. cbn [length]. lia.
  - destruct (inv_ask c a es f F i c' HI Hi H) as (HI' & Hp & Hs). apply same_sched; [exact Hp | exact Hs|].
    unfold lask in H. destruct (lp c i) eqn:Hlp; try discriminate. inversion H; subst c'. apply (W_decr c _ i Hi).
    + intros j Hj. unfold wl. cbn [cq dq lp]. rewrite upd_neq by exact Hj. reflexivity.
    + unfold wl. cbn [cq dq lp rq]. rewrite upd_eq, Hlp, app_length. cbn. lia.
  - destruct (inv_recv c a es f F i c' HI Hi H) as (HI' & Hp & Hs). apply same_sched; [exact Hp | exact Hs|].
    unfold lrecv in H. destruct (lp c i) eqn:Hlp; try discriminate. destruct (dq c i) as [|o d] eqn:Hdq; [discriminate|].
    assert (Hm : cq c' = cq c /\ dq c' = upd (dq c) i d /\ rq c' = rq c /\ (forall j, j <> i -> lp c' j = lp c j) /\ wph (lp c' i) <= 3).
    { destruct o as [[t x]|]; inversion H; subst; cbn [cq dq rq lp]; (do 3 (split; [reflexivity|]));
        (split; [intros j Hj; rewrite ?upd_neq by exact Hj; reflexivity|]); rewrite ?upd_eq; try destruct (rf _ x); cbn; lia. }
    destruct Hm as (M1 & M2 & M3 & M4 & M5). apply (W_decr c c' i Hi).
    + intros j Hj. unfold wl. rewrite M1, M2, (M4 j Hj), upd_neq by exact Hj. reflexivity.
    + unfold wl. rewrite M1, M2, M3, upd_eq, Hdq, Hlp. cbn [length wph]. lia.
Qed.

Lemma smaller_wf : well_founded smaller.
Proof.
  assert (HX : forall n1 n2 n3 n4 n5 c, length (prog c) = n1 -> rank c = n2 -> npend c = n3 -> ntodo c = n4 -> W c = n5 -> Acc smaller c).
  { induction n1 as [n1 IH1] using lt_wf_ind. induction n2 as [n2 IH2] using lt_wf_ind. induction n3 as [n3 IH3] using lt_wf_ind.
    induction n4 as [n4 IH4] using lt_wf_ind. induction n5 as [n5 IH5] using lt_wf_ind. intros c E1 E2 E3 E4 E5. constructor. intros c' Hc'.
    subst n1 n2 n3 n4 n5. destruct Hc' as [H|(E1 & [H|(E2 & [H|(E3 & [H|(E4 & H)])])])].
    - eapply IH1; eauto.
    - eapply IH2; eauto.
    - eapply IH3; eauto.
    - eapply IH4; eauto.
    - eapply IH5; eauto. }
  intros c. eapply HX; reflexivity.
Qed.
Lemma terminates p0 c : G p0 c -> Acc (fun y x => step isexc rewrap N x y) c.
Proof.
  intros HG. revert HG. induction c as [c IH] using (well_founded_ind smaller_wf). intros HG. constructor. intros c' Hs.
  apply IH; [eapply step_smaller; eassumption | eapply G_step; eassumption].
Qed.
End Proof.
