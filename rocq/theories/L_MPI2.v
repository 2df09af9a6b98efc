(** Consequences of the refinement proof in the form used by the properties, and executable schedules for examples. *)
From Verif Require Import M_Base M_MPI S_MPI L_MPI.
From Coq Require Import Permutation.

Section Final.
Variable V : Type.
Variable isexc : V -> bool.
Variable rewrap : V -> option V.
Variable N : nat.
Hypothesis HN : 0 < N.
Notation step := (step isexc rewrap N).
Notation steps := (steps isexc rewrap N).
Notation arun := (arun rewrap).
Notation G := (G V isexc rewrap N).

Lemma evals_logtags id t lg : evals id t lg = count_occ Nat.eq_dec (logtags lg id) t.
Proof.
  unfold evals, logtags. induction lg as [|[i k] lg IH]; cbn [filter fst snd map count_occ]; [reflexivity|].
  destruct (Nat.eqb_spec i id) as [->|Hi]; cbn [andb]; [|exact IH]. cbn [map snd count_occ].
  destruct (Nat.eqb_spec k t); destruct (Nat.eq_dec k t); try congruence; cbn [length]; rewrite IH; reflexivity.
Qed.
Lemma evals_perm id t lg n : Permutation (logtags lg id) (seq 1 n) -> evals id t lg = if (1 <=? t) && (t <=? n) then 1 else 0.
Proof.
  intros H. rewrite evals_logtags. rewrite (Permutation_count_occ Nat.eq_dec) in H. rewrite H.
  destruct ((1 <=? t) && (t <=? n)) eqn:E.
  - apply andb_true_iff in E. destruct E as [E1 E2]. apply Nat.leb_le in E1, E2.
    apply NoDup_count_occ'; [apply seq_NoDup | apply in_seq; lia].
  - apply count_occ_not_In. intros Hin. apply in_seq in Hin. apply andb_false_iff in E. rewrite !Nat.leb_gt in E. lia.
Qed.
Lemma evals_le id t lg l r : Permutation (logtags lg id ++ r) l -> NoDup l -> evals id t lg <= 1.
Proof.
  intros H Hn. rewrite evals_logtags. rewrite (NoDup_count_occ Nat.eq_dec) in Hn. specialize (Hn t).
  rewrite (Permutation_count_occ Nat.eq_dec) in H. rewrite <- H in Hn. rewrite count_occ_app in Hn. lia.
Qed.

Lemma reach p a2 es c : arun p a0 = Some (a2, es) -> steps (init p) c -> G p c.
Proof. intros H Hs. eapply G_steps; [exact HN | exact Hs | eapply G_init; exact H]. Qed.

Lemma safe p a2 es c : arun p a0 = Some (a2, es) -> steps (init p) c ->
  (exists es1 es2, es = es1 ++ es2 /\ Forall2 (allowed isexc) es1 (outs c))
  /\ (forall id t, evals id t (log c) <= 1) /\ sph c <> SDead /\ (forall i, i < N -> lp c i <> LDead).
Proof.
  intros Hp Hs. destruct (reach p a2 es c Hp Hs) as (a & es1 & f & F & a2' & es2 & HI & Hr & Hp0).
  rewrite Hp in Hp0. inversion Hp0; subst a2' es. split; [exists es1, (cur V c a ++ es2); split; [reflexivity | apply HI]|]. split; [|split].
  - intros id t. pose proof (i_log _ _ _ _ _ _ _ _ _ HI id) as Hl. destruct (apds a id) as [[l|rs]|].
    + rewrite evals_logtags, Hl. cbn. lia.
    + eapply evals_le; [exact Hl | apply seq_NoDup].
    + rewrite evals_logtags, Hl. cbn. lia.
  - intros E. pose proof (i_sched _ _ _ _ _ _ _ _ _ HI) as H. unfold Sched in H. rewrite E in H. exact H.
  - intros i Hi E. pose proof (i_loc _ _ _ _ _ _ _ _ _ HI i Hi) as H. unfold LInv in H. rewrite E in H.
    destruct (sph c) as [|src dst pend done|id|].
    + apply LNext_phase in H. destruct H as [_ H]. congruence.
    + unfold LMap in H. destruct (done i); [apply LNext_phase in H; destruct H as [_ H]; congruence|].
      destruct H as (_ & [(q0 & F0 & _ & H & _)|[(rdd & H & _)|[(rdd & H & _)|(rdd & t & x & v & H & _)]]]); try discriminate.
      apply LNext_phase in H; destruct H as [_ H]; congruence.
    + destruct H as [(q0 & _ & H)|(H & _)]; [apply LNext_phase in H; destruct H as [_ H]; congruence | discriminate].
    + exact H.
Qed.

Lemma complete p a2 es c : arun p a0 = Some (a2, es) -> steps (init p) c -> over isexc rewrap N c ->
  prog c = [] /\ sph c = SNext /\ Forall2 (allowed isexc) es (outs c)
  /\ (forall id rs, apds a2 id = Some (PRes rs) -> forall t, evals id t (log c) = if (1 <=? t) && (t <=? length rs) then 1 else 0)
  /\ (forall i, i < N -> lp c i = LIdle /\ cq c i = [] /\ (forall id, lbds c i id = abds a2 id) /\ (forall id, sbds c id = abds a2 id)
                       /\ forall id, lpds c i id <> None <-> alive a2 id = true).
Proof.
  intros Hp Hs Hov. pose proof (reach p a2 es c Hp Hs) as HG.
  destruct (progress V isexc rewrap N HN p c HG) as [(c' & Hc)|(E1 & E2 & E3 & E4)]; [exfalso; exact (Hov c' Hc)|].
  destruct HG as (a & es1 & f & F & a2' & es2 & HI & Hr & Hp0). rewrite E1 in Hr. cbn in Hr. inversion Hr; subst a2' es2.
  rewrite Hp in Hp0. unfold cur in Hp0. rewrite E2 in Hp0. rewrite app_nil_r in Hp0. cbn in Hp0. inversion Hp0; subst a es1.
  split; [exact E1|]. split; [exact E2|]. split; [apply HI|]. split.
  - intros id rs Hid t. pose proof (i_log _ _ _ _ _ _ _ _ _ HI id) as Hl. rewrite Hid in Hl. unfold flying, pendof in Hl. rewrite E2 in Hl.
    cbn in Hl. rewrite !app_nil_r in Hl. apply evals_perm. exact Hl.
  - intros i Hi. destruct (E4 i Hi) as (A1 & A2 & A3). split; [exact A1|]. split; [exact A2|].
    pose proof (i_loc _ _ _ _ _ _ _ _ _ HI i Hi) as Hl. unfold LInv in Hl. rewrite E2, A1, A2 in Hl. destruct Hl as (_ & _ & s' & Hq & _ & HF & HB).
    destruct Hq as [(_ & _ & ->)|(? & ? & ? & ? & E & _)]; [|discriminate]. cbn in HF, HB.
    split; [intros id; symmetry; apply HB|]. split; [intros id; apply (i_sb _ _ _ _ _ _ _ _ _ HI)|].
    intros id. rewrite <- (HF id). destruct (i_data _ _ _ _ _ _ _ _ _ HI) as (D1 & D2 & D3). split.
    + intros Hn. destruct (alive a2 id) eqn:Ha; [reflexivity|]. rewrite (D1 i id Hi Ha) in Hn. congruence.
    + intros Ha. pose proof (i_live _ _ _ _ _ _ _ _ _ HI id Ha) as Hnn. destruct (apds a2 id) as [[l|rs]|] eqn:E; [| |congruence].
      * rewrite (D2 i id l Hi Ha E). discriminate.
      * destruct (D3 id rs Ha E) as [D4 _]. destruct (D4 i Hi) as [d ->]. discriminate.
Qed.

(** while a leader works on an item, its broadcast store is the scheduler's *)
Lemma bcast_seen p a2 es c i src dst f rdd t x d : arun p a0 = Some (a2, es) -> steps (init p) c -> i < N ->
  lp c i = LWait src dst f rdd -> dq c i = Some (t, x) :: d -> forall id, lbds c i id = sbds c id.
Proof.
  intros Hp Hs Hi Hlp Hdq id. destruct (reach p a2 es c Hp Hs) as (a & es1 & f' & F & a2' & es2 & HI & Hr & Hp0).
  rewrite (i_sb _ _ _ _ _ _ _ _ _ HI id). pose proof (i_loc _ _ _ _ _ _ _ _ _ HI i Hi) as Hl. unfold LInv in Hl.
  rewrite Hlp, Hdq in Hl.
  assert (HLN : forall q0 F0 B0, ~ LNext V (LWait src dst f rdd) q0 (Some (t, x) :: d) (gq c i) (lpds c i) (lbds c i) (reqs V c i) F0 B0).
  { intros q0 F0 B0 (_ & _ & s' & [(E & _)|(? & ? & ? & ? & _ & E & _)] & _); discriminate. }
  destruct (sph c) as [|src' dst' pend done|id'|]; [exfalso; eapply HLN; exact Hl| |exfalso|contradiction].
  - unfold LMap in Hl. destruct (done i); [exfalso; eapply HLN; exact Hl|].
    destruct Hl as (_ & [(q0 & F0 & _ & H & _)|[(rdd' & E & _)|[(rdd' & _ & _ & E & _)|(rdd' & t' & x' & v & _ & _ & _ & _ & _ & _ & HB)]]]); try discriminate.
    + exfalso; eapply HLN; exact H.
    + symmetry. apply HB.
  - destruct Hl as [(q0 & _ & H)|(E & _)]; [eapply HLN; exact H | discriminate].
Qed.

Lemma term p a2 es : arun p a0 = Some (a2, es) -> Acc (fun y x => step x y) (init p).
Proof. intros H. eapply terminates; [exact HN|]. eapply G_init. exact H. Qed.

(** every maximal execution ends *)
Lemma ends p a2 es : arun p a0 = Some (a2, es) -> forall c, steps (init p) c -> exists c', steps c c' /\ over isexc rewrap N c'.
Proof.
  intros H c Hs. pose proof (reach p a2 es c H Hs) as HG. pose proof (terminates V isexc rewrap N HN p c HG) as Hacc.
  induction Hacc as [c _ IH]. destruct (progress V isexc rewrap N HN p c HG) as [(c1 & Hc)|Hend].
  - destruct (IH c1 Hc) as (c' & H1 & H2); [eapply steps_step; eassumption | eapply G_step; eassumption|].
    exists c'. split; [|exact H2]. clear - Hc H1. revert Hc. induction H1 as [|x y z _ IH Hz]; intros Hc; [eapply steps_step; [constructor | exact Hc]|].
    eapply steps_step; [apply IH; exact Hc | exact Hz].
  - exists c. split; [constructor|]. destruct Hend as (E1 & E2 & E3 & E4). intros c' Hst.
    inversion Hst as [x x' X|x x' ra rb r pid Hrq X|x x' X|x x' X|x x' i Hi X|x x' i Hi X|x x' i Hi X]; subst.
    + unfold issue in X. rewrite E1, E2 in X. discriminate.
    + rewrite E3 in Hrq. destruct ra; discriminate.
    + unfold map_end in X. rewrite E2 in X. discriminate.
    + unfold gather_end in X. rewrite E2 in X. discriminate.
    + destruct (E4 i Hi) as (A1 & A2 & A3). unfold ltake in X. rewrite A1, A2 in X. discriminate.
    + destruct (E4 i Hi) as (A1 & A2 & A3). unfold lask in X. rewrite A1 in X. discriminate.
    + destruct (E4 i Hi) as (A1 & A2 & A3). unfold lrecv in X. rewrite A1 in X. discriminate.
Qed.

(** * One parallelize / map / collect anywhere in a program *)
Lemma arun_app p q a a2 es : arun (p ++ q) a = Some (a2, es) ->
  exists a1 es1 es2, arun p a = Some (a1, es1) /\ arun q a1 = Some (a2, es2) /\ es = es1 ++ es2.
Proof.
  revert a es. induction p as [|k p IH]; intros a es H; cbn in H |- *.
  - exists a, [], es. auto.
  - destruct (acmd rewrap k a) as [[a1 e]|]; [|discriminate]. destruct (arun (p ++ q) a1) as [[a3 es3]|] eqn:E; [|discriminate].
    inversion H; subst. destruct (IH a1 es3 E) as (b & es1 & es2 & -> & H2 & ->). exists b, (e :: es1), es2. auto.
Qed.
Lemma arun_anp p a a2 es : arun p a = Some (a2, es) -> anp a2 = anp a + created p /\ length es = length p.
Proof.
  revert a es. induction p as [|k p IH]; intros a es H; cbn in H.
  - inversion H; subst. unfold created. cbn. lia.
  - destruct (acmd rewrap k a) as [[a1 e]|] eqn:Ek; [|discriminate]. destruct (arun p a1) as [[a3 es3]|] eqn:E; [|discriminate].
    inversion H; subst. destruct (IH a1 es3 E) as [E1 E2]. cbn [length]. split; [|lia]. rewrite E1. unfold created. cbn [filter].
    destruct k; cbn in Ek |- *; try (destruct (apds a _) as [[?|?]|]; try discriminate); try (destruct (results rewrap f l); try discriminate); try (destruct (alive a id); try discriminate);
      try (destruct (abds a id); try discriminate); inversion Ek; subst; cbn; lia.
Qed.
Lemma pmc_spec pre l f post a2 es : arun (pre ++ CPar l :: CMap f (S (created pre)) :: CCollect (S (S (created pre))) :: post) a0 = Some (a2, es) ->
  exists rs, results rewrap f l = Some rs /\ nth_error es (length pre + 2) = Some (ECollect rs).
Proof.
  intros H. destruct (arun_app _ _ _ _ _ H) as (a1 & es1 & es2 & H1 & H2 & ->). destruct (arun_anp _ _ _ _ H1) as [Hn Hlen].
  change (anp a0) with 0 in Hn. cbn [Nat.add] in Hn. cbn [S_MPI.arun acmd] in H2. rewrite Hn in H2. cbn [apds] in H2. rewrite upd_eq in H2.
  destruct (results rewrap f l) as [rs|] eqn:Hrs; [|discriminate]. cbn [apds alive anp] in H2. rewrite !upd_eq in H2.
  destruct (S_MPI.arun rewrap post _) as [[a3 es3]|]; [|discriminate]. inversion H2; subst. exists rs. split; [reflexivity|].
  rewrite nth_error_app2 by lia. replace (length pre + 2 - length es1) with 2 by lia. reflexivity.
Qed.
Lemma Forall2_nth {A B} (R : A -> B -> Prop) l l' k x : Forall2 R l l' -> nth_error l k = Some x -> exists y, nth_error l' k = Some y /\ R x y.
Proof. intros H. revert k. induction H as [|a b l l' Hab _ IH]; intros [|k] Hk; cbn in *; try discriminate; [inversion Hk; subst; eauto | apply IH; exact Hk]. Qed.
Lemma results_In f l rs r : results rewrap f l = Some rs -> In r rs -> exists x, In x l /\ run_function rewrap f x = Some r.
Proof.
  revert rs. induction l as [|y l IH]; intros rs H Hin; cbn in H; [inversion H; subst; destruct Hin|].
  destruct (run_function rewrap f y) as [r0|] eqn:E; [|discriminate]. destruct (results rewrap f l) as [rs'|]; [|discriminate]. inversion H; subst.
  destruct Hin as [<-|Hin]; [exists y; split; [left; reflexivity | exact E]|]. destruct (IH rs' eq_refl Hin) as (x & Hx & Hr). exists x. split; [right; exact Hx | exact Hr].
Qed.
Lemma results_In2 f l rs x : results rewrap f l = Some rs -> In x l -> exists r, In r rs /\ run_function rewrap f x = Some r.
Proof.
  revert rs. induction l as [|y l IH]; intros rs H Hin; cbn in H; [destruct Hin|].
  destruct (run_function rewrap f y) as [r0|] eqn:E; [|discriminate]. destruct (results rewrap f l) as [rs'|]; [|discriminate]. inversion H; subst.
  destruct Hin as [->|Hin]; [exists r0; split; [left; reflexivity | exact E]|]. destruct (IH rs' eq_refl Hin) as (r & Hx & Hr). exists r. split; [right; exact Hx | exact Hr].
Qed.
Lemma results_map (f : func V) (g : V -> V) l : (forall x, In x l -> f x = Returned (g x)) -> results rewrap f l = Some (map g l).
Proof.
  induction l as [|x l IH]; intros H; cbn; [reflexivity|]. unfold run_function. rewrite (H x (or_introl eq_refl)).
  rewrite IH by (intros y Hy; apply H; right; exact Hy). reflexivity.
Qed.

Lemma pmc_ok pre l f g post a2 es c : 
  arun (pre ++ CPar l :: CMap f (S (created pre)) :: CCollect (S (S (created pre))) :: post) a0 = Some (a2, es) ->
  (forall x, In x l -> f x = Returned (g x) /\ isexc (g x) = false) ->
  steps (init (pre ++ CPar l :: CMap f (S (created pre)) :: CCollect (S (S (created pre))) :: post)) c -> over isexc rewrap N c ->
  nth_error (outs c) (length pre + 2) = Some (OList (map g l)).
Proof.
  intros Hp Hf Hs Hov. destruct (complete _ _ _ _ Hp Hs Hov) as (_ & _ & Ho & _). destruct (pmc_spec _ _ _ _ _ _ Hp) as (rs & Hrs & Hn).
  rewrite (results_map f g l) in Hrs by (intros x Hx; apply Hf; exact Hx). inversion Hrs; subst rs.
  destruct (Forall2_nth _ _ _ _ _ Ho Hn) as (o & Hno & Hal). rewrite Hno. f_equal. cbn in Hal. destruct Hal as [[_ Hal]|(r & Hin & Hr & _)]; [exact Hal|].
  apply in_map_iff in Hin. destruct Hin as (x & <- & Hx). destruct (Hf x Hx) as [_ E]. congruence.
Qed.

Lemma pmc_exc pre l f post a2 es c :
  arun (pre ++ CPar l :: CMap f (S (created pre)) :: CCollect (S (S (created pre))) :: post) a0 = Some (a2, es) ->
  (forall x v, In x l -> f x = Returned v -> isexc v = false) ->
  (forall x e e', In x l -> f x = Raised e -> rewrap e = Some e' -> isexc e' = true) ->
  steps (init (pre ++ CPar l :: CMap f (S (created pre)) :: CCollect (S (S (created pre))) :: post)) c -> over isexc rewrap N c ->
  (exists x e, In x l /\ f x = Raised e) ->
  exists x e e', In x l /\ f x = Raised e /\ rewrap e = Some e' /\ nth_error (outs c) (length pre + 2) = Some (ORaise e').
Proof.
  intros Hp Hret Hexc Hs Hov (x0 & e0 & Hx0 & He0). destruct (complete _ _ _ _ Hp Hs Hov) as (_ & _ & Ho & _). destruct (pmc_spec _ _ _ _ _ _ Hp) as (rs & Hrs & Hn).
  destruct (Forall2_nth _ _ _ _ _ Ho Hn) as (o & Hno & Hal). rewrite Hno. cbn in Hal. destruct Hal as [[Hall _]|(r & Hin & Hr & ->)].
  - exfalso. destruct (results_In2 f l rs x0 Hrs Hx0) as (r & Hin & Hr). rewrite Forall_forall in Hall. specialize (Hall r Hin).
    unfold run_function in Hr. rewrite He0 in Hr. rewrite (Hexc x0 e0 r Hx0 He0 Hr) in Hall. discriminate.
  - destruct (results_In f l rs r Hrs Hin) as (x & Hx & Hrf). unfold run_function in Hrf. destruct (f x) as [v|e] eqn:Hfx.
    + inversion Hrf; subst. rewrite (Hret x r Hx Hfx) in Hr. discriminate.
    + exists x, e, r. auto.
Qed.

Lemma single l f g c :
  (forall x, In x l -> f x = Returned (g x) /\ isexc (g x) = false) ->
  steps (init [CPar l; CMap f 1; CCollect 2]) c -> over isexc rewrap N c ->
  outs c = [OPds 1; OPds 2; OList (map g l)].
Proof.
  intros Hf Hs Hov. assert (Hp : exists a2 es, arun [CPar l; CMap f 1; CCollect 2] a0 = Some (a2, es) /\ length es = 3 /\ nth_error es 0 = Some (EPds 1) /\ nth_error es 1 = Some (EPds 2)).
  { cbn. rewrite (results_map f g l) by (intros x Hx; apply Hf; exact Hx). cbn. eexists. eexists. split; [reflexivity|]. auto. }
  destruct Hp as (a2 & es & Hp & Hl & H0 & H1). pose proof (pmc_ok [] l f g [] a2 es c Hp Hf Hs Hov) as H2.
  destruct (complete _ _ _ _ Hp Hs Hov) as (_ & _ & Ho & _).
  destruct (Forall2_nth _ _ _ _ _ Ho H0) as (o0 & A0 & B0). destruct (Forall2_nth _ _ _ _ _ Ho H1) as (o1 & A1 & B1). cbn in B0, B1. subst o0 o1.
  assert (Hlo : length (outs c) = 3). { rewrite <- Hl. clear - Ho. induction Ho; cbn; congruence. }
  destruct (outs c) as [|o0 [|o1 [|o2 [|? ?]]]]; try discriminate. cbn in A0, A1, H2. congruence.
Qed.
Lemma refinement p a es c : arun p a0 = Some (a, es) -> steps (init p) c ->
  (exists es1 es2, es = es1 ++ es2 /\ Forall2 (allowed isexc) es1 (outs c))
  /\ (forall id t, evals id t (log c) <= 1) /\ sph c <> SDead /\ (forall i, i < N -> lp c i <> LDead)
  /\ (over isexc rewrap N c ->
        prog c = [] /\ sph c = SNext /\ Forall2 (allowed isexc) es (outs c)
        /\ forall id rs, apds a id = Some (PRes rs) -> forall t, 1 <= t <= length rs -> evals id t (log c) = 1).
Proof.
  intros Hp Hs. destruct (safe p a es c Hp Hs) as (A1 & A2 & A3 & A4). do 4 (split; [assumption|]). intros Hov.
  destruct (complete p a es c Hp Hs Hov) as (B1 & B2 & B3 & B4 & _). do 3 (split; [assumption|]). intros id rs Hid t Ht. rewrite (B4 id rs Hid t).
  destruct Ht as [T1 T2]. apply Nat.leb_le in T1, T2. rewrite T1, T2. reflexivity.
Qed.
Lemma stores p a es c : arun p a0 = Some (a, es) -> steps (init p) c -> over isexc rewrap N c ->
  forall i, i < N -> (forall id, lbds c i id = abds a id) /\ (forall id, sbds c id = abds a id)
                     /\ forall id, lpds c i id <> None <-> alive a id = true.
Proof. intros Hp Hs Hov i Hi. destruct (complete p a es c Hp Hs Hov) as (_ & _ & _ & _ & B). destruct (B i Hi) as (_ & _ & B1). exact B1. Qed.

(** * Deletions do not matter to the rest *)
Definition aeq (a b : astate V) : Prop :=
  anp a = anp b /\ anb a = anb b /\ (forall id, apds a id = apds b id) /\ (forall id, alive a id = true -> alive b id = true)
  /\ (forall id, abds a id <> None -> abds b id <> None).
Definition notdone (e : exp V) : bool := match e with EDone => false | _ => true end.
Lemma nodel_spec p : forall a b a2 es, aeq a b -> arun p a = Some (a2, es) ->
  exists b2, arun (filter nodel p) b = Some (b2, filter notdone es).
Proof.
  induction p as [|k p IH]; intros a b a2 es Hab H; cbn in H |- *; [inversion H; subst; eexists; reflexivity|].
  destruct (acmd rewrap k a) as [[a1 e]|] eqn:Ek; [|discriminate]. destruct (arun p a1) as [[a3 es3]|] eqn:E; [|discriminate]. inversion H; subst.
  destruct Hab as (A1 & A2 & A3 & A4 & A5).
  destruct k as [l|f src|id|v|id|id]; cbn in Ek |- *.
  - injection Ek as Ha1 He; subst e. rewrite <- A1. destruct (IH a1 (mkast (S (anp a)) (anb b) (upd (apds b) (S (anp a)) (Some (PRaw l))) (upd (alive b) (S (anp a)) true) (abds b)) a2 es3) as (b2 & Hb2); [subst a1|exact E|cbn in Hb2 |- *; rewrite Hb2; eauto].
    repeat split; cbn; auto; intros id; unfold upd; destruct (id =? S (anp a)); auto.
  - destruct (apds a src) as [[l|]|] eqn:Es; try discriminate. destruct (results rewrap f l) as [rs|] eqn:Er; [|discriminate]. injection Ek as Ha1 He; subst e.
    rewrite <- A3, Es, Er, <- A1. destruct (IH a1 (mkast (S (anp a)) (anb b) (upd (apds b) (S (anp a)) (Some (PRes rs))) (upd (alive b) (S (anp a)) true) (abds b)) a2 es3) as (b2 & Hb2); [subst a1|exact E|cbn in Hb2 |- *; rewrite Hb2; eauto].
    repeat split; cbn; auto; intros id; unfold upd; destruct (id =? S (anp a)); auto.
  - destruct (apds a id) as [[?|rs]|] eqn:Es; try discriminate. destruct (alive a id) eqn:Ea; [|discriminate]. injection Ek as Ha1 He; subst e.
    rewrite <- A3, Es, (A4 id Ea). subst a1. destruct (IH a b a2 es3) as (b2 & ->); [repeat split; auto|exact E|eauto].
  - injection Ek as Ha1 He; subst e. rewrite <- A2. destruct (IH a1 (mkast (anp b) (S (anb a)) (apds b) (alive b) (upd (abds b) (S (anb a)) (Some v))) a2 es3) as (b2 & Hb2); [subst a1|exact E|cbn in Hb2 |- *; rewrite Hb2; eauto].
    repeat split; cbn; auto; intros id; unfold upd; destruct (id =? S (anb a)); auto; discriminate.
  - destruct (alive a id) eqn:Ea; [|discriminate]. injection Ek as Ha1 He; subst e. apply (IH a1 b a2 es3); [subst a1|exact E].
    repeat split; cbn; auto. intros id0. unfold upd. destruct (id0 =? id); [discriminate | auto].
  - destruct (abds a id) eqn:Ea; [|discriminate]. injection Ek as Ha1 He; subst e. apply (IH a1 b a2 es3); [subst a1|exact E].
    repeat split; cbn; auto. intros id0. unfold upd. destruct (id0 =? id); [congruence | auto].
Qed.
Lemma allowed_det es os os' : Forall2 (allowed isexc) es os -> Forall2 (allowed isexc) es os' ->
  existsb israise os = false -> os' = os.
Proof.
  intros H. revert os'. induction H as [|e o es os He _ IH]; intros os' H' Hr; inversion H' as [|? o' ? os2 He' Hrest]; subst; [reflexivity|].
  cbn in Hr. apply orb_false_iff in Hr. destruct Hr as [Hr1 Hr2]. rewrite (IH os2 Hrest Hr2). f_equal.
  destruct e; cbn in *; try congruence. destruct He as [[Hf ->]|(r & _ & _ & ->)]; [|discriminate].
  destruct He' as [[_ ->]|(r & Hin & Hx & _)]; [reflexivity|]. rewrite Forall_forall in Hf. rewrite (Hf r Hin) in Hx. discriminate.
Qed.
Lemma allowed_filter es os : Forall2 (allowed isexc) es os -> Forall2 (allowed isexc) (filter notdone es) (filter answered os).
Proof.
  induction 1 as [|e o es os He _ IH]; cbn; [constructor|]. destruct e; cbn in *; subst; cbn; try (constructor; [reflexivity | exact IH]); [|exact IH].
  assert (answered o = true) by (destruct He as [[_ ->]|(r & _ & _ & ->)]; reflexivity). rewrite H. constructor; [exact He | exact IH].
Qed.
Lemma del_indep p a2 es c : arun p a0 = Some (a2, es) -> steps (init p) c -> over isexc rewrap N c -> existsb israise (outs c) = false ->
  forall c', steps (init (filter nodel p)) c' -> over isexc rewrap N c' -> outs c' = filter answered (outs c).
Proof.
  intros Hp Hs Ho Hr c' Hs' Ho'. destruct (nodel_spec p a0 a0 a2 es) as (b2 & Hb); [repeat split; auto | exact Hp|].
  destruct (complete _ _ _ _ Hp Hs Ho) as (_ & _ & H1 & _). destruct (complete _ _ _ _ Hb Hs' Ho') as (_ & _ & H2 & _).
  apply allowed_filter in H1. eapply allowed_det; [exact H1 | exact H2|]. clear - Hr. induction (outs c) as [|o l IH]; cbn in *; [reflexivity|].
  apply orb_false_iff in Hr. destruct Hr as [A B]. destruct (answered o); cbn; [rewrite A|]; apply IH; exact B.
Qed.
End Final.

(** * Identifiers: every program, correct or not *)
Section Ids.
Variable V : Type.
Variable isexc : V -> bool.
Variable rewrap : V -> option V.
Variable N : nat.
Definition IdInv (c : cfg V) : Prop :=
  bds_ids (outs c) = seq 1 (nbds c)
  /\ match sph c with
     | SMap _ dst _ _ => dst = npds c /\ pds_ids (outs c) ++ [dst] = seq 1 (npds c)
     | SDead => exists k, pds_ids (outs c) = seq 1 k
     | _ => pds_ids (outs c) = seq 1 (npds c)
     end.
Lemma pds_ids_app (l l' : list (out V)) : pds_ids (l ++ l') = pds_ids l ++ pds_ids l'.
Proof. unfold pds_ids. apply flat_map_app. Qed.
Lemma bds_ids_app (l l' : list (out V)) : bds_ids (l ++ l') = bds_ids l ++ bds_ids l'.
Proof. unfold bds_ids. apply flat_map_app. Qed.
Lemma id_step c c' : IdInv c -> step isexc rewrap N c c' -> IdInv c'.
Proof.
  intros [H1 H2] H. unfold IdInv.
  destruct H as [c c' H|c c' ra rb r pid Hrq H|c c' H|c c' H|c c' i Hi H|c c' i Hi H|c c' i Hi H].
  - unfold issue in H. destruct (sph c) eqn:Hs; try discriminate. destruct (prog c) as [|k p]; [discriminate|].
    destruct k as [l|f src|id|v|id|id]; try (destruct (spds c src)); try (destruct (sbds c id)); inversion H; subst c'; cbn [outs nbds npds sph];
      rewrite ?bds_ids_app, ?pds_ids_app, ?H1, ?H2; cbn [bds_ids pds_ids flat_map app]; rewrite ?app_nil_r, ?(seq_S (npds c)), ?(seq_S (nbds c)); eauto.
  - unfold serve in H. destruct (sph c) eqn:Hs; try discriminate. destruct (pid =? src); [|inversion H; subst c'; cbn; rewrite ?Hs; auto].
    destruct (rev pend); inversion H; subst c'; cbn; auto.
  - unfold map_end in H. destruct (sph c) eqn:Hs; try discriminate. destruct (forallb done (seq 0 N)); [|discriminate]. inversion H; subst c'. cbn [outs nbds npds sph].
    rewrite bds_ids_app, pds_ids_app. cbn. rewrite app_nil_r. destruct H2 as [-> H2]. auto.
  - unfold gather_end in H. destruct (sph c) eqn:Hs; try discriminate. destruct (forallb _ (seq 0 N)); [|discriminate]. inversion H; subst c'. cbn [outs nbds npds sph].
    rewrite bds_ids_app, pds_ids_app. unfold collect_result. destruct (find _ _); cbn; rewrite !app_nil_r; auto.
  - unfold ltake in H. destruct (lp c i); try discriminate. destruct (cq c i) as [|m q]; [discriminate|].
    destruct m; try (destruct (lpds c i id) as [[|]|]); try (destruct (lbds c i id)); inversion H; subst c'; cbn; auto.
  - unfold lask in H. destruct (lp c i); try discriminate. inversion H; subst c'. cbn. auto.
  - unfold lrecv in H. destruct (lp c i); try discriminate. destruct (dq c i) as [|[[t x]|] d]; try discriminate; inversion H; subst c'; cbn; auto.
Qed.
Lemma ids_fresh p c : steps isexc rewrap N (init p) c ->
  (exists k, pds_ids (outs c) = seq 1 k) /\ (exists k, bds_ids (outs c) = seq 1 k).
Proof.
  intros H. assert (HI : IdInv c).
  { remember (init p) as c0. induction H as [|c c1 c2 _ IH Hs]; [subst; split; reflexivity|]. eapply id_step; [apply IH; assumption | exact Hs]. }
  destruct HI as [H1 H2]. split; [|eauto]. destruct (sph c); eauto. destruct H2 as [-> H2]. exists (pred (npds c)).
  destruct (npds c) as [|n]; [destruct (pds_ids (outs c)); discriminate|]. rewrite seq_S in H2. apply app_inj_tail in H2. cbn [pred]. exact (proj1 H2).
Qed.

(** * Executable schedules *)
Inductive act := AIssue | AServe (k : nat) | AMapEnd | AGather | ATake (i : nat) | AAsk (i : nat) | ARecv (i : nat).
Definition do1 (x : act) (c : cfg V) : option (cfg V) :=
  match x with
  | AIssue => issue c
  | AServe k => match nth_error (rq c) k with
                | Some (r, pid) => serve c r pid (firstn k (rq c) ++ skipn (S k) (rq c))
                | None => None
                end
  | AMapEnd => map_end N c
  | AGather => gather_end isexc N c
  | ATake i => if i <? N then ltake c i else None
  | AAsk i => if i <? N then lask c i else None
  | ARecv i => if i <? N then lrecv rewrap c i else None
  end.
Fixpoint exec (l : list act) (c : cfg V) : option (cfg V) :=
  match l with [] => Some c | x :: l' => match do1 x c with Some c' => exec l' c' | None => None end end.
Lemma split_nth {A} (l : list A) k x : nth_error l k = Some x -> l = firstn k l ++ x :: skipn (S k) l.
Proof.
  revert k. induction l as [|y l IH]; intros [|k] H; cbn in H; try discriminate; [inversion H; reflexivity|].
  cbn [firstn app]. rewrite skipn_cons. f_equal. apply IH. exact H.
Qed.
Lemma do1_step x c c' : do1 x c = Some c' -> step isexc rewrap N c c'.
Proof.
  destruct x; cbn [do1]; intros H; try (destruct (Nat.ltb_spec i N); [|discriminate]).
  - apply st_issue; exact H.
  - destruct (nth_error (rq c) k) as [[r pid]|] eqn:E; [|discriminate].
    apply (st_serve V isexc rewrap N c c' (firstn k (rq c)) (skipn (S k) (rq c)) r pid); [apply split_nth; exact E | exact H].
  - apply st_map_end; exact H.
  - apply st_gather; exact H.
  - eapply st_take; eassumption.
  - eapply st_ask; eassumption.
  - eapply st_recv; eassumption.
Qed.
Lemma exec_steps l c c' : exec l c = Some c' -> steps isexc rewrap N c c'.
Proof.
  assert (HX : forall l c0 c, steps isexc rewrap N c0 c -> exec l c = Some c' -> steps isexc rewrap N c0 c').
  { clear. induction l as [|x l IH]; intros c0 c H E; cbn in E; [inversion E; subst; exact H|].
    destruct (do1 x c) as [c1|] eqn:E1; [|discriminate]. apply (IH c0 c1); [|exact E]. eapply steps_step; [exact H | eapply do1_step; exact E1]. }
  intros H. eapply HX; [constructor | exact H].
Qed.
(** no process can move *)
Definition stuck (c : cfg V) : bool :=
  match issue c, map_end N c, gather_end isexc N c, rq c with
  | None, None, None, [] =>
      forallb (fun i => match ltake c i, lask c i, lrecv rewrap c i with None, None, None => true | _, _, _ => false end) (seq 0 N)
  | _, _, _, _ => false
  end.
Lemma stuck_over c : stuck c = true -> over isexc rewrap N c.
Proof.
  unfold stuck. destruct (issue c) eqn:E1; [discriminate|]. destruct (map_end N c) eqn:E2; [discriminate|]. destruct (gather_end isexc N c) eqn:E3; [discriminate|].
  destruct (rq c) eqn:E4; [|discriminate]. intros H c' Hs. rewrite forallb_forall in H.
  inversion Hs as [x x' X|x x' ra rb r pid Hrq X|x x' X|x x' X|x x' i Hi X|x x' i Hi X|x x' i Hi X]; subst; try congruence.
  - rewrite E4 in Hrq. destruct ra; discriminate.
  - specialize (H i ltac:(apply in_seq; lia)). rewrite X in H. discriminate.
  - specialize (H i ltac:(apply in_seq; lia)). rewrite X in H. destruct (ltake c i); discriminate.
  - specialize (H i ltac:(apply in_seq; lia)). rewrite X in H. destruct (ltake c i); [discriminate|]. destruct (lask c i); discriminate.
Qed.
End Ids.
