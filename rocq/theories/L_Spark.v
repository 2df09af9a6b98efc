(** Proofs for C82. *)
From Verif Require Import M_Base M_Journal M_Spark S_Backend.

Section Agree.
Variables X St : Type.
Variable dumps : St -> res St.
Variable slices : list X -> list (list X).
Hypothesis slices_all : forall l, concat (slices l) = l.
Variable sim : St -> St -> Prop.
Hypothesis sim_refl : forall s, sim s s.
Hypothesis sim_sym : forall s s', sim s s' -> sim s' s.
Hypothesis sim_trans : forall s s' s'', sim s s' -> sim s' s'' -> sim s s''.
Hypothesis dumps_sim : forall s, exists c, dumps s = Ok c /\ sim s c.
Notation task := (task X St).

Lemma upd_same {A} (f : nat -> A) n a : upd f n a n = a.
Proof. unfold upd. rewrite Nat.eqb_refl. reflexivity. Qed.
Lemma upd_other {A} (f : nat -> A) n m a : m <> n -> upd f n a m = f m.
Proof. intros H. unfold upd. apply Nat.eqb_neq in H. rewrite H. reflexivity. Qed.

(** one after the other, from a similar state *)
Definition same {A} (r r' : res A) : Prop := match r, r' with Ok y, Ok y' => y = y' | Err _, Err _ => True | _, _ => False end.
Lemma forM_steady (f : task) e l : steady X St sim f -> forall s s', sim s s' -> sim s (fst (forM (f e) l s)) /\ same (snd (forM (f e) l s)) (snd (forM (f e) l s')).
Proof.
  intros Hf. induction l as [|x l IH]; intros s s' H; [split; [apply sim_refl|reflexivity]|]. cbn [forM]. unfold bind, ret.
  destruct (Hf e x s s' H) as [H1 H2]. destruct (Hf e x s' s' (sim_refl _)) as [H3 _].
  destruct (f e x s) as [s1 [y|e1]], (f e x s') as [s2 [y'|e2]]; cbn [fst snd] in *; try contradiction; [|split; [exact H1|exact I]]. subst y'.
  assert (H12 : sim s1 s2) by (apply sim_trans with s; [apply sim_sym, H1|]; apply sim_trans with s'; assumption).
  destruct (IH s1 s2 H12) as [I1 I2]. destruct (forM (f e) l s1) as [s3 [ys|]], (forM (f e) l s2) as [s4 [ys'|]]; cbn [fst snd same] in *; try contradiction.
  - split; [apply sim_trans with s1; assumption|]. rewrite I2. reflexivity.
  - split; [apply sim_trans with s1; assumption|exact I].
Qed.
Lemma forM_app {A B} (f : A -> M St B) l l' s : forM f (l ++ l') s = match forM f l s with
  | (s1, Ok ys) => match forM f l' s1 with (s2, Ok ys') => (s2, Ok (ys ++ ys')) | (s2, Err e) => (s2, Err e) end | (s1, Err e) => (s1, Err e) end.
Proof.
  revert s. induction l as [|x l IH]; intros s; cbn [app forM].
  - unfold ret. destruct (forM f l' s) as [s2 [?|?]]; reflexivity.
  - unfold bind, ret. destruct (f x s) as [s1 [y|?]]; [|reflexivity]. rewrite IH. destruct (forM f l s1) as [s2 [ys|?]]; [|reflexivity]. destruct (forM f l' s2) as [s3 [ys'|?]]; reflexivity.
Qed.
Lemma parts_same (f : task) e : steady X St sim f -> forall ls s c, sim s c -> same (snd (forM (f e) (concat ls) s)) (match mapR (fun l => snd (forM (f e) l c)) ls with Err e => Err e | Ok ys => Ok (concat ys) end).
Proof.
  intros Hf. induction ls as [|l ls IH]; intros s c H; [reflexivity|]. cbn [concat mapR]. rewrite forM_app.
  destruct (forM_steady f e l Hf s c H) as [H1 H2]. destruct (forM (f e) l s) as [s1 [ys|]], (forM (f e) l c) as [c1 [ys'|]]; cbn [fst snd same] in *; try contradiction; [|exact I]. subst ys'.
  assert (H1c : sim s1 c) by (apply sim_trans with s; [apply sim_sym, H1|exact H]). specialize (IH s1 c H1c).
  destruct (forM (f e) (concat ls) s1) as [s2 [zs|]], (mapR _ ls) as [zs'|]; cbn [snd same] in *; try contradiction; [subst zs; reflexivity|exact I].
Qed.
Lemma pipeline_one (f : task) e x s : pipeline X St [f] e x s = f e x s.
Proof. cbn [pipeline]. unfold bind, ret. destruct (f e x s) as [s1 [y|]]; reflexivity. Qed.
Lemma forM_ext {A B} (f g : A -> M St B) l : (forall x s, f x s = g x s) -> forall s, forM f l s = forM g l s.
Proof. intros H. induction l as [|x l IH]; intros s; [reflexivity|]. cbn [forM]. unfold bind, ret. rewrite H. destruct (g x s) as [s1 [y|]]; [|reflexivity]. rewrite IH. reflexivity. Qed.
Lemma mapR_ext {A B} (f g : A -> res B) l : (forall x, f x = g x) -> mapR f l = mapR g l.
Proof. intros H. induction l as [|x l IH]; [reflexivity|]. cbn [mapR]. rewrite H, IH. reflexivity. Qed.

(** the two runs, step by step *)
Definition ref_ok (heap : nat -> list X) (var : nat -> option nat) (next : nat) (t : track) (i : nat) (a : nat) : Prop :=
  a < next /\ match k_of t i with Some o => var o = Some a | None => forall o, var o <> Some a end.
Record agree (tp tb : track) (d : dstate X St) (s : sstate X St) : Prop := mkag {
  ag_var : forall o, d_list d o = s_var s o;
  ag_inj : forall o o' a, d_var d o = Some a -> d_var d o' = Some a -> o = o';
  ag_next : forall o a, d_var d o = Some a -> a < d_next d;
  ag_pref : forall p a, d_pds d p = Some a -> ref_ok (d_heap d) (d_var d) (d_next d) tp p a;
  ag_pds : forall p, k_stale tp p = false -> match d_pds d p, s_pds s p with Some a, Some r => r_funcs r = [] /\ r_data r = d_heap d a | None, None => True | _, _ => False end;
  ag_bref : forall b a, d_bds d b = Some a -> ref_ok (d_heap d) (d_var d) (d_next d) tb b a;
  ag_bds : forall b, k_stale tb b = false -> d_env d b = s_bds s b;
  ag_self : sim (d_self d) (s_self s) }.
Lemma ref_heap h h' v n t i a : ref_ok h v n t i a -> ref_ok h' v n t i a.
Proof. exact (fun x => x). Qed.
Lemma ref_taken h v n t o p a a0 i : v o = Some a0 -> a0 < n -> (i <> p -> ref_ok h v n t i a) -> (i = p -> a = a0) -> ref_ok h v n (taken o p t) i a.
Proof.
  intros Ho Hn H1 H2. unfold ref_ok, taken. cbn [k_of]. destruct (Nat.eq_dec i p) as [->|N].
  - rewrite upd_same, (H2 eq_refl). split; assumption.
  - rewrite (upd_other _ _ _ _ N). apply H1, N.
Qed.
Lemma ref_reassigned h h' v n t o i a : (forall o' a', v o = Some a' -> v o' = Some a' -> o' = o) -> ref_ok h v n t i a -> a < n -> ref_ok h' (upd v o (Some n)) (S n) (reassigned o t) i a.
Proof.
  intros Hinj [H1 H2] Hn. split; [lia|]. unfold reassigned. cbn [k_of]. destruct (k_of t i) as [o'|] eqn:E; cbn [isv].
  - destruct (o' =? o) eqn:Eo; [apply Nat.eqb_eq in Eo; subst o'|apply Nat.eqb_neq in Eo; rewrite (upd_other _ _ _ _ Eo); exact H2].
    intros o2 X2. destruct (Nat.eq_dec o2 o) as [->|N]; [rewrite upd_same in X2; injection X2; lia|]. rewrite (upd_other _ _ _ _ N) in X2. apply N, (Hinj o2 a H2 X2).
  - intros o2 X2. destruct (Nat.eq_dec o2 o) as [->|N]; [rewrite upd_same in X2; injection X2; lia|]. rewrite (upd_other _ _ _ _ N) in X2. exact (H2 o2 X2).
Qed.
Lemma ref_changed h h' v n t o i a : ref_ok h v n t i a -> ref_ok h' v n (changed o t) i a.
Proof. intros H. exact H. Qed.

Ltac fields := cbn [d_heap d_next d_var d_pds d_bds d_self s_var s_pds s_bds s_self].
Lemma one_step tp tb d s c : safe X St tp tb [c] -> steady_step X St sim c -> agree tp tb d s ->
  match drun X St d (cmds X St c), srun X St dumps slices s (cmds X St c) with
  | Ok d', Ok s' => (forall l, safe X St tp tb (c :: l) -> exists tp' tb', safe X St tp' tb' l /\ agree tp' tb' d' s')
  | Err _, Err _ => True | _, _ => False end.
Proof.
  intros Hs Hst [Av Ai An Apr Ap Abr Ab As]. destruct c as [o p|f p t o|o b|o k x|u]; cbn [cmds drun srun dstep sstep].
  - pose proof (Av o) as Avo. unfold d_list in Avo. destruct (d_var d o) as [a|] eqn:Eo; cbn [option_map] in Avo; rewrite <- Avo; [|exact I]. intros l Hl. cbn [safe] in Hl. exists (taken o p tp), tb. split; [exact Hl|].
    constructor; fields; try assumption.
    + intros p' a' E. apply (ref_taken _ _ _ _ o p a' a p' Eo (An o a Eo)).
      * intros N. rewrite (upd_other _ _ _ _ N) in E. apply Apr, E.
      * intros ->. rewrite upd_same in E. congruence.
    + intros p' H. unfold taken in H. cbn [k_stale] in H. destruct (Nat.eq_dec p' p) as [->|N]; [rewrite !upd_same; split; reflexivity|]. rewrite !(upd_other _ _ _ _ N). rewrite (upd_other _ _ _ _ N) in H. apply Ap, H.
  - cbn [safe] in Hs. destruct Hs as (Hp & Hf & _). cbn [steady_step] in Hst. pose proof (Ap p Hp) as App. destruct (d_pds d p) as [a|] eqn:Ep, (s_pds s p) as [r|] eqn:Er; try contradiction; [|exact I]. destruct App as [Rf Rd].
    fields. rewrite upd_same. cbn [r_packed r_funcs r_data]. rewrite Rf, Rd. cbn [app]. destruct (dumps_sim (s_self s)) as (c & Ec & Hc). rewrite Ec.
    assert (Hsame : same (snd (forM (f (d_env d)) (d_heap d a) (d_self d))) (job X St slices (mkrdd (d_heap d a) [f] None) c (s_bds s))).
    { unfold job. cbn [r_funcs r_data]. rewrite (mapR_ext _ (fun l => snd (forM (f (d_env d)) l c))).
      2:{ intros l. f_equal. apply forM_ext. intros x s0. rewrite pipeline_one. symmetry. apply Hf. intros b Hb. apply Ab, Hb. }
      pose proof (parts_same f (d_env d) Hst (slices (d_heap d a)) (d_self d) c (sim_trans _ _ _ As Hc)) as PS. rewrite slices_all in PS. destruct (mapR _ _); [exact PS|]. destruct (snd _); [contradiction|exact I]. }
    destruct (forM_steady f (d_env d) (d_heap d a) Hst (d_self d) (d_self d) (sim_refl _)) as [Hsim _].
    destruct (forM (f (d_env d)) (d_heap d a) (d_self d)) as [s1 [ys|]], (job X St slices (mkrdd (d_heap d a) [f] None) c (s_bds s)) as [ys'|]; cbn [snd same] in Hsame; try contradiction; [subst ys'|exact I]. fields. rewrite upd_same.
    cbn [fst] in Hsim. intros l Hl. cbn [safe] in Hl. destruct Hl as (_ & _ & Hl). eexists _, _. split; [exact Hl|].
    assert (Ainj : forall o' a', d_var d o = Some a' -> d_var d o' = Some a' -> o' = o) by (intros o' a' H1 H2; exact (Ai o' o a' H2 H1)).
    assert (Fresh : forall i a', (d_var d i = Some a' \/ d_pds d i = Some a' \/ d_bds d i = Some a') -> upd (d_heap d) (d_next d) ys a' = d_heap d a').
    { intros i a' H. apply upd_other. enough (a' < d_next d) by lia. destruct H as [H|[H|H]]; [exact (An i a' H)|exact (proj1 (Apr i a' H))|exact (proj1 (Abr i a' H))]. }
    constructor; fields.
    + intros o'. unfold d_list. fields. destruct (Nat.eq_dec o' o) as [->|N]; [rewrite !upd_same; cbn [option_map]; rewrite upd_same; reflexivity|]. rewrite !(upd_other _ _ _ _ N). rewrite <- Av. unfold d_list.
      destruct (d_var d o') as [a'|] eqn:E; [|reflexivity]. cbn [option_map]. rewrite (Fresh o' a' (or_introl E)). reflexivity.
    + intros o1 o2 a' H1 H2. destruct (Nat.eq_dec o1 o) as [->|N1], (Nat.eq_dec o2 o) as [->|N2]; rewrite ?upd_same, ?(upd_other _ _ _ _ N1), ?(upd_other _ _ _ _ N2) in *.
      * reflexivity.
      * injection H1 as <-. apply An in H2. lia.
      * injection H2 as <-. apply An in H1. lia.
      * exact (Ai o1 o2 a' H1 H2).
    + intros o' a' H. destruct (Nat.eq_dec o' o) as [->|N]; [rewrite upd_same in H; injection H; lia|]. rewrite (upd_other _ _ _ _ N) in H. apply An in H. lia.
    + intros p' a' H. destruct (Nat.eq_dec p' t) as [->|N].
      * rewrite upd_same in H. injection H as <-. split; [lia|]. cbn [k_of]. rewrite upd_same. apply upd_same.
      * rewrite (upd_other _ _ _ _ N) in H. pose proof (ref_reassigned (d_heap d) (d_heap d) _ _ _ o p' a' Ainj (Apr p' a' H) (proj1 (Apr p' a' H))) as [G1 G2]. split; [exact G1|]. cbn [k_of]. rewrite (upd_other _ _ _ _ N). exact G2.
    + intros p' H. cbn [k_stale] in H. destruct (Nat.eq_dec p' t) as [->|N]; [rewrite upd_same in H; discriminate|]. rewrite (upd_other _ _ _ _ N) in H. rewrite !(upd_other _ _ _ _ N). unfold reassigned in H. cbn [k_stale] in H. specialize (Ap p' H).
      destruct (d_pds d p') as [a'|] eqn:E, (s_pds s p') as [r'|]; try contradiction; [|exact I]. rewrite (Fresh p' a' (or_intror (or_introl E))). exact Ap.
    + intros b a' H. exact (ref_reassigned (d_heap d) _ _ _ _ o b a' Ainj (Abr b a' H) (proj1 (Abr b a' H))).
    + intros b H. unfold reassigned in H. cbn [k_stale] in H. rewrite <- (Ab b H). unfold d_env. fields. destruct (d_bds d b) as [a'|] eqn:E; [|reflexivity]. cbn [option_map]. rewrite (Fresh b a' (or_intror (or_intror E))). reflexivity.
    + apply sim_trans with (d_self d); [apply sim_sym, Hsim|exact As].
  - pose proof (Av o) as Avo. unfold d_list in Avo. destruct (d_var d o) as [a|] eqn:Eo; cbn [option_map] in Avo; rewrite <- Avo; [|exact I]. intros l Hl. cbn [safe] in Hl. exists tp, (taken o b tb). split; [exact Hl|].
    constructor; fields; try assumption.
    + intros p' a' E. apply (ref_taken _ _ _ _ o b a' a p' Eo (An o a Eo)).
      * intros N. rewrite (upd_other _ _ _ _ N) in E. apply Abr, E.
      * intros ->. rewrite upd_same in E. congruence.
    + intros b' H. unfold taken in H. cbn [k_stale] in H. unfold d_env. fields. destruct (Nat.eq_dec b' b) as [->|N]; [rewrite !upd_same; reflexivity|]. rewrite !(upd_other _ _ _ _ N). rewrite (upd_other _ _ _ _ N) in H. exact (Ab b' H).
  - pose proof (Av o) as Avo. unfold d_list in Avo. destruct (d_var d o) as [a|] eqn:Eo; cbn [option_map] in Avo; rewrite <- Avo; [|exact I]. destruct (set_nth X k x (d_heap d a)) as [l'|] eqn:El; [|exact I]. intros l Hl. cbn [safe] in Hl. exists (changed o tp), (changed o tb). split; [exact Hl|].
    assert (Keep : forall tr i a', ref_ok (d_heap d) (d_var d) (d_next d) tr i a' -> k_stale (changed o tr) i = false -> upd (d_heap d) a l' a' = d_heap d a').
    { intros tr i a' [_ H] E. apply upd_other. intros ->. unfold changed in E. cbn [k_stale] in E. apply orb_false_iff in E. destruct E as [_ E]. destruct (k_of tr i) as [o'|]; [|exact (H o Eo)]. cbn [isv] in E. apply Nat.eqb_neq in E. apply E. exact (Ai o' o a H Eo). }
    constructor; fields; try assumption.
    + intros o'. unfold d_list. fields. destruct (Nat.eq_dec o' o) as [->|N]; [rewrite Eo, upd_same; cbn [option_map]; rewrite upd_same; reflexivity|]. rewrite (upd_other _ _ _ _ N). rewrite <- Av. unfold d_list.
      destruct (d_var d o') as [a'|] eqn:E; [|reflexivity]. cbn [option_map]. rewrite upd_other; [reflexivity|]. intros ->. apply N. exact (Ai o' o a E Eo).
    + intros p H. pose proof H as H0. unfold changed in H. cbn [k_stale] in H. apply orb_false_iff in H. destruct H as [H _]. specialize (Ap p H). destruct (d_pds d p) as [a'|] eqn:E, (s_pds s p) as [r'|]; try contradiction; [|exact I]. rewrite (Keep tp p a' (Apr p a' E) H0). exact Ap.
    + intros b H. pose proof H as H0. unfold changed in H. cbn [k_stale] in H. apply orb_false_iff in H. destruct H as [H _]. rewrite <- (Ab b H). unfold d_env. fields. destruct (d_bds d b) as [a'|] eqn:E; [|reflexivity]. cbn [option_map]. rewrite (Keep tb b a' (Abr b a' E) H0). reflexivity.
  - intros l Hl. cbn [safe] in Hl. exists tp, tb. split; [exact Hl|]. constructor; fields; try assumption. apply Hst, As.
Qed.
Lemma drun_app l l' : forall d, drun X St d (l ++ l') = match drun X St d l with Ok d' => drun X St d' l' | Err e => Err e end.
Proof. induction l as [|c l IH]; intros d; [reflexivity|]. cbn [app drun]. destruct (dstep X St d c); [apply IH|reflexivity]. Qed.
Lemma srun_app l l' : forall s, srun X St dumps slices s (l ++ l') = match srun X St dumps slices s l with Ok s' => srun X St dumps slices s' l' | Err e => Err e end.
Proof. induction l as [|c l IH]; intros s; [reflexivity|]. cbn [app srun]. destruct (sstep X St dumps slices s c); [apply IH|reflexivity]. Qed.
Lemma safe_head tp tb c l : safe X St tp tb (c :: l) -> safe X St tp tb [c].
Proof. destruct c; cbn [safe]; intros H; try exact I. destruct H as (H1 & H2 & _). split; [exact H1|]. split; [exact H2|exact I]. Qed.
Lemma agree_run l : forall tp tb d s, safe X St tp tb l -> Forall (steady_step X St sim) l -> agree tp tb d s ->
  match drun X St d (program X St l), srun X St dumps slices s (program X St l) with
  | Ok d', Ok s' => (forall o, d_list d' o = s_var s' o) /\ sim (d_self d') (s_self s')
  | Err _, Err _ => True | _, _ => False end.
Proof.
  induction l as [|c l IH]; intros tp tb d s Hs Hst Ha; [split; [apply (ag_var _ _ _ _ Ha)|apply (ag_self _ _ _ _ Ha)]|].
  unfold program. cbn [map concat]. rewrite drun_app, srun_app. inversion Hst; subst. pose proof (one_step tp tb d s c (safe_head _ _ _ _ Hs) ltac:(assumption) Ha) as O.
  destruct (drun X St d (cmds X St c)) as [d'|], (srun X St dumps slices s (cmds X St c)) as [s'|]; try contradiction; [|exact I].
  destruct (O l Hs) as (tp' & tb' & Hs' & Ha'). exact (IH tp' tb' d' s' Hs' ltac:(assumption) Ha').
Qed.
End Agree.
