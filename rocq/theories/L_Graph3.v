(** Proofs about prior sampling. *)
From Verif Require Import M_Base M_Graph S_Graph L_Graph L_Graph2.

Lemma bind_ok {S A B} (m : M S A) (f : A -> M S B) s s' b :
  bind m f s = (s', Ok b) -> exists s1 a, m s = (s1, Ok a) /\ f a s1 = (s', Ok b).
Proof.
  unfold bind. destruct (m s) as [s1 [a|e]] eqn:H; intros H'; [|discriminate].
  exists s1, a. split; [reflexivity | exact H'].
Qed.

Section WF.
Variable g : graph.
Hypothesis Hwf : wf g.

Lemma input_values_fst n s : fst (input_values g n s) = s.
Proof. apply (input_values_same g n s s eq_refl). Qed.
(** same, without the marks (an exception may leave marks changed) *)
Definition pure_but_marks (s s' : st) : Prop :=
  val s' = val s /\ cpdf s' = cpdf s /\ tr s' = tr s /\ ctr s <= ctr s'.
Lemma pbm_refl s : pure_but_marks s s.
Proof. repeat split; lia. Qed.
Lemma pbm_trans a b c : pure_but_marks a b -> pure_but_marks b c -> pure_but_marks a c.
Proof. intros (A&B&C&D) (A'&B'&C'&D'). repeat split; try congruence; lia. Qed.
Lemma forM_get_vis ps s : forM get_vis ps s = (s, Ok (map (vis s) ps)).
Proof. induction ps as [|p ps IH]; [reflexivity|]. cbn [forM map]. unfold bind, get_vis at 1. rewrite IH. reflexivity. Qed.
Fixpoint upds (V : nat -> bool) (l : list (nat * bool)) : nat -> bool :=
  match l with [] => V | (p, b) :: l' => upds (upd V p b) l' end.
Lemma forM_set_vis l : forall s,
  forM_ (fun pb => set_vis (fst pb) (snd pb)) l s = (mkst (upds (vis s) l) (val s) (cpdf s) (ctr s) (tr s), Ok tt).
Proof.
  induction l as [|[p b] l IH]; intros s; [destruct s; reflexivity|].
  cbn [forM_ upds]. unfold bind. cbn [fst snd]. unfold set_vis at 1. rewrite IH. reflexivity.
Qed.
Lemma forM_clear ps : forall s, exists V,
  forM_ (fun p => set_vis p false) ps s = (mkst V (val s) (cpdf s) (ctr s) (tr s), Ok tt)
  /\ (forall m, V m = vis s m && negb (memb m ps)).
Proof.
  induction ps as [|p ps IH]; intros s.
  - exists (vis s). destruct s. split; [reflexivity|]. intros m. cbn. rewrite andb_true_r. reflexivity.
  - destruct (IH (fst (set_vis p false s))) as (V & H & HV). exists V. split.
    + cbn [forM_]. unfold bind. unfold set_vis at 1. cbn in H. rewrite H. reflexivity.
    + intros m. rewrite HV. cbn. unfold upd. destruct (Nat.eqb_spec m p) as [->|]; cbn; [rewrite andb_false_r|]; reflexivity.
Qed.
Lemma upds_restore V ps : forall V', (forall m, ~ In m ps -> V' m = V m) ->
  forall m, upds V' (combine ps (map V ps)) m = V m.
Proof.
  induction ps as [|p ps IH]; intros V' H m; [apply H; intros []|]. cbn [map combine upds].
  apply IH. intros k Hk. unfold upd. destruct (Nat.eqb_spec k p) as [->|Hne]; [reflexivity|].
  apply H. intros [Hx|Hx]; [congruence | contradiction].
Qed.
Definition vext (s s' : st) : Prop := forall m, vis s' m = vis s m.
Lemma opsample_loop_run rec :
  (forall p s, pure_but_marks s (fst (rec p s)) /\ (forall o, snd (rec p s) = Ok o -> vext s (fst (rec p s)))) ->
  forall ps acc s, pure_but_marks s (fst (opsample_loop g rec ps acc s))
    /\ (forall o, snd (opsample_loop g rec ps acc s) = Ok o ->
          forall m, vis (fst (opsample_loop g rec ps acc s)) m = vis s m || memb m ps).
Proof.
  intros Hrec. induction ps as [|p ps IH]; intros acc s; cbn [opsample_loop].
  - split; [apply pbm_refl|]. intros o _ m. cbn. rewrite orb_false_r. reflexivity.
  - unfold bind, get_vis. destruct (vis s p) eqn:Hv.
    + destruct (IH acc s) as [A B]. split; [exact A|]. intros o Ho m. rewrite (B o Ho m). cbn.
      destruct (Nat.eqb_spec m p) as [->|]; cbn; [rewrite Hv|]; reflexivity.
    + pose proof (input_values_fst p s) as Hi.
      destruct (input_values g p s) as [s1 [ins|e]]; cbn in Hi; subst; [|split; [apply pbm_refl | discriminate]].
      destruct (gchk_in g p ins); [|split; [apply pbm_refl | discriminate]].
      destruct (Hrec p s) as [Hr1 Hr2]. destruct (rec p s) as [s1 [o|e]]; cbn in Hr1, Hr2; [|split; [exact Hr1 | discriminate]].
      destruct (IH (acc ++ [(p, o)]) (fst (set_vis p true s1))) as [A B].
      unfold set_vis. cbn [fst] in A, B. unfold set_vis in A, B. cbn [fst] in A, B.
      split.
      * apply pbm_trans with s1; [exact Hr1|]. exact A.
      * intros o' Ho m. rewrite (B o' Ho m). cbn. unfold upd. rewrite (Nat.eqb_sym m p).
        destruct (Nat.eqb_spec p m) as [->|]; cbn; [rewrite orb_true_r; reflexivity|].
        rewrite (Hr2 o eq_refl m). reflexivity.
Qed.
Lemma opsample_run rec ps s :
  (forall p s, pure_but_marks s (fst (rec p s)) /\ (forall o, snd (rec p s) = Ok o -> vext s (fst (rec p s)))) ->
  pure_but_marks s (fst (opsample g rec ps s)) /\ (forall o, snd (opsample g rec ps s) = Ok o -> vext s (fst (opsample g rec ps s))).
Proof.
  intros Hrec. unfold opsample, bind. rewrite forM_get_vis.
  destruct (forM_clear ps s) as (V & H & HV). rewrite H.
  match goal with |- context [opsample_loop g rec ps [] ?x] => set (s1 := x) end.
  destruct (opsample_loop_run rec Hrec ps [] s1) as [A B].
  destruct (opsample_loop g rec ps [] s1) as [s2 [acc|e]]; cbn [fst snd] in A, B |- *; [|split; [exact A | discriminate]].
  rewrite forM_set_vis. cbn [fst snd ret]. split; [exact A|].
  intros o _ m. cbn [vis]. apply upds_restore. intros k Hk. rewrite (B acc eq_refl k). unfold s1. cbn [vis].
  rewrite HV. apply memb_false in Hk. rewrite Hk. rewrite orb_false_r, andb_true_r. reflexivity.
Qed.
Lemma fsim_run f : forall n k s, pure_but_marks s (fst (fsim g f n k s))
  /\ (forall o, snd (fsim g f n k s) = Ok o -> vext s (fst (fsim g f n k s))).
Proof.
  induction f as [|f IH]; intros n k s; [split; [apply pbm_refl | discriminate]|]. cbn [fsim].
  destruct (gkind g n).
  - unfold bind, get_val. destruct (val s n); split; try apply pbm_refl; try discriminate. intros o _ m. reflexivity.
  - unfold bind. destruct (opsample_run (fun p => fsim g f p k) (gpar g n) s (fun p s => IH p k s)) as [A B].
    destruct (opsample g (fun p => fsim g f p k) (gpar g n) s) as [s1 [o|e]]; cbn in A, B |- *; [|split; [exact A | discriminate]].
    destruct (op_results g (gop g n) (gpar g n) o k); cbn; (split; [exact A|]); [|discriminate].
    intros o' _. apply (B o eq_refl).
  - unfold bind. pose proof (input_values_fst n s) as Hi.
    destruct (input_values g n s) as [s1 [ins|e]]; cbn in Hi; subst; [|split; [apply pbm_refl | discriminate]].
    cbn. split; [repeat split; cbn; lia|]. intros o _ m. reflexivity.
  - unfold bind. pose proof (input_values_fst n s) as Hi.
    destruct (input_values g n s) as [s1 [ins|e]]; cbn in Hi; subst; [|split; [apply pbm_refl | discriminate]].
    cbn. split; [repeat split; cbn; lia|]. intros o _ m. reflexivity.
Qed.
Lemma fsim_free f n k s : is_free g n = true -> vals_ok g s ->
  fsim g (S f) n k s = (mkst (vis s) (val s) (cpdf s) (S (ctr s)) (tr s), Ok (gsim g n (inputs_at g (val s) n) k (ctr s))).
Proof.
  intros Hf Hok. unfold is_free, is_hyper, is_oper in Hf. cbn [fsim].
  destruct (gkind g n); try discriminate; unfold bind; rewrite (input_values_ok g Hwf s n Hok); reflexivity.
Qed.

(** every run keeps stored values well-dimensioned and never rewinds the generator *)
Definition keeps (s s' : st) : Prop := (vals_ok g s -> vals_ok g s') /\ ctr s <= ctr s'.
Lemma keeps_refl s : keeps s s.
Proof. split; [tauto | lia]. Qed.
Lemma keeps_trans a b c : keeps a b -> keeps b c -> keeps a c.
Proof. intros [A B] [C D]. split; [tauto | lia]. Qed.
Lemma keeps_vis s s' : val s' = val s -> ctr s' = ctr s -> keeps s s'.
Proof. intros Hv Hc. split; [|lia]. intros H m w. rewrite Hv. apply H. Qed.
Lemma sov_keeps n v s : keeps s (fst (set_output_values g n v s)).
Proof.
  unfold set_output_values. destruct (Nat.eqb_spec (length v) (gdim g n)) as [Hl|]; [|apply keeps_refl].
  unfold bind. pose proof (input_values_fst n s) as Hi.
  destruct (input_values g n s) as [s1 [ins|e]]; cbn in Hi; subst; [|apply keeps_refl].
  destruct (gchk_out g n ins v); [|apply keeps_refl]. cbn. split; [|cbn; lia].
  intros H m w. cbn. unfold upd. destruct (Nat.eqb_spec m n) as [->|]; [|apply H].
  intros Hw. inversion Hw. subst. exact Hl.
Qed.
Lemma draw_keeps f n s : keeps s (fst (draw_and_store g f n s)).
Proof.
  unfold draw_and_store. destruct (is_hyper g n); [cbn; apply keeps_vis; reflexivity|].
  unfold bind. pose proof (input_values_fst n s) as Hi.
  destruct (input_values g n s) as [s1 [ins|e]]; cbn in Hi; subst; [|apply keeps_refl].
  destruct (gchk_in g n ins); [|apply keeps_refl].
  pose proof (fsim_run f n 1 s) as [(Hv&_&_&Hc) _].
  destruct (fsim g f n 1 s) as [s1 [[[|v rest]|]|e]]; cbn in Hv, Hc |- *.
  - split; [intros H m w; cbn; rewrite Hv; apply H | exact Hc].
  - apply keeps_trans with (fst (emit n s1)).
    + split; [intros H m w; cbn; rewrite Hv; apply H | exact Hc].
    + pose proof (sov_keeps n v (fst (emit n s1))) as Hk. cbn in Hk.
      destruct (set_output_values g n v _) as [s2 [b|e]]; exact Hk.
  - split; [intros H m w; cbn; rewrite Hv; apply H | exact Hc].
  - split; [intros H m w; cbn; rewrite Hv; apply H | exact Hc].
Qed.
Lemma loop_keeps rec : (forall p s, keeps s (fst (rec p s))) -> forall ps s, keeps s (fst (sample_loop rec ps s)).
Proof.
  intros Hrec. induction ps as [|p ps IH]; intros s; cbn [sample_loop]; [apply keeps_refl|].
  unfold bind, get_vis. destruct (vis s p); [apply IH|]. cbn.
  pose proof (Hrec p (fst (set_vis p true s))) as Hr. cbn in Hr.
  assert (H0 : keeps s (fst (set_vis p true s))) by (apply keeps_vis; reflexivity).
  destruct (rec p _) as [s1 [[|]|e]]; cbn in Hr |- *.
  - apply keeps_trans with s1; [apply keeps_trans with (fst (set_vis p true s)); assumption | apply IH].
  - apply keeps_trans with (fst (set_vis p true s)); assumption.
  - apply keeps_trans with (fst (set_vis p true s)); assumption.
Qed.
Lemma node_keeps f : forall n s, keeps s (fst (sample_node g f n s)).
Proof.
  induction f as [|f IH]; intros n s; [apply keeps_refl|]. cbn [sample_node]. unfold bind.
  pose proof (loop_keeps (sample_node g f) IH (gpar g n) s) as Hl.
  destruct (sample_loop (sample_node g f) (gpar g n) s) as [s1 [[|]|e]]; cbn in Hl |- *; try exact Hl.
  pose proof (draw_keeps (S f) n s1) as Hd.
  destruct (draw_and_store g (S f) n s1) as [s2 [[|]|e]]; cbn in Hd |- *;
    (apply keeps_trans with s1; [exact Hl|]); try exact Hd.
Qed.
Lemma roots_keeps f rs : forall s, keeps s (fst (sample_roots g f rs s)).
Proof.
  induction rs as [|r rs IH]; intros s; cbn [sample_roots]; [apply keeps_refl|]. unfold bind.
  pose proof (loop_keeps (sample_node g f) (node_keeps f) (gpar g r) s) as Hl.
  destruct (sample_loop (sample_node g f) (gpar g r) s) as [s1 [[|]|e]]; cbn in Hl |- *; try exact Hl.
  apply keeps_trans with s1; [exact Hl|].
  apply keeps_trans with (fst (set_vis r true s1)); [apply keeps_vis; reflexivity | apply IH].
Qed.

Section Attempt.
(** values accepted by the simulator are accepted by its own output check *)
Hypothesis Hsim : forall n ins t v rest, is_free g n = true -> gchk_in g n ins = true ->
  gsim g n ins 1 t = Some (v :: rest) -> gchk_out g n ins v = true.
Variables (D : list nat) (s0 : st).
Hypothesis HD : down g D.

Record J (T G : list nat) (s : st) : Prop := {
  J_ok : vals_ok g s;
  J_vis : forall m, In m D -> vis s m = true <-> In m T \/ In m G;
  J_nd : NoDup T;
  J_topo : forall l1 n l2, T = l1 ++ n :: l2 -> forall p, In p (gpar g n) -> In p l1;
  J_tr : tr s = tr s0 ++ T;
  J_ctr : ctr s0 <= ctr s;
  J_draw : exists tau, (forall n, In n T -> is_free g n = true -> drawn g (val s) n (tau n) /\ ctr s0 <= tau n < ctr s)
      /\ (forall n m, In n T -> In m T -> is_free g n = true -> is_free g m = true -> tau n = tau m -> n = m) }.

Lemma topo_parents T : (forall l1 n l2, T = l1 ++ n :: l2 -> forall p, In p (gpar g n) -> In p l1) ->
  forall n p, In n T -> In p (gpar g n) -> In p T.
Proof.
  intros H n p Hn Hp. apply in_split in Hn. destruct Hn as (l1 & l2 & ->).
  apply in_or_app. left. apply (H l1 n l2 eq_refl p Hp).
Qed.
Lemma inputs_upd v n m x : ~ In n (gpar g m) -> inputs_at g (upd v n x) m = inputs_at g v m.
Proof.
  intros H. apply inputs_at_ext. intros p Hp. unfold upd.
  destruct (Nat.eqb_spec p n) as [->|]; [contradiction | reflexivity].
Qed.
Lemma snoc_topo T n : (forall l1 m l2, T = l1 ++ m :: l2 -> forall p, In p (gpar g m) -> In p l1) ->
  (forall p, In p (gpar g n) -> In p T) ->
  forall l1 m l2, T ++ [n] = l1 ++ m :: l2 -> forall p, In p (gpar g m) -> In p l1.
Proof.
  intros HT Hn l1 m l2 Heq p Hp.
  destruct (@exists_last _ (m :: l2)) as (l3 & x & Hl); [discriminate|].
  rewrite Hl, app_assoc in Heq. apply app_inj_tail in Heq. destruct Heq as [HeT ->].
  destruct l3 as [|y l3].
  - rewrite app_nil_r in HeT. subst. cbn in Hl. inversion Hl; subst. apply Hn. exact Hp.
  - cbn in Hl. inversion Hl; subst. apply (HT l1 y l3 eq_refl p Hp).
Qed.

(** the draw of one node *)
Lemma draw_step f n s s' T G : J T G s -> In n D -> In n G -> ~ In n T -> (forall p, In p (gpar g n) -> In p T) ->
  draw_and_store g (S f) n s = (s', Ok true) -> J (T ++ [n]) G (fst (set_vis n true s')).
Proof.
  intros HJ HnD HnG HnT Hpar H. destruct HJ as [Jok Jvis Jnd Jtopo Jtr Jctr (tau & Jd & Jinj)].
  assert (Hnd : NoDup (T ++ [n])).
  { apply NoDup_rev in Jnd. rewrite <- (rev_involutive (T ++ [n])). apply NoDup_rev. rewrite rev_app_distr. cbn.
    constructor; [|exact Jnd]. intros Hin. apply in_rev in Hin. contradiction. }
  assert (Hself : ~ In n (gpar g n)) by (intros Hin; apply (par_lt g Hwf) in Hin; lia).
  assert (Hchild : forall m, In m T -> ~ In n (gpar g m)).
  { intros m Hm Hin. apply HnT. apply (topo_parents T Jtopo m n Hm Hin). }
  assert (Hvis : forall V : nat -> bool, (forall m, V m = vis s m) ->
      forall m, In m D -> upd V n true m = true <-> In m (T ++ [n]) \/ In m G).
  { intros V HV m Hm. unfold upd. rewrite in_app_iff. destruct (Nat.eqb_spec m n) as [->|Hne].
    - split; [intros _; right; exact HnG | reflexivity].
    - rewrite HV, (Jvis m Hm). cbn. split; [tauto|]. intros [[A|[A|[]]]|A]; [tauto | congruence | tauto]. }
  unfold draw_and_store in H. destruct (is_hyper g n) eqn:Hh.
  - cbn in H. inversion H; subst; clear H. cbn.
    assert (Hfn : is_free g n = false) by (unfold is_free; rewrite Hh; reflexivity).
    constructor; cbn [set_vis fst vis val ctr tr].
    + exact Jok.
    + apply Hvis. intros m. unfold upd. destruct (Nat.eqb_spec m n) as [->|]; [|reflexivity].
      symmetry. apply (Jvis n HnD). right. exact HnG.
    + exact Hnd.
    + apply snoc_topo; assumption.
    + rewrite Jtr, app_assoc. reflexivity.
    + exact Jctr.
    + exists tau. split.
      * intros m Hm Hf. apply in_app_or in Hm. destruct Hm as [Hm|[<-|[]]]; [apply Jd; assumption | congruence].
      * intros a b Ha Hb Hfa Hfb. apply in_app_or in Ha, Hb.
        destruct Ha as [Ha|[<-|[]]]; [|congruence]. destruct Hb as [Hb|[<-|[]]]; [|congruence].
        apply Jinj; assumption.
  - apply bind_ok in H. destruct H as (s1 & ins & H1 & H).
    rewrite (input_values_ok g Hwf s n Jok) in H1. inversion H1; subst s1 ins; clear H1.
    destruct (gchk_in g n (inputs_at g (val s) n)) eqn:Hci; [|discriminate].
    apply bind_ok in H. destruct H as (s1 & o & H1 & H).
    pose proof (fsim_run (S f) n 1 s) as [Hp Hpv]. rewrite H1 in Hp, Hpv. cbn in Hp, Hpv.
    destruct Hp as (Pv & _ & Ptr & Pctr). specialize (Hpv o eq_refl). rename Hpv into Pvis.
    destruct o as [[|v rest]|]; [discriminate | | discriminate].
    apply bind_ok in H. destruct H as (s2 & [] & H2 & H). cbn in H2. inversion H2; subst s2; clear H2.
    apply bind_ok in H. destruct H as (s3 & b & H3 & H). cbn in H. inversion H; subst s3; clear H.
    set (s2 := mkst (vis s1) (val s1) (cpdf s1) (ctr s1) (tr s1 ++ [n])) in *.
    assert (Hok2 : vals_ok g s2) by (intros m w; cbn; rewrite Pv; apply Jok).
    assert (Hs' : exists w, val s' = w /\ (forall m, vis s' m = vis s m) /\ ctr s' = ctr s1 /\ tr s' = tr s ++ [n]
               /\ (w = val s \/ w = upd (val s) n (Some v)) /\ (is_free g n = true -> w = upd (val s) n (Some v))).
    { unfold set_output_values in H3. destruct (length v =? gdim g n); [|discriminate].
      apply bind_ok in H3. destruct H3 as (s3 & ins & H3 & H4).
      rewrite (input_values_ok g Hwf s2 n Hok2) in H3. inversion H3; subst s3 ins; clear H3.
      cbn [val s2] in H4. rewrite Pv in H4.
      destruct (gchk_out g n (inputs_at g (val s) n) v) eqn:Hco.
      - cbn in H4. inversion H4; subst; clear H4. cbn. eexists. split; [reflexivity|].
        split; [exact Pvis|]. split; [reflexivity|]. split; [rewrite Ptr; reflexivity|]. rewrite Pv. tauto.
      - inversion H4; subst; clear H4. exists (val s). cbn. split; [exact Pv|].
        split; [exact Pvis|]. split; [reflexivity|]. split; [rewrite Ptr; reflexivity|]. split; [tauto|].
        intros Hf. exfalso. rewrite (fsim_free f n 1 s Hf Jok) in H1. inversion H1 as [[Hx Hg]].
        rewrite (Hsim n _ _ v rest Hf Hci Hg) in Hco. discriminate. }
    assert (Hok' : vals_ok g s').
    { pose proof (sov_keeps n v s2) as [Hk _]. rewrite H3 in Hk. apply Hk. exact Hok2. }
    destruct Hs' as (w & Hw & Svis & Sctr & Str & Hcase & Hfree).
    constructor; cbn [set_vis fst vis val ctr tr].
    + intros m x. cbn. apply Hok'.
    + apply Hvis. intros m. rewrite Svis. reflexivity.
    + exact Hnd.
    + apply snoc_topo; assumption.
    + rewrite Str, Jtr, app_assoc. reflexivity.
    + lia.
    + assert (Hold : forall m t, In m T -> drawn g (val s) m t -> drawn g (val s') m t).
      { intros m t Hm (x & rs & A & B & C). rewrite Hw. destruct Hcase as [->| ->]; [exists x, rs; auto|].
        exists x, rs. rewrite (inputs_upd (val s) n m (Some v) (Hchild m Hm)). split; [exact A|]. split; [|exact C].
        unfold upd. destruct (Nat.eqb_spec m n) as [->|]; [contradiction | exact B]. }
      destruct (is_free g n) eqn:Hf.
      * exists (upd tau n (ctr s)). specialize (Hfree eq_refl).
        rewrite (fsim_free f n 1 s Hf Jok) in H1. inversion H1 as [[Hs1 Hg]].
        assert (Hc1 : ctr s1 = S (ctr s)) by (rewrite <- Hs1; reflexivity).
        assert (Hlt : forall m, In m T -> is_free g m = true -> upd tau n (ctr s) m < ctr s).
        { intros m Hm Hfm. unfold upd. destruct (Nat.eqb_spec m n) as [->|]; [contradiction|].
          apply (Jd m Hm Hfm). }
        split.
        -- intros m Hm Hfm. apply in_app_or in Hm. destruct Hm as [Hm|[<-|[]]].
           ++ pose proof (Hlt m Hm Hfm) as Hl. unfold upd in Hl |- *.
              destruct (Nat.eqb_spec m n) as [->|]; [contradiction|].
              destruct (Jd m Hm Hfm) as [A B]. split; [apply Hold; assumption | lia].
           ++ unfold upd at 1 2 3. rewrite Nat.eqb_refl. split; [|lia].
              rewrite Hw, Hfree. exists v, rest. rewrite (inputs_upd (val s) n n (Some v) Hself).
              split; [exact Hg|]. split; [|exact Hci]. unfold upd. rewrite Nat.eqb_refl. reflexivity.
        -- clear b H3. intros a b Ha Hb Hfa Hfb Heq. apply in_app_or in Ha, Hb.
           assert (Hun : upd tau n (ctr s) n = ctr s) by (unfold upd; rewrite Nat.eqb_refl; reflexivity).
           destruct Ha as [Ha|[<-|[]]], Hb as [Hb|[<-|[]]].
           ++ unfold upd in Heq. destruct (Nat.eqb_spec a n) as [->|]; [contradiction|].
              destruct (Nat.eqb_spec b n) as [->|]; [contradiction|]. apply Jinj; assumption.
           ++ specialize (Hlt a Ha Hfa). rewrite Hun in Heq. lia.
           ++ specialize (Hlt b Hb Hfb). rewrite Hun in Heq. lia.
           ++ reflexivity.
      * exists tau. split.
        -- intros m Hm Hfm. apply in_app_or in Hm. destruct Hm as [Hm|[<-|[]]]; [|congruence].
           destruct (Jd m Hm Hfm) as [A B]. split; [apply Hold; assumption | lia].
        -- clear b H3. intros a b Ha Hb Hfa Hfb. apply in_app_or in Ha, Hb.
           destruct Ha as [Ha|[<-|[]]]; [|congruence]. destruct Hb as [Hb|[<-|[]]]; [|congruence].
           apply Jinj; assumption.
Qed.

Definition extends (T T' : list nat) (l : list nat) : Prop :=
  exists L, T' = T ++ L /\ incl L l.
Lemma J_ext T G G' s : (forall m, In m D -> (In m T \/ In m G) <-> (In m T \/ In m G')) -> J T G s -> J T G' s.
Proof.
  intros H [A B C F I K L]. constructor; try assumption. intros m Hm. rewrite (B m Hm). apply H. exact Hm.
Qed.
Lemma sample_loop_ok f :
  (forall n s s' T G, n < f -> In n D -> In n G -> ~ In n T ->
     (forall m, In m G -> ~ In m (flat_map (E g) (gpar g n))) -> J T G s ->
     sample_node g f n s = (s', Ok true) -> exists T', extends T T' (E g n) /\ In n T' /\ J T' G s') ->
  forall ps s s' T G, (forall p, In p ps -> p < f) -> incl ps D ->
    (forall m, In m G -> ~ In m (flat_map (E g) ps)) -> J T G s ->
    sample_loop (sample_node g f) ps s = (s', Ok true) ->
    exists T', extends T T' (flat_map (E g) ps) /\ incl ps T' /\ J T' G s'.
Proof.
  intros Hnode. induction ps as [|p ps IH]; intros s s' T G Hlt HpsD HG HJ H.
  - inversion H; subst. exists T. split; [|split; [intros x []|exact HJ]]. exists []. rewrite app_nil_r. split; [reflexivity | intros x []].
  - cbn [sample_loop] in H. unfold bind at 1, get_vis in H.
    assert (HpD : In p D) by (apply HpsD; left; reflexivity).
    assert (HpG : ~ In p G) by (intros Hin; apply (HG p Hin); apply (In_hd g Hwf)).
    assert (Hrec : forall T1 s1, extends T T1 (E g p) -> In p T1 -> J T1 G s1 ->
               sample_loop (sample_node g f) ps s1 = (s', Ok true) ->
               exists T', extends T T' (flat_map (E g) (p :: ps)) /\ incl (p :: ps) T' /\ J T' G s').
    { intros T1 s1 (L1 & -> & HL1) Hp1 HJ1 H1.
      destruct (IH s1 s' (T ++ L1) G) as (T' & (L2 & -> & HL2) & Hincl & HJ').
      - intros q Hq. apply Hlt. right. exact Hq.
      - intros q Hq. apply HpsD. right. exact Hq.
      - intros m Hm Hin. apply (HG m Hm). cbn [flat_map]. apply in_or_app. right. exact Hin.
      - exact HJ1.
      - exact H1.
      - exists ((T ++ L1) ++ L2). split; [|split; [|exact HJ']].
        + exists (L1 ++ L2). split; [rewrite app_assoc; reflexivity|]. cbn [flat_map].
          apply incl_app; [apply incl_appl; exact HL1 | apply incl_appr; exact HL2].
        + intros q [<-|Hq]; [apply in_or_app; left; exact Hp1 | apply Hincl; exact Hq]. }
    destruct (vis s p) eqn:Hv.
    + apply (J_vis T G s HJ p HpD) in Hv. destruct Hv as [Hv|Hv]; [|contradiction].
      apply (Hrec T s); try assumption. exists []. rewrite app_nil_r. split; [reflexivity | intros x []].
    + assert (HpT : ~ In p T).
      { intros Hin. assert (vis s p = true) by (apply (J_vis T G s HJ p HpD); left; exact Hin). congruence. }
      apply bind_ok in H. destruct H as (s1 & [] & H1 & H). cbn in H1. inversion H1; subst s1; clear H1.
      apply bind_ok in H. destruct H as (s2 & b & H2 & H). destruct b; [|discriminate].
      match type of H2 with sample_node _ _ _ ?x = _ => set (s1 := x) in * end.
      assert (HJ1 : J T (p :: G) s1).
      { destruct HJ as [A B C F I K L]. constructor; try assumption. intros m Hm. unfold s1. cbn. unfold upd.
        destruct (Nat.eqb_spec m p) as [->|Hne]; [tauto|]. rewrite (B m Hm). split; [tauto|].
        intros [?|[?|?]]; [tauto | congruence | tauto]. }
      destruct (Hnode p s1 s2 T (p :: G)) as (T1 & Hext & Hin & HJ2).
      * apply Hlt. left. reflexivity.
      * exact HpD.
      * left. reflexivity.
      * exact HpT.
      * intros m [<-|Hm]; [apply (not_below g Hwf)|]. intros Hx. apply (HG m Hm). cbn [flat_map].
        apply in_or_app. left. apply (incl_EE_par g Hwf). exact Hx.
      * exact HJ1.
      * exact H2.
      * apply (Hrec T1 s2 Hext Hin); [|exact H].
        apply J_ext with (p :: G); [|exact HJ2]. intros m _. cbn. split; [|tauto]. intros [?|[<-|?]]; tauto.
Qed.
Lemma sample_node_ok f :
  forall n s s' T G, n < f -> In n D -> In n G -> ~ In n T ->
     (forall m, In m G -> ~ In m (flat_map (E g) (gpar g n))) -> J T G s ->
     sample_node g f n s = (s', Ok true) -> exists T', extends T T' (E g n) /\ In n T' /\ J T' G s'.
Proof.
  induction f as [|f IHf]; intros n s s' T G Hn HnD HnG HnT HG HJ H; [lia|].
  cbn [sample_node] in H. apply bind_ok in H. destruct H as (s1 & b & H1 & H). destruct b; [|discriminate].
  destruct (sample_loop_ok f IHf (gpar g n) s s1 T G) as (T1 & (L & -> & HL) & Hincl & HJ1); try assumption.
  { intros p Hp. apply (par_lt g Hwf) in Hp. lia. }
  { intros p Hp. apply (HD n p HnD Hp). }
  apply bind_ok in H. destruct H as (s2 & b & H2 & H). destruct b; [|discriminate].
  exists ((T ++ L) ++ [n]). split; [|split].
  - exists (L ++ [n]). split; [rewrite app_assoc; reflexivity|].
    apply incl_app; [intros m Hm; apply (incl_EE_par g Hwf); apply HL; exact Hm|].
    intros m [<-|[]]. apply (E_self g Hwf).
  - apply in_or_app. right. left. reflexivity.
  - cbn in H. inversion H; subst s'; clear H.
    apply (draw_step f n s1 s2 (T ++ L) G HJ1 HnD HnG); [|exact Hincl | exact H2].
    intros Hin. apply in_app_or in Hin. destruct Hin as [Hin|Hin]; [contradiction|].
    apply HL in Hin. apply (not_below g Hwf n Hin).
Qed.
Lemma sample_roots_ok f : forall rs s s' T G, (forall r, In r rs -> r < S f) -> incl rs D -> rootsep g rs ->
  (forall m, In m G -> ~ In m (flat_map (E g) (flat_map (gpar g) rs))) -> J T G s ->
  sample_roots g f rs s = (s', Ok true) ->
  exists T' G', extends T T' (flat_map (E g) (flat_map (gpar g) rs)) /\ incl (flat_map (gpar g) rs) T' /\ J T' G' s'.
Proof.
  induction rs as [|r rs IH]; intros s s' T G Hlt HrD Hsep HG HJ H.
  - inversion H; subst. exists T, G. split; [|split; [intros x []|exact HJ]].
    exists []. rewrite app_nil_r. split; [reflexivity | intros x []].
  - cbn [sample_roots] in H. apply bind_ok in H. destruct H as (s1 & b & H1 & H). destruct b; [|discriminate].
    destruct (rootsep_cons g _ _ Hsep) as [Hr Hsep'].
    assert (HrDD : In r D) by (apply HrD; left; reflexivity).
    destruct (sample_loop_ok f (sample_node_ok f) (gpar g r) s s1 T G) as (T1 & (L & -> & HL) & Hincl & HJ1); try assumption.
    { intros p Hp. apply (par_lt g Hwf) in Hp. specialize (Hlt r (or_introl eq_refl)). lia. }
    { intros p Hp. apply (HD r p HrDD Hp). }
    { intros m Hm Hin. apply (HG m Hm). cbn [flat_map]. rewrite flat_map_app. apply in_or_app. left. exact Hin. }
    apply bind_ok in H. destruct H as (s2 & [] & H2 & H). cbn in H2. inversion H2; subst s2; clear H2.
    match type of H with sample_roots _ _ _ ?x = _ => set (s2 := x) in * end.
    destruct (IH s2 s' (T ++ L) (r :: G)) as (T' & G' & (L2 & -> & HL2) & Hincl2 & HJ2).
    + intros q Hq. apply Hlt. right. exact Hq.
    + intros q Hq. apply HrD. right. exact Hq.
    + exact Hsep'.
    + intros m [<-|Hm]; [exact Hr|]. intros Hin. apply (HG m Hm). cbn [flat_map]. rewrite flat_map_app.
      apply in_or_app. right. exact Hin.
    + destruct HJ1 as [A B C F I K M']. constructor; try assumption. intros m Hm. unfold s2. cbn. unfold upd.
      destruct (Nat.eqb_spec m r) as [->|Hne]; [tauto|]. rewrite (B m Hm). split; [tauto|].
      intros [?|[?|?]]; [tauto | congruence | tauto].
    + exact H.
    + exists ((T ++ L) ++ L2), G'. split; [|split; [|exact HJ2]].
      * exists (L ++ L2). split; [rewrite app_assoc; reflexivity|]. cbn [flat_map]. rewrite flat_map_app.
        apply incl_app; [apply incl_appl; exact HL | apply incl_appr; exact HL2].
      * cbn [flat_map]. apply incl_app; [|exact Hincl2]. intros p Hp. apply in_or_app. left. apply Hincl. exact Hp.
Qed.
End Attempt.

Lemma sample_from_prior_spec roots tries : 
  (forall n ins t v rest, is_free g n = true -> gchk_in g n ins = true ->
     gsim g n ins 1 t = Some (v :: rest) -> gchk_out g n ins v = true) ->
  indep g roots -> forall s s', clean g roots s -> vals_ok g s ->
  sample_from_prior g roots tries s = (s', Ok tt) ->
  clean g roots s' /\ vals_ok g s' /\
  exists tr0 T c0 tau, tr s' = tr0 ++ T /\ ctr s <= c0 /\ NoDup T
    /\ (forall n, In n T <-> exists r, In r roots /\ Anc g n r)
    /\ (forall l1 n l2, T = l1 ++ n :: l2 -> forall p, In p (gpar g n) -> In p l1)
    /\ (forall n, In n T -> is_free g n = true -> drawn g (val s') n (tau n) /\ c0 <= tau n < ctr s')
    /\ (forall n m, In n T -> In m T -> is_free g n = true -> is_free g m = true -> tau n = tau m -> n = m).
Proof.
  intros Hsim Hi. induction tries as [|t IH]; intros s s' Hcl Hok H; [discriminate|].
  cbn [sample_from_prior] in H. apply bind_ok in H. destruct H as (s1 & b & H1 & H).
  apply bind_ok in H. destruct H as (s2 & [] & H2 & H).
  destruct (reset_flags_spec g Hwf roots s1) as (s2' & Hr & Hcd). rewrite H2 in Hr. inversion Hr; subst s2'; clear Hr.
  destruct (cleared_tidy g Hwf roots s1 s1 s2 eq_refl eq_refl Hcd) as [(Tcl & _ & Tc & Tt) Tv].
  pose proof (roots_keeps (depth roots) roots s) as [Kok Kc]. rewrite H1 in Kok, Kc. cbn in Kok, Kc.
  assert (Hok2 : vals_ok g s2) by (intros m w; rewrite Tv; apply (Kok Hok)).
  destruct b.
  - inversion H; subst s'; clear H. split; [exact Tcl|]. split; [exact Hok2|].
    destruct (sample_roots_ok Hsim (flat_map (E g) roots) s (down_EE g Hwf roots) (depth roots) roots s s1 [] [])
      as (T & G & (L & HT & HL) & Hincl & HJ).
    + intros r Hr. apply depth_lt in Hr. lia.
    + intros r Hr. apply in_flat_map. exists r. split; [exact Hr | apply (E_self g Hwf)].
    + apply (indep_rootsep g Hwf). exact Hi.
    + intros m [].
    + constructor.
      * exact Hok.
      * intros m Hm. rewrite (clean_E g Hwf roots s m Hcl Hm). split; [discriminate | intros [[]|[]]].
      * constructor.
      * intros l1 n l2 Heq. destruct l1; discriminate.
      * rewrite app_nil_r. reflexivity.
      * lia.
      * exists (fun _ => 0). split; intros n; [intros [] | intros m []].
    + exact H1.
    + cbn in HT. subst L. destruct HJ as [A B C F I K (tau & K1 & K2)].
      exists (tr s), T, (ctr s), tau. split; [rewrite Tt; exact I|]. split; [lia|]. split; [exact C|]. split.
      { intros n. split.
        - intros Hn. apply HL in Hn. rewrite flat_map_flat_map in Hn. apply in_flat_map in Hn.
          destruct Hn as [r [Hr Hn]]. exists r. split; [exact Hr | apply (Anc_below g Hwf); exact Hn].
        - intros [r [Hr Ha]].
          assert (Hstep : forall a m, Anc g a m -> (forall p, In p (gpar g m) -> In p T) -> In a T).
          { clear - F. induction 1 as [a m Hp|a p m Hp Ha IHa]; intros Hm; [apply Hm; exact Hp|].
            apply IHa. intros q Hq. apply (topo_parents T F p q (Hm p Hp) Hq). }
          apply (Hstep n r Ha). intros p Hp. apply Hincl. apply in_flat_map. exists r. split; assumption. }
      split; [exact F|]. split; [|exact K2].
      intros n Hn Hf. destruct (K1 n Hn Hf) as [(x & rest & X & Y & Z) K3]. split; [|lia].
      exists x, rest. rewrite Tv. auto.
  - destruct (IH s2 s' Tcl Hok2 H) as (R1 & R2 & tr0 & T & c0 & tau & Q1 & Q2 & Q3).
    split; [exact R1|]. split; [exact R2|]. exists tr0, T, c0, tau. split; [exact Q1|]. split; [lia | exact Q3].
Qed.

(** * Every operation that returns leaves the graph clean *)
Lemma reset_clean roots s s' : reset_flags g roots s = (s', Ok tt) -> clean g roots s'.
Proof.
  intros H. destruct (reset_flags_spec g Hwf roots s) as (s2 & Hr & Hcd). rewrite H in Hr. inversion Hr; subst.
  apply (cleared_tidy g Hwf roots s s s2 eq_refl eq_refl Hcd).
Qed.
Lemma sample_clean roots tries : forall s s', sample_from_prior g roots tries s = (s', Ok tt) -> clean g roots s'.
Proof.
  induction tries as [|t IH]; intros s s' H; [discriminate|]. cbn [sample_from_prior] in H.
  apply bind_ok in H. destruct H as (s1 & b & H1 & H). apply bind_ok in H. destruct H as (s2 & [] & H2 & H).
  destruct b; [|apply (IH _ _ H)]. inversion H; subst. apply reset_clean in H2. exact H2.
Qed.
Lemma bind_reset_clean {A B} roots (m : M st A) (f : A -> B) s s' b :
  (r <- m ;; reset_flags g roots ;;; ret (f r)) s = (s', Ok b) -> clean g roots s'.
Proof.
  intros H. apply bind_ok in H. destruct H as (s1 & a & H1 & H). apply bind_ok in H. destruct H as (s2 & [] & H2 & H).
  inversion H; subst. apply reset_clean in H2. exact H2.
Qed.
Lemma forM_vis {A B} (f : A -> M st B) l : (forall a s, vis (fst (f a s)) = vis s) ->
  forall s, vis (fst (forM f l s)) = vis s.
Proof.
  intros Hf. induction l as [|a l IH]; intros s; [reflexivity|]. cbn [forM]. unfold bind.
  pose proof (Hf a s) as Ha. destruct (f a s) as [s1 [b|e]]; [|exact Ha]. cbn in Ha.
  pose proof (IH s1) as Hl. destruct (forM f l s1) as [s2 [bs|e]]; cbn in Hl |- *; congruence.
Qed.
Lemma pdf_vis mp params f : forall n s, vis (fst (pdf_node g mp params f n s)) = vis s.
Proof.
  induction f as [|f IH]; intros n s; [reflexivity|]. cbn [pdf_node]. unfold bind.
  assert (Hr : forall s0 : st, fst ((if is_oper g n then ret [] else lift (relevant mp params n)) s0) = s0).
  { intros s1. destruct (is_oper g n); [reflexivity|]. unfold lift. destruct (relevant mp params n); reflexivity. }
  pose proof (Hr s) as Hrs. destruct ((if is_oper g n then ret [] else lift (relevant mp params n)) s) as [s1 [rl|e]];
    cbn in Hrs; subst; [|reflexivity].
  pose proof (forM_vis (pdf_node g mp params f) (gpar g n) IH s) as Hl.
  destruct (forM (pdf_node g mp params f) (gpar g n) s) as [s1 [qs|e]]; cbn in Hl; [|exact Hl].
  unfold get_cpdf. destruct (cpdf s1 n); [exact Hl|].
  destruct (gkind g n); try exact Hl.
  - pose proof (input_values_fst n s1) as Hi. destruct (input_values g n s1) as [s2 [ins|e]]; cbn in Hi |- *; congruence.
  - pose proof (input_values_fst n s1) as Hi. destruct (input_values g n s1) as [s2 [ins|e]]; cbn in Hi |- *; congruence.
Qed.
Lemma pdf_clean roots params s s' q : pdf_of_prior g roots params s = (s', Ok q) -> clean g roots s'.
Proof.
  intros H. unfold pdf_of_prior in H.
  apply bind_ok in H. destruct H as (s1 & r & H1 & H).
  apply bind_ok in H. destruct H as (s2 & mp & H2 & H).
  apply bind_ok in H. destruct H as (s3 & rs & H3 & H). inversion H; subst.
  assert (Hc : clean g roots s2) by (eapply (bind_reset_clean roots _ (fun x => x)); exact H2).
  pose proof (forM_vis (pdf_root g (fst mp) params (depth roots)) roots) as Hv.
  assert (Hroot : forall a s, vis (fst (pdf_root g (fst mp) params (depth roots) a s)) = vis s).
  { intros a s0. unfold pdf_root, bind. pose proof (forM_vis (pdf_node g (fst mp) params (depth roots)) (gpar g a)
      (pdf_vis (fst mp) params (depth roots)) s0) as Hl.
    destruct (forM _ (gpar g a) s0) as [s4 [qs|e]]; exact Hl. }
  specialize (Hv Hroot s2). rewrite H3 in Hv. cbn in Hv.
  intros r0 n Hr Hn. rewrite Hv. apply (Hc r0 n Hr Hn).
Qed.
Lemma run_op_clean roots o s s' : indep g roots -> (forall r, In r roots -> is_hyper g r = false) ->
  clean g roots s -> run_op g roots o s = Some s' -> clean g roots s'.
Proof.
  intros Hi Hh Hcl H.
  assert (Hout : forall A (x : st * res A), outcome x = Some s' -> exists a, x = (s', Ok a)).
  { intros A [s1 [a|e]] Hx; inversion Hx; subst. exists a. reflexivity. }
  destruct o; cbn [run_op] in H; apply Hout in H; destruct H as [a H].
  - destruct a. apply (sample_clean roots tries s s' H).
  - eapply (bind_reset_clean roots _ (@concat _)). exact H.
  - eapply (bind_reset_clean roots _ (fun x => x)). exact H.
  - eapply (bind_reset_clean roots _ (@concat _)). exact H.
  - eapply (bind_reset_clean roots _ (fun x => x)). exact H.
  - destruct (apm_get_mapping_spec g Hwf roots s Hi Hh Hcl) as (s2 & H2 & Hc & _).
    rewrite H in H2. inversion H2; subst. exact Hc.
  - apply (pdf_clean roots params s s' a). exact H.
Qed.
Lemma run_ops_clean roots os : indep g roots -> (forall r, In r roots -> is_hyper g r = false) ->
  forall s s', clean g roots s -> run_ops g roots os s = Some s' -> clean g roots s'.
Proof.
  intros Hi Hh. induction os as [|o os IH]; intros s s' Hcl H; cbn [run_ops] in H.
  - inversion H; subst. exact Hcl.
  - destruct (run_op g roots o s) as [s1|] eqn:H1; [|discriminate].
    apply (IH s1 s'); [|exact H]. apply (run_op_clean roots o s s1); assumption.
Qed.
End WF.
