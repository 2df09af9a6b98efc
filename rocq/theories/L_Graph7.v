(** Prior sampling with arithmetic nodes: each node is drawn from its own stretch of generator states. *)
From Verif Require Import M_Base M_Graph S_Graph L_Graph L_Graph2 L_Graph3 L_Ops S_Fresh L_Graph6.

Section WF.
Variable g : graph.
Hypothesis Hwf : wf g.
Hypothesis Hbin : binary g.
Hypothesis Hop : forall n ins v, gkind g n = Oper -> gchk_out g n ins v = true.

Section Attempt.
Hypothesis Hsim : forall n ins t v rest, is_free g n = true -> gchk_in g n ins = true ->
  gsim g n ins 1 t = Some (v :: rest) -> gchk_out g n ins v = true.
Variables (D : list nat) (s0 : st).
Hypothesis HD : down g D.

Definition stored (v : nat -> option (list Q)) (n t u : nat) : Prop :=
  exists x rest, Fresh g v 1 n t u (x :: rest) /\ v n = Some x /\ gchk_in g n (inputs_at g v n) = true.
Record JF (T G : list nat) (s : st) : Prop := {
  JF_ok : vals_ok g s;
  JF_vis : forall m, In m D -> vis s m = true <-> In m T \/ In m G;
  JF_nd : NoDup T;
  JF_topo : forall l1 n l2, T = l1 ++ n :: l2 -> forall p, In p (gpar g n) -> In p l1;
  JF_tr : tr s = tr s0 ++ T;
  JF_ctr : ctr s0 <= ctr s;
  JF_draw : exists lo hi, (forall n, In n T -> is_hyper g n = false -> stored (val s) n (lo n) (hi n))
      /\ (forall n, In n T -> ctr s0 <= lo n /\ lo n <= hi n /\ hi n <= ctr s)
      /\ (forall l1 n l2 m, T = l1 ++ n :: l2 -> In m l1 -> hi m <= lo n) }.

Lemma anc_in T : (forall l1 n l2, T = l1 ++ n :: l2 -> forall p, In p (gpar g n) -> In p l1) ->
  forall p m, Anc g p m -> In m T -> In p T.
Proof.
  intros HT p m Ha. induction Ha as [a m Hp|a q m Hq Ha IH]; intros Hm.
  - apply (topo_parents g T HT m a Hm Hp).
  - apply IH. apply (topo_parents g T HT m q Hm Hq).
Qed.
Lemma snoc_sep (lo hi : nat -> nat) T n t u :
  ~ In n T -> (forall m, In m T -> hi m <= t) ->
  (forall l1 m l2 a, T = l1 ++ m :: l2 -> In a l1 -> hi a <= lo m) ->
  forall l1 m l2 a, T ++ [n] = l1 ++ m :: l2 -> In a l1 -> upd hi n u a <= upd lo n t m.
Proof.
  intros HnT Hle HT l1 m l2 a Heq Ha.
  destruct (@exists_last _ (m :: l2)) as (l3 & x & Hl); [discriminate|].
  rewrite Hl, app_assoc in Heq. apply app_inj_tail in Heq. destruct Heq as [HeT Hx].
  assert (HaT : In a T) by (rewrite HeT; apply in_or_app; left; exact Ha).
  unfold upd. destruct (Nat.eqb_spec a n) as [->|_]; [contradiction|].
  destruct l3 as [|y l3].
  - cbn in Hl. inversion Hl; subst m l2. subst x. rewrite Nat.eqb_refl. apply Hle. exact HaT.
  - cbn in Hl. inversion Hl; subst y l2.
    destruct (Nat.eqb_spec m n) as [->|_].
    + exfalso. apply HnT. rewrite HeT. apply in_or_app. right. left. reflexivity.
    + apply (HT l1 m l3 a HeT Ha).
Qed.

Lemma draw_step f n s s' T G : JF T G s -> In n D -> In n G -> ~ In n T -> (forall p, In p (gpar g n) -> In p T) ->
  draw_and_store g (S f) n s = (s', Ok true) -> JF (T ++ [n]) G (fst (set_vis n true s')).
Proof.
  intros HJ HnD HnG HnT Hpar H. destruct HJ as [Jok Jvis Jnd Jtopo Jtr Jctr (lo & hi & Jd & Jb & Jsep)].
  assert (Hnd : NoDup (T ++ [n])).
  { apply NoDup_rev in Jnd. rewrite <- (rev_involutive (T ++ [n])). apply NoDup_rev. rewrite rev_app_distr. cbn.
    constructor; [|exact Jnd]. intros Hin. apply in_rev in Hin. contradiction. }
  assert (Hself : ~ In n (gpar g n)) by (intros Hin; apply (par_lt g Hwf) in Hin; lia).
  assert (Hvis : forall V : nat -> bool, (forall m, V m = vis s m) ->
      forall m, In m D -> upd V n true m = true <-> In m (T ++ [n]) \/ In m G).
  { intros V HV m Hm. unfold upd. rewrite in_app_iff. destruct (Nat.eqb_spec m n) as [->|Hne].
    - split; [intros _; right; exact HnG | reflexivity].
    - rewrite HV, (Jvis m Hm). cbn. split; [tauto|]. intros [[A|[A|[]]]|A]; [tauto | congruence | tauto]. }
  assert (Hnew : forall t u c, ctr s <= t -> t <= u -> u <= c ->
     (forall m, In m (T ++ [n]) -> ctr s0 <= upd lo n t m /\ upd lo n t m <= upd hi n u m /\ upd hi n u m <= c)
     /\ (forall l1 m l2 a, T ++ [n] = l1 ++ m :: l2 -> In a l1 -> upd hi n u a <= upd lo n t m)).
  { intros t u c H1 H2 H3. split.
    - intros m Hm. apply in_app_or in Hm. unfold upd. destruct Hm as [Hm|[<-|[]]].
      + destruct (Nat.eqb_spec m n) as [->|]; [contradiction|]. destruct (Jb m Hm) as (A & B & C). lia.
      + rewrite Nat.eqb_refl. lia.
    - apply snoc_sep; [exact HnT| |exact Jsep]. intros m Hm. destruct (Jb m Hm) as (A & B & C). lia. }
  unfold draw_and_store in H. destruct (is_hyper g n) eqn:Hh.
  - cbn in H. inversion H; subst; clear H. cbn.
    constructor; cbn [set_vis fst vis val ctr tr].
    + exact Jok.
    + apply Hvis. intros m. unfold upd. destruct (Nat.eqb_spec m n) as [->|]; [|reflexivity].
      symmetry. apply (Jvis n HnD). right. exact HnG.
    + exact Hnd.
    + apply snoc_topo; assumption.
    + rewrite Jtr, app_assoc. reflexivity.
    + exact Jctr.
    + exists (upd lo n (ctr s)), (upd hi n (ctr s)).
      destruct (Hnew (ctr s) (ctr s) (ctr s)) as [N1 N2]; try lia. split; [|split; assumption].
      intros m Hm Hf. apply in_app_or in Hm. destruct Hm as [Hm|[<-|[]]]; [|congruence].
      unfold upd. destruct (Nat.eqb_spec m n) as [->|]; [contradiction|]. apply Jd; assumption.
  - apply bind_ok in H. destruct H as (s1 & ins & H1 & H).
    rewrite (input_values_ok g Hwf s n Jok) in H1. inversion H1; subst s1 ins; clear H1.
    destruct (gchk_in g n (inputs_at g (val s) n)) eqn:Hci; [|discriminate].
    apply bind_ok in H. destruct H as (s1 & o & H1 & H).
    pose proof (fsim_run g (S f) n 1 s) as [Hp _]. rewrite H1 in Hp. cbn in Hp.
    destruct Hp as (_ & _ & Ptr & Pctr).
    destruct o as [[|v rest]|]; [discriminate | | discriminate].
    destruct (fsim_fresh g Hwf Hbin (S f) n 1 s s1 (v :: rest) (le_n 1) Jok H1) as (Pvis & Pv & HF).
    apply bind_ok in H. destruct H as (s2 & [] & H2 & H). cbn in H2. inversion H2; subst s2; clear H2.
    apply bind_ok in H. destruct H as (s3 & b & H3 & H). cbn in H. inversion H; subst s3; clear H.
    set (s2 := mkst (vis s1) (val s1) (cpdf s1) (ctr s1) (tr s1 ++ [n])) in *.
    assert (Hok2 : vals_ok g s2) by (intros m w; cbn; rewrite Pv; apply Jok).
    assert (Hco : gchk_out g n (inputs_at g (val s) n) v = true).
    { destruct (is_free g n) eqn:Hf.
      - inversion HF as [? ? ? Hk ?|? ? ? Hf' Hg|? ? ? ? ? Hk|? ? ? ? ? ? ? ? Hk]; subst;
          try (unfold is_free, is_hyper, is_oper in Hf; rewrite Hk in Hf; discriminate).
        apply (Hsim n _ (ctr s) v rest Hf Hci Hg).
      - apply Hop. unfold is_free in Hf. rewrite Hh in Hf. unfold is_oper in Hf. destruct (gkind g n); try discriminate; reflexivity. }
    assert (Hs' : (forall m, vis s' m = vis s m) /\ ctr s' = ctr s1 /\ tr s' = tr s ++ [n] /\ val s' = upd (val s) n (Some v)).
    { unfold set_output_values in H3. destruct (length v =? gdim g n); [|discriminate].
      apply bind_ok in H3. destruct H3 as (s3 & ins & H3 & H4).
      rewrite (input_values_ok g Hwf s2 n Hok2) in H3. inversion H3; subst s3 ins; clear H3.
      cbn [val s2] in H4. rewrite Pv, Hco in H4.
      cbn in H4. inversion H4; subst; clear H4. cbn.
      split; [exact Pvis|]. split; [reflexivity|]. split; [rewrite Ptr; reflexivity|]. rewrite Pv. reflexivity. }
    assert (Hok' : vals_ok g s').
    { pose proof (sov_keeps g n v s2) as [Hk _]. rewrite H3 in Hk. apply Hk. exact Hok2. }
    destruct Hs' as (Svis & Sctr & Str & Hw).
    constructor; cbn [set_vis fst vis val ctr tr].
    + intros m x. cbn. apply Hok'.
    + apply Hvis. intros m. rewrite Svis. reflexivity.
    + exact Hnd.
    + apply snoc_topo; assumption.
    + rewrite Str, Jtr, app_assoc. reflexivity.
    + lia.
    + exists (upd lo n (ctr s)), (upd hi n (ctr s1)).
      destruct (Hnew (ctr s) (ctr s1) (ctr s')) as [N1 N2]; try lia. split; [|split; assumption].
      intros m Hm Hf. apply in_app_or in Hm. rewrite Hw. destruct Hm as [Hm|[<-|[]]].
      * assert (Hne : m <> n) by (intros ->; contradiction).
        destruct (Jd m Hm Hf) as (x & rs & A & B & C). unfold upd at 2 3. destruct (Nat.eqb_spec m n) as [|_]; [contradiction|].
        exists x, rs. split; [|split].
        -- apply fresh_ext with (val s); [exact A| |].
           ++ intros p Hp. unfold upd. destruct (Nat.eqb_spec p n) as [->|]; [|reflexivity].
              exfalso. apply HnT. apply (anc_in T Jtopo n m Hp Hm).
           ++ intros Hx. congruence.
        -- unfold upd. destruct (Nat.eqb_spec m n); [contradiction | exact B].
        -- rewrite inputs_upd; [exact C|]. intros Hin. apply HnT. apply (topo_parents g T Jtopo m n Hm Hin).
      * unfold upd at 2 3. rewrite Nat.eqb_refl. exists v, rest. split; [|split].
        -- apply fresh_ext with (val s); [exact HF| |].
           ++ intros p Hp. unfold upd. destruct (Nat.eqb_spec p n) as [->|]; [|reflexivity].
              exfalso. apply (Anc_lt g Hwf) in Hp. lia.
           ++ intros Hx. congruence.
        -- unfold upd. rewrite Nat.eqb_refl. reflexivity.
        -- rewrite inputs_upd by exact Hself. exact Hci.
Qed.

Lemma JF_ext T G G' s : (forall m, In m D -> (In m T \/ In m G) <-> (In m T \/ In m G')) -> JF T G s -> JF T G' s.
Proof.
  intros H [A B C F I K L]. constructor; try assumption. intros m Hm. rewrite (B m Hm). apply H. exact Hm.
Qed.
Lemma sample_loop_ok f :
  (forall n s s' T G, n < f -> In n D -> In n G -> ~ In n T ->
     (forall m, In m G -> ~ In m (flat_map (E g) (gpar g n))) -> JF T G s ->
     sample_node g f n s = (s', Ok true) -> exists T', extends T T' (E g n) /\ In n T' /\ JF T' G s') ->
  forall ps s s' T G, (forall p, In p ps -> p < f) -> incl ps D ->
    (forall m, In m G -> ~ In m (flat_map (E g) ps)) -> JF T G s ->
    sample_loop (sample_node g f) ps s = (s', Ok true) ->
    exists T', extends T T' (flat_map (E g) ps) /\ incl ps T' /\ JF T' G s'.
Proof.
  intros Hnode. induction ps as [|p ps IH]; intros s s' T G Hlt HpsD HG HJ H.
  - inversion H; subst. exists T. split; [|split; [intros x []|exact HJ]]. exists []. rewrite app_nil_r. split; [reflexivity | intros x []].
  - cbn [sample_loop] in H. unfold bind at 1, get_vis in H.
    assert (HpD : In p D) by (apply HpsD; left; reflexivity).
    assert (HpG : ~ In p G) by (intros Hin; apply (HG p Hin); apply (In_hd g Hwf)).
    assert (Hrec : forall T1 s1, extends T T1 (E g p) -> In p T1 -> JF T1 G s1 ->
               sample_loop (sample_node g f) ps s1 = (s', Ok true) ->
               exists T', extends T T' (flat_map (E g) (p :: ps)) /\ incl (p :: ps) T' /\ JF T' G s').
    { intros T1 s1 (L1 & -> & HL1) Hp1 HJ1 H1.
      destruct (IH s1 s' (T ++ L1) G) as (T' & (L2 & -> & HL2) & Hincl & HJ').
      - intros q Hq. apply Hlt. right. exact Hq.
      - intros q Hq. apply HpsD. right. exact Hq.
      - intros m Hm Hin. apply (HG m Hm). cbn [flat_map]. apply in_or_app. right. exact Hin.
      - exact HJ1.
      - exact H1.
      - exists ((T ++ L1) ++ L2). split; [|split; [|exact HJ']].
        + exists (L1 ++ L2). split; [rewrite app_assoc; reflexivity|]. cbn [flat_map].
          apply incl_app; [apply incl_appl; exact HL1 | apply incl_appr; exact HL2].
        + intros q [<-|Hq]; [apply in_or_app; left; exact Hp1 | apply Hincl; exact Hq]. }
    destruct (vis s p) eqn:Hv.
    + apply (JF_vis T G s HJ p HpD) in Hv. destruct Hv as [Hv|Hv]; [|contradiction].
      apply (Hrec T s); try assumption. exists []. rewrite app_nil_r. split; [reflexivity | intros x []].
    + assert (HpT : ~ In p T).
      { intros Hin. assert (vis s p = true) by (apply (JF_vis T G s HJ p HpD); left; exact Hin). congruence. }
      apply bind_ok in H. destruct H as (s1 & [] & H1 & H). cbn in H1. inversion H1; subst s1; clear H1.
      apply bind_ok in H. destruct H as (s2 & b & H2 & H). destruct b; [|discriminate].
      match type of H2 with sample_node _ _ _ ?x = _ => set (s1 := x) in * end.
      assert (HJ1 : JF T (p :: G) s1).
      { destruct HJ as [A B C F I K L]. constructor; try assumption. intros m Hm. unfold s1. cbn. unfold upd.
        destruct (Nat.eqb_spec m p) as [->|Hne]; [tauto|]. rewrite (B m Hm). split; [tauto|].
        intros [?|[?|?]]; [tauto | congruence | tauto]. }
      destruct (Hnode p s1 s2 T (p :: G)) as (T1 & Hext & Hin & HJ2).
      * apply Hlt. left. reflexivity.
      * exact HpD.
      * left. reflexivity.
      * exact HpT.
      * intros m [<-|Hm]; [apply (not_below g Hwf)|]. intros Hx. apply (HG m Hm). cbn [flat_map].
        apply in_or_app. left. apply (incl_EE_par g Hwf). exact Hx.
      * exact HJ1.
      * exact H2.
      * apply (Hrec T1 s2 Hext Hin); [|exact H].
        apply JF_ext with (p :: G); [|exact HJ2]. intros m _. cbn. split; [|tauto]. intros [?|[<-|?]]; tauto.
Qed.
Lemma sample_node_ok f :
  forall n s s' T G, n < f -> In n D -> In n G -> ~ In n T ->
     (forall m, In m G -> ~ In m (flat_map (E g) (gpar g n))) -> JF T G s ->
     sample_node g f n s = (s', Ok true) -> exists T', extends T T' (E g n) /\ In n T' /\ JF T' G s'.
Proof.
  induction f as [|f IHf]; intros n s s' T G Hn HnD HnG HnT HG HJ H; [lia|].
  cbn [sample_node] in H. apply bind_ok in H. destruct H as (s1 & b & H1 & H). destruct b; [|discriminate].
  destruct (sample_loop_ok f IHf (gpar g n) s s1 T G) as (T1 & (L & -> & HL) & Hincl & HJ1); try assumption.
  { intros p Hp. apply (par_lt g Hwf) in Hp. lia. }
  { intros p Hp. apply (HD n p HnD Hp). }
  apply bind_ok in H. destruct H as (s2 & b & H2 & H). destruct b; [|discriminate].
  exists ((T ++ L) ++ [n]). split; [|split].
  - exists (L ++ [n]). split; [rewrite app_assoc; reflexivity|].
    apply incl_app; [intros m Hm; apply (incl_EE_par g Hwf); apply HL; exact Hm|].
    intros m [<-|[]]. apply (E_self g Hwf).
  - apply in_or_app. right. left. reflexivity.
  - cbn in H. inversion H; subst s'; clear H.
    apply (draw_step f n s1 s2 (T ++ L) G HJ1 HnD HnG); [|exact Hincl | exact H2].
    intros Hin. apply in_app_or in Hin. destruct Hin as [Hin|Hin]; [contradiction|].
    apply HL in Hin. apply (not_below g Hwf n Hin).
Qed.
Lemma sample_roots_ok f : forall rs s s' T G, (forall r, In r rs -> r < S f) -> incl rs D -> rootsep g rs ->
  (forall m, In m G -> ~ In m (flat_map (E g) (flat_map (gpar g) rs))) -> JF T G s ->
  sample_roots g f rs s = (s', Ok true) ->
  exists T' G', extends T T' (flat_map (E g) (flat_map (gpar g) rs)) /\ incl (flat_map (gpar g) rs) T' /\ JF T' G' s'.
Proof.
  induction rs as [|r rs IH]; intros s s' T G Hlt HrD Hsep HG HJ H.
  - inversion H; subst. exists T, G. split; [|split; [intros x []|exact HJ]].
    exists []. rewrite app_nil_r. split; [reflexivity | intros x []].
  - cbn [sample_roots] in H. apply bind_ok in H. destruct H as (s1 & b & H1 & H). destruct b; [|discriminate].
    destruct (rootsep_cons g _ _ Hsep) as [Hr Hsep'].
    assert (HrDD : In r D) by (apply HrD; left; reflexivity).
    destruct (sample_loop_ok f (sample_node_ok f) (gpar g r) s s1 T G) as (T1 & (L & -> & HL) & Hincl & HJ1); try assumption.
    { intros p Hp. apply (par_lt g Hwf) in Hp. specialize (Hlt r (or_introl eq_refl)). lia. }
    { intros p Hp. apply (HD r p HrDD Hp). }
    { intros m Hm Hin. apply (HG m Hm). cbn [flat_map]. rewrite flat_map_app. apply in_or_app. left. exact Hin. }
    apply bind_ok in H. destruct H as (s2 & [] & H2 & H). cbn in H2. inversion H2; subst s2; clear H2.
    match type of H with sample_roots _ _ _ ?x = _ => set (s2 := x) in * end.
    destruct (IH s2 s' (T ++ L) (r :: G)) as (T' & G' & (L2 & -> & HL2) & Hincl2 & HJ2).
    + intros q Hq. apply Hlt. right. exact Hq.
    + intros q Hq. apply HrD. right. exact Hq.
    + exact Hsep'.
    + intros m [<-|Hm]; [exact Hr|]. intros Hin. apply (HG m Hm). cbn [flat_map]. rewrite flat_map_app.
      apply in_or_app. right. exact Hin.
    + destruct HJ1 as [A B C F I K M']. constructor; try assumption. intros m Hm. unfold s2. cbn. unfold upd.
      destruct (Nat.eqb_spec m r) as [->|Hne]; [tauto|]. rewrite (B m Hm). split; [tauto|].
      intros [?|[?|?]]; [tauto | congruence | tauto].
    + exact H.
    + exists ((T ++ L) ++ L2), G'. split; [|split; [|exact HJ2]].
      * exists (L ++ L2). split; [rewrite app_assoc; reflexivity|]. cbn [flat_map]. rewrite flat_map_app.
        apply incl_app; [apply incl_appl; exact HL | apply incl_appr; exact HL2].
      * cbn [flat_map]. apply incl_app; [|exact Hincl2]. intros p Hp. apply in_or_app. left. apply Hincl. exact Hp.
Qed.
End Attempt.

Lemma sample_from_prior_fresh roots tries :
  (forall n ins t v rest, is_free g n = true -> gchk_in g n ins = true ->
     gsim g n ins 1 t = Some (v :: rest) -> gchk_out g n ins v = true) ->
  indep g roots -> forall s s', clean g roots s -> vals_ok g s ->
  sample_from_prior g roots tries s = (s', Ok tt) ->
  clean g roots s' /\ vals_ok g s' /\
  exists tr0 T c0 lo hi, tr s' = tr0 ++ T /\ ctr s <= c0 /\ NoDup T
    /\ (forall n, In n T <-> exists r, In r roots /\ Anc g n r)
    /\ (forall l1 n l2, T = l1 ++ n :: l2 -> forall p, In p (gpar g n) -> In p l1)
    /\ (forall n, In n T -> is_hyper g n = false ->
          exists x rest, Fresh g (val s') 1 n (lo n) (hi n) (x :: rest) /\ val s' n = Some x
                         /\ gchk_in g n (inputs_at g (val s') n) = true)
    /\ (forall n, In n T -> c0 <= lo n /\ lo n <= hi n /\ hi n <= ctr s')
    /\ (forall l1 n l2 m, T = l1 ++ n :: l2 -> In m l1 -> hi m <= lo n).
Proof.
  intros Hsim Hi. induction tries as [|t IH]; intros s s' Hcl Hok H; [discriminate|].
  cbn [sample_from_prior] in H. apply bind_ok in H. destruct H as (s1 & b & H1 & H).
  apply bind_ok in H. destruct H as (s2 & [] & H2 & H).
  destruct (reset_flags_spec g Hwf roots s1) as (s2' & Hr & Hcd). rewrite H2 in Hr. inversion Hr; subst s2'; clear Hr.
  destruct (cleared_tidy g Hwf roots s1 s1 s2 eq_refl eq_refl Hcd) as [(Tcl & _ & Tc & Tt) Tv].
  pose proof (roots_keeps g (depth roots) roots s) as [Kok Kc]. rewrite H1 in Kok, Kc. cbn in Kok, Kc.
  assert (Hok2 : vals_ok g s2) by (intros m w; rewrite Tv; apply (Kok Hok)).
  destruct b.
  - inversion H; subst s'; clear H. split; [exact Tcl|]. split; [exact Hok2|].
    destruct (sample_roots_ok Hsim (flat_map (E g) roots) s (down_EE g Hwf roots) (depth roots) roots s s1 [] [])
      as (T & G & (L & HT & HL) & Hincl & HJ).
    + intros r Hr. apply depth_lt in Hr. lia.
    + intros r Hr. apply in_flat_map. exists r. split; [exact Hr | apply (E_self g Hwf)].
    + apply (indep_rootsep g Hwf). exact Hi.
    + intros m [].
    + constructor.
      * exact Hok.
      * intros m Hm. rewrite (clean_E g Hwf roots s m Hcl Hm). split; [discriminate | intros [[]|[]]].
      * constructor.
      * intros l1 n l2 Heq. destruct l1; discriminate.
      * rewrite app_nil_r. reflexivity.
      * lia.
      * exists (fun _ => 0), (fun _ => 0). split; [intros n []|]. split; [intros n []|].
        intros l1 n l2 m Heq. destruct l1; discriminate.
    + exact H1.
    + cbn in HT. subst L. destruct HJ as [A B C F I K (lo & hi & K1 & K2 & K3)].
      exists (tr s), T, (ctr s), lo, hi. split; [rewrite Tt; exact I|]. split; [lia|]. split; [exact C|]. split.
      { intros n. split.
        - intros Hn. apply HL in Hn. rewrite flat_map_flat_map in Hn. apply in_flat_map in Hn.
          destruct Hn as [r [Hr Hn]]. exists r. split; [exact Hr | apply (Anc_below g Hwf); exact Hn].
        - intros [r [Hr Ha]].
          assert (Hstep : forall a m, Anc g a m -> (forall p, In p (gpar g m) -> In p T) -> In a T).
          { clear - F. induction 1 as [a m Hp|a p m Hp Ha IHa]; intros Hm; [apply Hm; exact Hp|].
            apply IHa. intros q Hq. apply (topo_parents g T F p q (Hm p Hp) Hq). }
          apply (Hstep n r Ha). intros p Hp. apply Hincl. apply in_flat_map. exists r. split; assumption. }
      split; [exact F|]. rewrite Tv, Tc. split; [exact K1|]. split; [exact K2 | exact K3].
  - destruct (IH s2 s' Tcl Hok2 H) as (R1 & R2 & tr0 & T & c0 & lo & hi & Q1 & Q2 & Q3).
    split; [exact R1|]. split; [exact R2|]. exists tr0, T, c0, lo, hi. split; [exact Q1|]. split; [lia | exact Q3].
Qed.
End WF.
