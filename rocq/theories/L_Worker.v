(** The walks on the graph compared with the operations on a parameter vector (C95). *)
From Verif Require Import M_Base M_Num M_Graph S_Graph L_Graph L_Graph2 L_Graph3 L_Graph5 S_Fresh L_Respect L_PriorLaw M_Worker S_Worker.
From Verif Require M_Infer M_Rejection M_PMCABC.

(** ** Walks that do not use the random generator *)
Definition quiet {A} (m : M st A) : Prop := forall s r, m (with_ctr s r) = (with_ctr (fst (m s)) r, snd (m s)).
Lemma q_ret {A} (a : A) : quiet (ret a).
Proof. intros s r. reflexivity. Qed.
Lemma q_raise {A} e : quiet (@raise st A e).
Proof. intros s r. reflexivity. Qed.
Lemma q_lift {A} (x : res A) : quiet (lift x).
Proof. destruct x; [apply q_ret|apply q_raise]. Qed.
Lemma q_bind {A B} (m : M st A) (f : A -> M st B) : quiet m -> (forall a, quiet (f a)) -> quiet (bind m f).
Proof. intros Hm Hf s r. unfold bind. rewrite (Hm s r). destruct (m s) as [s1 [a|e]]; cbn [fst snd]; [apply Hf|reflexivity]. Qed.
Lemma q_forM {A B} (f : A -> M st B) l : (forall a, quiet (f a)) -> quiet (forM f l).
Proof. intros Hf. induction l as [|x l IH]; cbn [forM]; [apply q_ret|]. apply q_bind; [apply Hf|]. intros b. apply q_bind; [exact IH|intros; apply q_ret]. Qed.
Lemma q_forM_ {A} (f : A -> M st unit) l : (forall a, quiet (f a)) -> quiet (forM_ f l).
Proof. intros Hf. induction l as [|x l IH]; cbn [forM_]; [apply q_ret|]. apply q_bind; [apply Hf|intros _; exact IH]. Qed.
Lemma q_set_vis n b : quiet (set_vis n b).
Proof. intros s r. reflexivity. Qed.
Lemma q_set_val n b : quiet (set_val n b).
Proof. intros s r. reflexivity. Qed.
Lemma q_set_cpdf n b : quiet (set_cpdf n b).
Proof. intros s r. reflexivity. Qed.
Lemma q_get_vis n : quiet (get_vis n).
Proof. intros s r. reflexivity. Qed.
Lemma q_get_val n : quiet (get_val n).
Proof. intros s r. reflexivity. Qed.
Lemma q_get_cpdf n : quiet (get_cpdf n).
Proof. intros s r. reflexivity. Qed.
Ltac qt := repeat first [apply q_ret | apply q_raise | apply q_lift | apply q_set_vis | apply q_set_val | apply q_set_cpdf | apply q_get_vis | apply q_get_val | apply q_get_cpdf
  | apply q_bind; [|intros ?] | match goal with |- quiet (if ?b then _ else _) => destruct b | |- quiet (match ?b with _ => _ end) => destruct b end].
Section Quiet.
Variable g : graph.
Lemma q_reset f : forall n, quiet (reset_node g f n).
Proof. induction f as [|f IH]; intros n; cbn [reset_node]; [apply q_raise|]. apply q_bind; [apply q_forM_; exact IH|intros []; qt]. Qed.
Lemma q_reset_flags roots : quiet (reset_flags g roots).
Proof. apply q_forM_. intros n. apply q_reset. Qed.
Lemma q_mapping_loop rec : (forall n i, quiet (rec n i)) -> forall ps i, quiet (mapping_loop rec ps i).
Proof. intros H. induction ps as [|p ps IH]; intros i; cbn [mapping_loop]; [apply q_ret|]. apply q_bind; [apply H|intros a]. apply q_bind; [qt|intros []]. apply q_bind; [apply IH|intros b; qt]. Qed.
Lemma q_mapping_node f : forall n i, quiet (mapping_node g f n i).
Proof. induction f as [|f IH]; intros n i; cbn [mapping_node]; [apply q_raise|]. apply q_bind; [qt|intros v]. apply q_bind; [apply q_mapping_loop; exact IH|intros b; qt]. Qed.
Lemma q_mapping_roots f : forall rs i, quiet (mapping_roots g f rs i).
Proof. induction rs as [|r rs IH]; intros i; cbn [mapping_roots]; [apply q_ret|]. apply q_bind; [apply q_mapping_loop, q_mapping_node|intros a]. apply q_bind; [qt|intros []]. apply q_bind; [apply IH|intros b; qt]. Qed.
Lemma q_get_mapping roots : quiet (get_mapping g roots).
Proof. apply q_bind; [apply q_mapping_roots|intros a]. apply q_bind; [apply q_reset_flags|intros []; qt]. Qed.
Lemma q_getp_loop rec : (forall n, quiet (rec n)) -> forall ps, quiet (getp_loop rec ps).
Proof.
  intros H. induction ps as [|p ps IH]; cbn [getp_loop]; [apply q_ret|]. apply q_bind; [qt|intros v]. apply q_bind; [destruct (negb v); [|qt]; apply q_bind; [apply H|intros x; qt]|intros a].
  apply q_bind; [exact IH|intros b; qt].
Qed.
Lemma q_getp_node f : forall n, quiet (getp_node g f n).
Proof. induction f as [|f IH]; intros n; cbn [getp_node]; [apply q_raise|]. apply q_bind; [qt|intros h]. apply q_bind; [apply q_getp_loop; exact IH|intros b; qt]. Qed.
Lemma q_get_parameters roots : quiet (get_parameters g roots).
Proof. apply q_bind; [apply q_forM; intros r; apply q_getp_loop, q_getp_node|intros a]. apply q_bind; [apply q_reset_flags|intros []; qt]. Qed.
Lemma q_input_values n : quiet (input_values g n).
Proof. apply q_forM. intros [m j]. unfold input_value. apply q_bind; [qt|intros [l|]; qt]. Qed.
Lemma q_sov n v : quiet (set_output_values g n v).
Proof. unfold set_output_values. destruct (length v =? gdim g n); [|qt]. apply q_bind; [apply q_input_values|intros ins; qt]. Qed.
Lemma q_setp_loop rec : (forall n i, quiet (rec n i)) -> forall ps i, quiet (setp_loop g rec ps i).
Proof.
  intros H. induction ps as [|p ps IH]; intros i; cbn [setp_loop]; [apply q_ret|]. apply q_bind; [qt|intros v]. destruct (v || is_hyper g p); [apply IH|]. apply q_bind; [apply H|intros a].
  destruct (fst a); [apply IH|qt].
Qed.
Lemma q_setp_node params f : forall n i, quiet (setp_node g params f n i).
Proof.
  induction f as [|f IH]; intros n i; cbn [setp_node]; [apply q_raise|]. apply q_bind.
  - destruct (is_oper g n); [qt|]. destruct (nth_error params i) as [v|]; [|qt]. apply q_bind; [apply q_sov|intros ok; qt].
  - intros a. destruct (fst a); [|qt]. apply q_bind; [apply q_setp_loop; exact IH|intros b; qt].
Qed.
Lemma q_setp_roots params f : forall rs i, quiet (setp_roots g params f rs i).
Proof. induction rs as [|r rs IH]; intros i; cbn [setp_roots]; [apply q_ret|]. apply q_bind; [apply q_setp_loop, q_setp_node|intros a]. destruct (fst a); [|qt]. apply q_bind; [qt|intros []; apply IH]. Qed.
Lemma q_set_parameters roots params : quiet (set_parameters g roots params).
Proof. apply q_bind; [apply q_setp_roots|intros a]. apply q_bind; [apply q_reset_flags|intros []; qt]. Qed.
Lemma q_pdf_node mp params f : forall n, quiet (pdf_node g mp params f n).
Proof.
  induction f as [|f IH]; intros n; cbn [pdf_node]; [apply q_raise|].
  repeat first [apply q_input_values | apply q_forM; exact IH | apply q_ret | apply q_raise | apply q_lift | apply q_set_vis | apply q_set_val | apply q_set_cpdf | apply q_get_vis | apply q_get_val | apply q_get_cpdf
  | apply q_bind; [|intros ?] | match goal with |- quiet (if ?b then _ else _) => destruct b | |- quiet (match ?b with _ => _ end) => destruct b end].
Qed.
Lemma q_pdf_tail roots params : quiet (mp <- get_mapping g roots ;; rs <- forM (pdf_root g (fst mp) params (depth roots)) roots ;; ret (fold_left Qmult rs 1%Q)).
Proof.
  apply q_bind; [apply q_get_mapping|intros mp]. apply q_bind; [|intros; qt]. apply q_forM. intros r. unfold pdf_root. apply q_bind; [apply q_forM, q_pdf_node|intros; qt].
Qed.
Lemma quiet_ctr {A} (m : M st A) s : quiet m -> ctr (fst (m s)) = ctr s.
Proof. intros H. pose proof (H s (ctr s)) as E. replace (with_ctr s (ctr s)) with s in E by (destruct s; reflexivity). rewrite E. reflexivity. Qed.
End Quiet.

(** ** One pass of prior sampling forgets the old values *)
Section Pass.
Variable g : graph.
Lemma pass_frame T : forall v t m, ~ In m T \/ is_hyper g m = true -> fst (fst (pass g T v t)) m = v m.
Proof.
  induction T as [|n T IH]; intros v t m Hm; cbn [pass]; [reflexivity|]. assert (Hm' : ~ In m T \/ is_hyper g m = true) by (destruct Hm as [Hm|Hm]; [left; intros H; apply Hm; right; exact H|right; exact Hm]).
  destruct (is_hyper g n) eqn:Eh; [apply IH, Hm'|]. destruct (gchk_in g n _); [|reflexivity]. destruct (gsim g n _ 1 t) as [[|x rest]|]; [reflexivity| |reflexivity].
  rewrite IH by exact Hm'. unfold upd. destruct (Nat.eqb_spec m n) as [->|]; [|reflexivity]. destruct Hm as [Hm|Hm]; [exfalso; apply Hm; left; reflexivity|congruence].
Qed.
Lemma pass_some T : forall v t, snd (pass g T v t) = true -> (forall m, In m T -> is_hyper g m = false -> fst (fst (pass g T v t)) m <> None)
  /\ (forall m, v m <> None -> fst (fst (pass g T v t)) m <> None).
Proof.
  induction T as [|n T IH]; intros v t; cbn [pass]; [intros _; split; [intros m []|auto]|].
  destruct (is_hyper g n) eqn:Eh.
  - intros H. destruct (IH v t H) as [A B]. split; [|exact B]. intros m [<-|Hm] Hh; [congruence|auto].
  - destruct (gchk_in g n _); [|discriminate]. destruct (gsim g n _ 1 t) as [[|x rest]|]; [discriminate| |discriminate].
    intros H. destruct (IH (upd v n (Some x)) (S t) H) as [A B].
    assert (U : forall m, m = n \/ v m <> None -> upd v n (Some x) m <> None) by (intros m Hm; unfold upd; destruct (Nat.eqb_spec m n); [discriminate|tauto]).
    split; intros m Hm; [intros Hh; destruct Hm as [<-|Hm]; [apply B, U; left; reflexivity|apply A; assumption]|apply B, U; right; exact Hm].
Qed.
Lemma pass_ext T1 T : forall v v' t, (forall l1 n l2, T1 ++ T = l1 ++ n :: l2 -> forall q, In q (gpar g n) -> In q l1) ->
  (forall n, In n T1 \/ In n T /\ is_hyper g n = true -> v n = v' n) ->
  let '(w, u, b) := pass g T v t in let '(w', u', b') := pass g T v' t in u = u' /\ b = b' /\ (b = true -> forall n, In n T1 \/ In n T -> w n = w' n).
Proof.
  revert T1. induction T as [|n T IH]; intros T1 v v' t Hc Hv; cbn [pass]; [split; [reflexivity|split; [reflexivity|]]; intros _ n [H|[]]; apply Hv; left; exact H|].
  assert (Hc' : forall l1 m l2, (T1 ++ [n]) ++ T = l1 ++ m :: l2 -> forall q, In q (gpar g m) -> In q l1) by (rewrite <- app_assoc; exact Hc).
  assert (Hin : forall w w', (forall m, In m T1 -> w m = w' m) -> inputs_at g w n = inputs_at g w' n).
  { intros w w' H. unfold inputs_at. apply map_ext_in. intros [m j] Hm. cbn [fst snd]. rewrite (H m); [reflexivity|]. apply (Hc T1 n T eq_refl). unfold gpar. apply in_map_iff. exists (m, j). auto. }
  destruct (is_hyper g n) eqn:Eh.
  - specialize (IH (T1 ++ [n]) v v' t Hc'). cbn [In] in Hv. destruct (pass g T v t) as [[w u] b], (pass g T v' t) as [[w' u'] b'].
    destruct IH as (A & B & C); [intros m [Hm|[Hm Hh]]; [apply in_app_iff in Hm; destruct Hm as [Hm|[<-|[]]]; apply Hv; auto|apply Hv; auto]|].
    split; [exact A|]. split; [exact B|]. intros Hb m Hm. apply (C Hb). rewrite in_app_iff. cbn [In] in Hm |- *. tauto.
  - rewrite (Hin v v') by (intros m Hm; apply Hv; left; exact Hm). destruct (gchk_in g n _); [|split; [reflexivity|split; [reflexivity|discriminate]]].
    destruct (gsim g n _ 1 t) as [[|x rest]|]; [split; [reflexivity|split; [reflexivity|discriminate]]| |split; [reflexivity|split; [reflexivity|discriminate]]].
    specialize (IH (T1 ++ [n]) (upd v n (Some x)) (upd v' n (Some x)) (S t) Hc'). cbn [In] in Hv. destruct (pass g T (upd v n (Some x)) (S t)) as [[w u] b], (pass g T (upd v' n (Some x)) (S t)) as [[w' u'] b'].
    destruct IH as (A & B & C).
    { intros m Hm. unfold upd. destruct (Nat.eqb_spec m n) as [->|Hne]; [reflexivity|]. apply Hv. destruct Hm as [Hm|[Hm Hh]]; [apply in_app_iff in Hm; destruct Hm as [Hm|[<-|[]]]; [auto|congruence]|auto]. }
    split; [exact A|]. split; [exact B|]. intros Hb m Hm. apply (C Hb). rewrite in_app_iff. cbn [In] in Hm |- *. tauto.
Qed.
End Pass.

Section Graph.
Variables (g : graph) (roots : list nat) (base : nat -> option (list Q)) (tries k : nat).
Hypothesis Hwf : wf g.
Hypothesis Hi : indep g roots.
Hypothesis Hroots : forall r, In r roots -> is_hyper g r = false.
Hypothesis no_oper : forall n, is_oper g n = false.
Hypothesis answers : forall n ins t x, is_free g n = true -> gsim g n ins 1 t = Some x -> exists y rest, x = y :: rest /\ length y = gdim g n.
Hypothesis accepts : forall n ins t y rest, is_free g n = true -> gchk_in g n ins = true -> gsim g n ins 1 t = Some (y :: rest) -> gchk_out g n ins y = true.
Let o := order g roots.
Hypothesis Hbase : forall n v, base n = Some v -> length v = gdim g n.
Notation built := (built o base).
Notation stored := (stored o).
Notation fits := (fits g o).
Notation Stands := (Stands g roots o base).
Let D n := exists r, In r roots /\ (n = r \/ Anc g n r).

Lemma free_hyper n : is_hyper g n = false -> is_free g n = true.
Proof. intros H. unfold is_free. rewrite H, no_oper. reflexivity. Qed.
Lemma o_D n : In n o -> D n.
Proof. intros H. apply (order_In g Hwf) in H. destruct H as (_ & r & Hr & Ha). exists r. auto. Qed.
Lemma plan_o n : In n (plan g roots) -> is_hyper g n = false -> In n o.
Proof. intros H Hh. apply (order_In g Hwf). split; [apply free_hyper, Hh|]. apply (plan_facts g Hwf no_oper roots Hi). exact H. Qed.
Lemma o_plan n : In n o -> In n (plan g roots) /\ is_hyper g n = false.
Proof.
  intros H. apply (order_In g Hwf) in H. destruct H as (Hf & Ha). split; [apply (plan_facts g Hwf no_oper roots Hi); exact Ha|]. unfold is_free in Hf. destruct (is_hyper g n); [discriminate|reflexivity].
Qed.
Lemma assign_some os th : forall v n, v n <> None -> assign os th v n <> None.
Proof.
  revert th. induction os as [|m os IH]; intros th v n Hv; [exact Hv|]. destruct th as [|x th]; [exact Hv|]. cbn [assign]. apply IH. unfold upd. destruct (n =? m); [discriminate|exact Hv].
Qed.
Lemma assign_in os : forall th v n, In n os -> length os <= length th -> assign os th v n <> None.
Proof.
  induction os as [|m os IH]; intros th v n Hn Hl; [destruct Hn|]. destruct th as [|x th]; cbn in Hl; [lia|]. cbn [assign]. destruct Hn as [<-|Hn].
  - apply assign_some. unfold upd. rewrite Nat.eqb_refl. discriminate.
  - apply IH; [exact Hn|lia].
Qed.
Lemma assign_dim os : forall th v, Forall2 (fun n x => length x = gdim g n) os th -> (forall n x, v n = Some x -> length x = gdim g n) -> forall n x, assign os th v n = Some x -> length x = gdim g n.
Proof.
  induction os as [|m os IH]; intros th v Hf Hv n x; inversion Hf; subst; cbn [assign]; [apply Hv|]. apply IH; [assumption|]. intros n' x'. unfold upd. destruct (Nat.eqb_spec n' m) as [->|]; [intros H; injection H as <-; assumption|apply Hv].
Qed.
Lemma fits_length th : fits th -> length th = length o.
Proof. unfold S_Worker.fits. intros H. induction H; cbn; congruence. Qed.
Lemma built_ok cur r : fits cur -> Stands (built cur r) cur.
Proof.
  intros Hf. split; [intros a n _ _; reflexivity|]. split; [intros n v; apply (assign_dim o cur base Hf Hbase)|]. split; [exact Hf|]. intros a n _ _. reflexivity.
Qed.
Lemma stands_alike s cur : Stands s cur -> alike D false s (built cur (ctr s)).
Proof.
  intros (Hc & Hv & Hf & Hb). split; [intros n (r & Hr & Hn); apply (Hc r n Hr Hn)|]. split; [intros n (r & Hr & Hn); rewrite (Hb r n Hr Hn); reflexivity|]. split; [reflexivity|discriminate].
Qed.
Lemma stored_assign s : NoDup o -> (forall n, In n o -> val s n <> None) -> forall v n, In n o -> assign o (stored s) v n = val s n.
Proof.
  intros Hn Hs v n Hin. destruct (In_nth_error _ _ Hin) as (i & Hi'). unfold S_Worker.stored.
  rewrite (assign_nth o Hn _ v i n Hi') by (rewrite map_length; apply nth_error_Some; congruence).
  rewrite nth_error_map, Hi'. cbn [option_map]. specialize (Hs n Hin). destruct (val s n); [reflexivity|congruence].
Qed.
(** a graph that is in order, holds a value for every parameter and the values of the built graph elsewhere stands for what it stores *)
Lemma stands_stored s t : clean g roots s -> vals_ok g s -> (forall n, D n -> val s n = val t n) -> (forall n, In n o -> val s n <> None) ->
  (forall n, D n -> ~ In n o -> val s n = base n) -> Stands s (stored t).
Proof.
  intros Hc Hv He Hs Hb. assert (Et : stored t = stored s) by (apply map_ext_in; intros n Hn; rewrite (He n (o_D n Hn)); reflexivity). rewrite Et.
  split; [exact Hc|]. split; [exact Hv|]. split.
  - unfold S_Worker.fits, S_Worker.stored. assert (G : forall l, incl l o -> Forall2 (fun n v => length v = gdim g n) l (map (fun n => known (val s n)) l)).
    { induction l as [|n l IH]; intros Hl; cbn [map]; constructor; [|apply IH; intros m Hm; apply Hl; right; exact Hm]. specialize (Hs n (Hl n (or_introl eq_refl))). destruct (val s n) eqn:E; [exact (Hv n _ E)|congruence]. }
    apply G. intros n Hn. exact Hn.
  - intros r n Hr Hn. assert (Dn : D n) by (exists r; auto). cbn [S_Worker.built val]. destruct (in_dec Nat.eq_dec n o) as [Ho|Ho].
    + rewrite stored_assign; [reflexivity|apply order_NoDup|exact Hs|exact Ho].
    + rewrite assign_notin by exact Ho. apply Hb; assumption.
Qed.
Lemma stands_vals s cur : Stands s cur -> (forall n, In n o -> val s n <> None) /\ (forall n, D n -> ~ In n o -> val s n = base n).
Proof.
  intros (Hc & Hv & Hf & Hb). split.
  - intros n Hn. destruct (o_D n Hn) as (r & Hr & Hn'). rewrite (Hb r n Hr Hn'). apply assign_in; [exact Hn|rewrite (fits_length cur Hf); lia].
  - intros n (r & Hr & Hn) Ho. rewrite (Hb r n Hr Hn). apply assign_notin. exact Ho.
Qed.

Lemma set_step th s cur : Stands s cur -> fits th -> exists s' j, set_parameters g roots th s = (s', Ok (fst (set_of g roots o base th cur), j)) /\ ctr s' = ctr s /\ Stands s' (snd (set_of g roots o base th cur)).
Proof.
  intros Hs Ht. pose proof Hs as (Hc & Hv & Hf & Hb). unfold set_of.
  destruct (set_parameters_spec g Hwf roots th s Hi Hc Hv) as (b & j & s' & E & Hj & Hval & Hv' & Hc' & _ & _).
  { intros i n Hn. assert (L : i < length th) by (rewrite (fits_length th Ht); apply nth_error_Some; unfold o; congruence). apply nth_error_Some in L. destruct (nth_error th i) as [v|] eqn:Ev; [|congruence]. exists v. split; [reflexivity|].
    unfold S_Worker.fits in Ht. clear - Ht Hn Ev. fold o in Hn. revert i Hn Ev. induction Ht as [|a w os ths H1 H2 IH]; intros [|i] Hn Ev; cbn in *; try discriminate; [congruence|eauto]. }
  pose proof (r_set_parameters D false g (D_down g roots) roots th (D_roots g roots) s (built cur (ctr s)) (stands_alike s cur Hs)) as [Ha Er].
  assert (Eb : built cur (ctr s) = with_ctr (built cur 0) (ctr s)) by reflexivity. rewrite Eb, (q_set_parameters g roots th (built cur 0) (ctr s)) in Ha, Er. rewrite E in Ha, Er. cbn [fst snd] in Ha, Er.
  destruct (set_parameters g roots th (built cur 0)) as [t rt]. cbn [fst snd] in Ha, Er. subst rt. exists s', j. cbn [fst snd]. split; [exact E|]. split.
  - pose proof (quiet_ctr (set_parameters g roots th) s (q_set_parameters g roots th)) as Q. rewrite E in Q. exact Q.
  - destruct (stands_vals s cur Hs) as [A B]. destruct Ha as (_ & Ha & _). apply stands_stored; [exact Hc'|exact Hv'|intros n Hn; exact (Ha n Hn)| |].
    + intros n Hn. rewrite Hval. apply assign_some, A, Hn.
    + intros n Hn Ho. rewrite Hval. rewrite assign_notin; [apply B; assumption|]. intros Hin. apply Ho. fold o in Hin. rewrite <- (firstn_skipn j o). apply in_or_app. left. exact Hin.
Qed.
Definition tail (th : Vec) : M st Q := mp <- get_mapping g roots ;; rs <- forM (pdf_root g (fst mp) th (depth roots)) roots ;; ret (fold_left Qmult rs 1%Q).
Lemma r_tail th : respects D false (tail th).
Proof.
  intros s1 t1 H1.
  set (K := fun mp : list (nat * nat) * nat => rs <- forM (pdf_root g (fst mp) th (depth roots)) roots ;; ret (fold_left Qmult rs 1%Q)).
  change (tail th) with (mp <- get_mapping g roots ;; K mp). unfold bind.
  destruct (r_get_mapping D false g (D_down g roots) roots (D_roots g roots) s1 t1 H1) as [H3 H4].
  destruct (get_mapping g roots s1) as [s2 [mp|e]] eqn:E1, (get_mapping g roots t1) as [t2 [mp'|e']] eqn:E2;
    cbn [fst snd] in H3, H4; inversion H4; subst; [|split; [exact H3 | reflexivity]].
  assert (Hnone : forall u u' m, get_mapping g roots u = (u', Ok m) -> forall n, D n -> cpdf u' n = None).
  { intros u u' m Hm. unfold get_mapping in Hm. apply bind_ok in Hm. destruct Hm as (u1 & r & _ & Hm).
    apply bind_ok in Hm. destruct Hm as (u2 & [] & Hm & Hr). inversion Hr; subst. intros n. apply (reset_none g roots Hwf u1). exact Hm. }
  assert (H5 : alike D true s2 t2).
  { destruct H3 as (A & B & C & _). split; [exact A|]. split; [exact B|]. split; [exact C|]. intros _ n Hn.
    rewrite (Hnone s1 s2 mp' E1 n Hn), (Hnone t1 t2 mp' E2 n Hn). reflexivity. }
  assert (HR : respects D true (K mp')).
  { apply r_bind; [apply r_pdf_roots; [exact (D_down g roots) | reflexivity | exact (D_roots g roots)] | intros l; apply r_ret]. }
  destruct (HR s2 t2 H5) as [(A & B & C & _) Hq]. split; [|exact Hq].
  split; [exact A|]. split; [exact B|]. split; [exact C|]. discriminate.
Qed.
Lemma dens_step th s cur : Stands s cur -> fits th ->
  let '(v, cur') := M_Infer.pdf_of_prior Vec (set_of g roots o base) (dens_of g roots o base) th cur in
  exists s' q, M_Graph.pdf_of_prior g roots th s = (s', Ok q) /\ v = Fin q /\ ctr s' = ctr s /\ Stands s' cur'.
Proof.
  intros Hs Ht. destruct (set_step th s cur Hs Ht) as (s1 & j & E1 & Hr1 & Hs1). unfold M_Infer.pdf_of_prior. set (cur' := snd (set_of g roots o base th cur)) in *.
  pose proof Hs as (Hc & Hv & _ & _). destruct (ParamOrder_order g Hwf roots o) as [_ Ho]. specialize (Ho eq_refl). pose proof Ho as (ls & Hls & _).
  destruct (pdf_exact g Hwf roots th s o ls Hi Hc Hv Ho Hls Ht) as (b' & j' & s1' & s' & q & E1' & E2 & Hval & Hc' & _).
  rewrite E1 in E1'. injection E1' as <- <- <-.
  assert (E3 : tail th s1 = (s', Ok q)) by (unfold M_Graph.pdf_of_prior in E2; unfold bind at 1 in E2; rewrite E1 in E2; exact E2).
  pose proof (r_tail th s1 (built cur' (ctr s1)) (stands_alike s1 cur' Hs1)) as [_ Er].
  assert (Eb : built cur' (ctr s1) = with_ctr (built cur' 0) (ctr s1)) by reflexivity. rewrite Eb in Er. rewrite (q_pdf_tail g roots th (built cur' 0) (ctr s1) : tail th _ = _) in Er.
  rewrite E3 in Er. cbn [snd] in Er. exists s', q. split; [exact E2|]. split.
  { unfold dens_of. destruct (bind (get_mapping g roots) _ _) as [t rt]. cbn [snd] in Er. subst rt. reflexivity. }
  split; [pose proof (quiet_ctr (tail th) s1 (q_pdf_tail g roots th)) as Q; rewrite E3 in Q; cbn [fst] in Q; congruence|].
  destruct Hs1 as (_ & Hv1 & Hf1 & Hb1). split; [exact Hc'|]. split; [intros n v; rewrite Hval; apply Hv1|]. split; [exact Hf1|]. intros r n. rewrite Hval. apply Hb1.
Qed.
Lemma get_step s cur : Stands s cur -> exists s', get_parameters g roots s = (s', Ok (map Some cur)) /\ ctr s' = ctr s /\ Stands s' cur.
Proof.
  intros Hs. pose proof Hs as (Hc & Hv & Hf & Hb). destruct (get_parameters_spec g Hwf roots s Hc) as (s' & E & (Hc' & _ & Hr & _) & Hval). fold o in E. exists s'. split.
  - rewrite E. do 2 f_equal. transitivity (map (assign o cur base) o).
    + apply map_ext_in. intros n Hn. destruct (o_D n Hn) as (r & Hr' & Hn'). exact (Hb r n Hr' Hn').
    + rewrite assign_get; [|apply order_NoDup|rewrite (fits_length cur Hf); lia]. rewrite <- (fits_length cur Hf), firstn_all. reflexivity.
  - split; [exact Hr|]. split; [exact Hc'|]. split; [intros n v; rewrite Hval; apply Hv|]. split; [exact Hf|]. intros r n. rewrite Hval. apply Hb.
Qed.
Lemma sim_keeps f : forall rs s, (forall r, In r rs -> is_hyper g r = false) -> vals_ok g s -> exists s' y, simulate g (S f) rs k s = (s', Ok y) /\ vis s' = vis s /\ val s' = val s.
Proof.
  induction rs as [|r rs IH]; intros s Hr Hv; cbn [simulate]; [exists s, (Some []); auto|]. unfold bind at 1. rewrite (input_values_ok g Hwf s r Hv). destruct (gchk_in g r _); [|exists s, None; auto].
  unfold bind at 1. rewrite (fsim_free g Hwf f r k s (free_hyper r (Hr r (or_introl eq_refl))) Hv). set (s1 := M_Graph.mkst _ _ _ _ _).
  destruct (IH s1 (fun q Hq => Hr q (or_intror Hq)) Hv) as (s' & y & E & A & B). unfold bind. rewrite E. exists s'. eexists. split; [reflexivity|]. split; [exact A|exact B].
Qed.
Lemma r_simulate f : forall rs, (forall r, In r rs -> D r) -> respects D false (simulate g f rs k).
Proof.
  induction rs as [|r rs IH]; intros Hr; cbn [simulate]; [apply r_ret|]. apply r_bind; [apply r_input_values; [exact (D_down g roots)|apply Hr; left; reflexivity]|]. intros ins.
  destruct (gchk_in g r ins); [|apply r_ret]. apply r_bind; [apply r_fsim; [exact (D_down g roots)|apply Hr; left; reflexivity]|]. intros y. apply r_bind; [apply IH; intros q Hq; apply Hr; right; exact Hq|]. intros rest. apply r_ret.
Qed.
Lemma sim_step s cur : Stands s cur -> exists s', simulate g (depth roots) roots k s = (s', Ok (snd (sim_of g roots o base k cur (ctr s)))) /\ ctr s' = fst (sim_of g roots o base k cur (ctr s)) /\ Stands s' cur.
Proof.
  intros Hs. pose proof Hs as (Hc & Hv & Hf & Hb). unfold depth. destruct (sim_keeps (list_max roots) roots s Hroots Hv) as (s' & y & E & A & B).
  pose proof (r_simulate (S (list_max roots)) roots (D_roots g roots) s (built cur (ctr s)) (stands_alike s cur Hs)) as [(_ & _ & Hr & _) Er]. unfold sim_of, depth. rewrite E in *. cbn [fst snd] in Hr, Er.
  destruct (simulate g (S (list_max roots)) roots k (built cur (ctr s))) as [t rt]. cbn [fst snd] in Hr, Er. subst rt. exists s'. cbn [fst snd]. split; [reflexivity|]. split; [exact Hr|].
  split; [intros r n Hr' Hn; rewrite A; apply (Hc r n Hr' Hn)|]. split; [intros n v; rewrite B; apply Hv|]. split; [exact Hf|]. intros r n. rewrite B. apply Hb.
Qed.

(** prior sampling from two graphs that agree on the hyperparameters *)
Definition agrees (s t : st) : Prop := clean g roots s /\ vals_ok g s /\ clean g roots t /\ vals_ok g t /\ ctr s = ctr t /\ (forall n, D n -> ~ In n o -> val s n = base n) /\ (forall n, D n -> ~ In n o -> val t n = base n).
Lemma plan_D n : In n (plan g roots) -> D n.
Proof. intros H. apply (plan_facts g Hwf no_oper roots Hi) in H. destruct H as (r & Hr & Ha). exists r. auto. Qed.
Lemma prior_two n : forall s t, agrees s t -> exists s' t' x, sample_from_prior g roots n s = (s', x) /\ sample_from_prior g roots n t = (t', x)
  /\ agrees s' t' /\ (x = Ok tt \/ x = Err OutOfFuel) /\ (x = Ok tt -> (forall m, In m o -> val s' m <> None) /\ forall m, In m o -> val s' m = val t' m).
Proof.
  induction n as [|n IH]; intros s t H; cbn [sample_from_prior]; [exists s, t, (Err OutOfFuel); split; [reflexivity|split; [reflexivity|split; [exact H|split; [right; reflexivity|discriminate]]]]|].
  destruct H as (Hc1 & Hv1 & Hc2 & Hv2 & Hr & Hb1 & Hb2).
  pose proof (pass_spec g Hwf no_oper answers accepts roots s Hc1 Hv1) as P1. pose proof (pass_spec g Hwf no_oper answers accepts roots t Hc2 Hv2) as P2.
  assert (X : forall m, In m (@nil nat) \/ In m (plan g roots) /\ is_hyper g m = true -> val s m = val t m).
  { intros m [[]|[Hm Hh]]. assert (Hno : ~ In m o) by (intros Hin; apply o_plan in Hin; destruct Hin; congruence). rewrite Hb1, Hb2 by (try apply plan_D; assumption). reflexivity. }
  pose proof (pass_ext g [] (plan g roots) (val s) (val t) (ctr s) (proj2 (proj2 (plan_facts g Hwf no_oper roots Hi))) X) as P3.
  pose proof (fun m Hm => pass_frame g (plan g roots) (val s) (ctr s) m Hm) as F1. pose proof (fun m Hm => pass_frame g (plan g roots) (val t) (ctr s) m Hm) as F2.
  pose proof (pass_some g (plan g roots) (val s) (ctr s)) as S1.
  rewrite <- Hr in P2. destruct (pass g (plan g roots) (val s) (ctr s)) as [[w u] b], (pass g (plan g roots) (val t) (ctr s)) as [[w' u'] b']. cbn [fst snd] in *.
  destruct P3 as (<- & <- & Hw). destruct P1 as (s1 & s2 & A1 & A2 & A3 & A4 & A5 & A6 & _). destruct P2 as (t1 & t2 & B1 & B2 & B3 & B4 & B5 & B6 & _).
  assert (Hout : forall m, ~ In m o -> ~ In m (plan g roots) \/ is_hyper g m = true).
  { intros m Hm. destruct (is_hyper g m) eqn:Eh; [right; reflexivity|]. left. intros Hin. apply Hm, plan_o; assumption. }
  assert (Ha : agrees s2 t2).
  { split; [exact A3|]. split; [exact A4|]. split; [exact B3|]. split; [exact B4|]. split; [congruence|]. split; intros m Hm Hno; [rewrite A5, F1 by (apply Hout; exact Hno); auto|rewrite B5, F2 by (apply Hout; exact Hno); auto]. }
  unfold bind. rewrite A1, A2, B1, B2. destruct b; [|apply IH, Ha]. exists s2, t2, (Ok tt). split; [reflexivity|]. split; [reflexivity|]. split; [exact Ha|]. split; [left; reflexivity|]. intros _. split.
  - intros m Hm. rewrite A5. apply o_plan in Hm. apply (proj1 (S1 eq_refl)); apply Hm.
  - intros m Hm. rewrite A5, B5. apply (Hw eq_refl). right. apply o_plan, Hm.
Qed.
(** before the first parameters are sampled: everything but the parameters is as built *)
Definition fresh_like (s : st) : Prop := clean g roots s /\ vals_ok g s /\ forall n, D n -> ~ In n o -> val s n = base n.
Lemma prior_step s : fresh_like s -> exists s' x, sample_from_prior g roots tries s = (s', x)
  /\ (x = Ok tt -> ctr s' = fst (prior_of g roots o base tries (ctr s)) /\ Stands s' (snd (prior_of g roots o base tries (ctr s)))) /\ (x = Ok tt \/ x = Err OutOfFuel).
Proof.
  intros (Hc & Hv & Hb). destruct (prior_two tries s (built [] (ctr s))) as (s' & t' & x & E1 & E2 & Ha & Hor & Hx).
  { split; [exact Hc|]. split; [exact Hv|]. split; [intros r n _ _; reflexivity|]. assert (Hnil : forall l v, assign l [] v = v) by (intros []; reflexivity). split; [intros n v; cbn [S_Worker.built val]; rewrite Hnil; apply Hbase|].
    split; [reflexivity|]. split; [exact Hb|]. intros n _ _. cbn [S_Worker.built val]. rewrite Hnil. reflexivity. }
  exists s', x. split; [exact E1|]. split.
  - intros ->. destruct (Hx eq_refl) as [Hs He]. unfold prior_of. rewrite E2. cbn [fst snd]. destruct Ha as (A & B & _ & _ & C & F & G). split; [exact C|].
    apply stands_stored; [exact A|exact B| |exact Hs|exact F]. intros n Hn. destruct (in_dec Nat.eq_dec n o) as [Ho|Ho]; [apply He, Ho|]. rewrite F, G by assumption. reflexivity.
  - exact Hor.
Qed.
Notation on_graph := (on_graph g roots tries k).
Notation on_vector := (on_vector (set_of g roots o base) (dens_of g roots o base) (prior_of g roots o base tries) (sim_of g roots o base k)).
Definition matches {A} (P : A -> Prop) (gr : st * res A) (ve : res (A * Vec * nat)) : Prop :=
  snd gr <> Err OutOfFuel ->
  match ve with Ok (a, cur', r') => snd gr = Ok a /\ ctr (fst gr) = r' /\ Stands (fst gr) cur' /\ P a | Err e => snd gr = Err e end.
Lemma stands_fresh s cur : Stands s cur -> fresh_like s.
Proof. intros H. destruct (stands_vals s cur H) as [_ B]. destruct H as (Hc & Hv & _). split; [exact Hc|split; [exact Hv|exact B]]. Qed.
Lemma refines {A} (P : A -> Prop) (p : prog A) : careful g o P p -> forall s cur, Stands s cur -> matches P (on_graph p s) (on_vector p cur (ctr s)).
Proof.
  induction p as [r|c IH|c IH|th c IH|th c IH|c IH|X f c IH]; cbn [careful M_Worker.on_graph M_Worker.on_vector]; intros Hp s cur Hs.
  - destruct r as [a|e]; cbn; intros _; auto.
  - destruct (prior_step s (stands_fresh s cur Hs)) as (s' & x & E & Hx & Ho). unfold bind. rewrite E. destruct (prior_of _ _ _ _ _ (ctr s)) as [r' th]. cbn [fst snd] in Hx. destruct Ho as [-> | ->].
    + destruct (Hx eq_refl) as [<- H']. apply IH; assumption.
    + intros H. exfalso. apply H. reflexivity.
  - destruct (get_step s cur Hs) as (s' & E & Hr & H'). unfold bind. rewrite E, map_map. cbn [known]. rewrite map_id. rewrite <- Hr. apply IH; [apply Hp; exact (proj1 (proj2 (proj2 Hs)))|exact H'].
  - destruct Hp as [Ht Hp]. destruct (set_step th s cur Hs Ht) as (s' & j & E & Hr & H'). unfold bind. rewrite E. destruct (set_of _ _ _ _ th cur) as [b cur']. cbn [fst snd] in *. rewrite <- Hr. apply IH; [apply Hp|exact H'].
  - destruct Hp as [Ht Hp]. pose proof (dens_step th s cur Hs Ht) as G. destruct (M_Infer.pdf_of_prior _ _ _ th cur) as [v cur']. destruct G as (s' & q & E & -> & Hr & H'). unfold bind. rewrite E. rewrite <- Hr. apply IH; [apply Hp|exact H'].
  - destruct (sim_step s cur Hs) as (s' & E & Hr & H'). unfold bind. rewrite E. destruct (sim_of _ _ _ _ _ cur (ctr s)) as [r' y]. cbn [fst snd] in *. rewrite <- Hr. apply IH; [apply Hp|exact H'].
  - destruct (f (ctr s)) as [[r' x]|e] eqn:E; [|intros _; reflexivity]. change r' with (ctr (with_ctr s r')). apply IH; [apply (Hp (ctr s) r' x E)|exact Hs].
Qed.
Lemma refines_prior {A} (P : A -> Prop) (c : prog A) : careful g o P c -> forall s cur, fresh_like s -> matches P (on_graph (Prior c) s) (on_vector (Prior c) cur (ctr s)).
Proof.
  intros Hc s cur Hs. cbn [M_Worker.on_graph M_Worker.on_vector]. destruct (prior_step s Hs) as (s' & x & E & Hx & Ho). unfold bind. rewrite E. destruct (prior_of _ _ _ _ _ (ctr s)) as [r' th]. cbn [fst snd] in Hx. destruct Ho as [-> | ->].
  - destruct (Hx eq_refl) as [<- H']. apply refines; assumption.
  - intros H. exfalso. apply H. reflexivity.
Qed.
End Graph.

(** ** The models of the schemes run these programs on a vector *)
Lemma careful_bind g o {A B} (P : A -> Prop) (Q : B -> Prop) (p : prog A) f : careful g o P p -> (forall a, P a -> careful g o Q (f a)) -> careful g o Q (pbind p f).
Proof.
  intros Hp Hf. induction p as [[a|e]|c IH|c IH|th c IH|th c IH|c IH|X h c IH]; cbn [careful pbind] in *; auto.
  - destruct Hp as [A1 A2]. auto.
  - destruct Hp as [A1 A2]. auto.
  - intros r r' x E. apply IH, (Hp r r' x E).
Qed.
Lemma careful_map g o {A B} (P : A -> Prop) (Q : B -> Prop) (f : A -> prog B) l : (forall a, P a -> careful g o Q (f a)) -> Forall P l -> careful g o (Forall Q) (pmap f l).
Proof.
  intros Hf. induction 1 as [|x l Hx _ IH]; cbn [pmap careful]; [constructor|]. apply (careful_bind g o Q); [apply Hf, Hx|]. intros y Hy. apply (careful_bind g o (Forall Q)); [exact IH|]. intros ys Hys. cbn. constructor; assumption.
Qed.
Section Vector.
Variable setp : Vec -> Vec -> bool * Vec.
Variable pdfv : Vec -> Vec -> num.
Variable prior : nat -> nat * Vec.
Variable simc : Vec -> nat -> nat * option Data.
Notation on_vector := (on_vector setp pdfv prior simc).
Lemma vector_bind {A B} (p : prog A) (f : A -> prog B) : forall cur r, on_vector (pbind p f) cur r = match on_vector p cur r with Err e => Err e | Ok (a, c, r') => on_vector (f a) c r' end.
Proof.
  induction p as [[a|e]|c IH|c IH|th c IH|th c IH|c IH|X h c IH]; intros cur r; cbn [pbind M_Worker.on_vector]; try reflexivity.
  - destruct (prior r) as [r' th]. apply IH.
  - apply IH.
  - destruct (setp th cur) as [b cur']. apply IH.
  - destruct (M_Infer.pdf_of_prior _ _ _ th cur) as [v cur']. apply IH.
  - destruct (simc cur r) as [r' y]. apply IH.
  - destruct (h r) as [[r' x]|e]; [apply IH|reflexivity].
Qed.
Section Pop.
Variable Pop : Type.
Variable kupd : Pop -> nat -> nat -> nat * Vec.
Lemma v_perturb_loop p i : forall left epoch last cur r, on_vector (w_perturb_loop Pop kupd p i left epoch last) cur r =
  match M_Infer.perturb_loop Vec nat Pop setp kupd p i left epoch cur r last with Err e => Err e | Ok (ep, cur', r', th) => Ok ((ep, th), cur', r') end.
Proof.
  induction left as [|left IH]; intros epoch last cur r; cbn [w_perturb_loop M_Infer.perturb_loop M_Worker.on_vector]; [destruct last; reflexivity|].
  destruct (kupd p i r) as [r' th]. destruct (setp th cur) as [b cur']. destruct b; [reflexivity|apply IH].
Qed.
Lemma v_perturb epochs p i cur r : on_vector (w_perturb Pop kupd epochs p i) cur r =
  match M_Infer.perturb Vec nat Pop setp kupd epochs p i cur r with Err e => Err e | Ok (cur', r', x) => Ok (x, cur', r') end.
Proof.
  unfold w_perturb, M_Infer.perturb. rewrite vector_bind, v_perturb_loop. destruct (M_Infer.perturb_loop _ _ _ _ _ _ _ _ _ _ _ _) as [[[[ep cur'] r'] th]|]; [|reflexivity]. cbn [M_Worker.on_vector fst snd]. destruct (ep =? 10); reflexivity.
Qed.
Lemma v_propose p i : forall fuel cur r, on_vector (w_propose Pop kupd fuel p i) cur r =
  match M_Infer.propose Vec nat Pop setp kupd pdfv fuel p i cur r with Err e => Err e | Ok (cur', r', th) => Ok (th, cur', r') end.
Proof.
  induction fuel as [|f IH]; intros cur r; cbn [w_propose M_Infer.propose]; [reflexivity|]. rewrite vector_bind, v_perturb. destruct (M_Infer.perturb _ _ _ _ _ _ _ _ _ _) as [[[cur1 r1] [th|]]|]; [|apply IH|reflexivity].
  cbn [M_Worker.on_vector]. destruct (M_Infer.pdf_of_prior _ _ _ th cur1) as [v cur2]. destruct (neqb v (Fin 0)); [apply IH|reflexivity].
Qed.
Section Careful.
Variables (g : graph) (o : list nat).
Hypothesis Hk : forall p i r, fits g o (snd (kupd p i r)).
Lemma c_perturb_loop p i : forall left epoch last, (forall th, last = Some th -> fits g o th) -> careful g o (fun et => fits g o (snd et)) (w_perturb_loop Pop kupd p i left epoch last).
Proof.
  induction left as [|left IH]; intros epoch last Hl; cbn [w_perturb_loop careful]; [destruct last as [th|]; cbn; [apply Hl; reflexivity|exact I]|].
  intros r r' th E. assert (Ht : fits g o th) by (injection E as E; specialize (Hk p i r); rewrite E in Hk; exact Hk). split; [exact Ht|]. intros [|]; cbn [careful]; [exact Ht|]. apply IH. intros th' E'. injection E' as <-. exact Ht.
Qed.
Lemma c_perturb epochs p i : careful g o (fun x => forall th, x = Some th -> fits g o th) (w_perturb Pop kupd epochs p i).
Proof.
  apply (careful_bind g o (fun et => fits g o (snd et))); [apply c_perturb_loop; discriminate|]. intros [ep th] H. cbn. intros th' E. destruct (ep =? 10); [discriminate|]. injection E as <-. exact H.
Qed.
Lemma c_propose p i : forall fuel, careful g o (fits g o) (w_propose Pop kupd fuel p i).
Proof.
  induction fuel as [|f IH]; cbn [w_propose]; [exact I|]. apply (careful_bind g o _ _ _ _ (c_perturb 100 p i)). intros [th|] H; [|exact IH]. cbn [careful]. split; [apply H; reflexivity|]. intros v. destruct (neqb v (Fin 0)); [exact IH|]. cbn. apply H. reflexivity.
Qed.
End Careful.
End Pop.
Variable kupd : M_PMCABC.pop Vec -> nat -> nat -> nat * Vec.
Variable kpdf : M_PMCABC.pop Vec -> Vec -> Vec -> num.
Variable dist : Data -> num.
Variable dist_max : num.
Variable mkrng : Z -> nat.
Variable reseed : nat -> nat.
Variable choice : nat -> list num -> nat -> res (nat * nat).
Lemma v_rejection_loop eps : forall fuel theta d counter cur r, exists cur' r', on_vector (w_rejection_loop dist dist_max eps fuel theta d counter) cur r =
  match M_Rejection.sp_loop nat Data (list Q) prior simc dist dist_max eps fuel r theta d counter with Err e => Err e | Ok x => Ok (x, cur', r') end.
Proof.
  induction fuel as [|f IH]; intros theta d counter cur r; cbn [w_rejection_loop M_Rejection.sp_loop]; destruct (nlt eps d).
  - exists cur, r. reflexivity.
  - exists cur, r. destruct theta; reflexivity.
  - cbn [M_Worker.on_vector]. unfold M_Rejection.attempt. destruct (prior r) as [r1 th]. destruct (simc th r1) as [r2 y]. apply IH.
  - exists cur, r. destruct theta; reflexivity.
Qed.
Lemma v_rejection eps fuel seed cur r : exists cur' r', on_vector (w_rejection dist dist_max mkrng eps fuel seed) cur r =
  match M_Rejection.sample_parameter nat Data (list Q) prior simc dist dist_max eps fuel (mkrng seed) with Err e => Err e | Ok x => Ok (x, cur', r') end.
Proof. unfold w_rejection. cbn [M_Worker.on_vector]. apply v_rejection_loop. Qed.
Notation resample_loop := (M_PMCABC.resample_loop Vec nat Data setp pdfv kupd prior simc dist choice).
Lemma v_resample_loop eps n mgr : forall fuel theta d counter cur r, exists r', on_vector (w_resample_loop kupd dist choice eps n mgr fuel theta d counter) cur r =
  match resample_loop eps n mgr fuel cur r theta d counter with Err e => Err e | Ok (th, d', k, cur') => Ok ((th, d', k), cur', r') end.
Proof.
  induction fuel as [|f IH]; intros theta d counter cur r; cbn [w_resample_loop M_PMCABC.resample_loop]; destruct (nlt eps d); try (exists r; reflexivity).
  destruct mgr as [p|].
  - cbn [M_Worker.on_vector]. destruct (choice n (M_PMCABC.p_w p) r) as [[r1 i]|]; [|exists r; reflexivity]. rewrite vector_bind, v_propose. destruct (M_Infer.propose _ _ _ _ _ _ _ _ _ _ _) as [[[cur1 r2] th]|]; [|exists r; reflexivity].
    cbn [M_Worker.on_vector]. destruct (simc cur1 r2) as [r3 [y|]]; [apply IH|exists r; reflexivity].
  - cbn [M_Worker.on_vector]. destruct (prior r) as [r1 th]. destruct (simc th r1) as [r2 [y|]]; [apply IH|exists r; reflexivity].
Qed.
Lemma v_resample eps n mgr fuel seed cur r : exists r', on_vector (w_resample kupd dist dist_max mkrng reseed choice eps n mgr fuel seed) cur r =
  match M_PMCABC.resample_parameter Vec nat Data setp pdfv kupd prior simc dist dist_max mkrng reseed choice eps n mgr fuel seed cur with Err e => Err e | Ok (th, d', k, cur') => Ok ((th, d', k), cur', r') end.
Proof. unfold w_resample, M_PMCABC.resample_parameter. cbn [M_Worker.on_vector]. apply v_resample_loop. Qed.
Lemma v_weight n mgr th cur r : on_vector (w_weight kpdf n mgr th) cur r =
  match M_PMCABC.calculate_weight Vec setp pdfv kpdf n mgr th cur with Err e => Err e | Ok (w, cur') => Ok (w, cur', r) end.
Proof.
  unfold w_weight, M_PMCABC.calculate_weight. destruct mgr as [p|]; [|reflexivity]. cbn [M_Worker.on_vector]. destruct (M_Infer.pdf_of_prior _ _ _ th cur) as [v cur']. destruct (length (M_PMCABC.p_rows p) <? n); [reflexivity|].
  destruct (negb (length (M_PMCABC.p_w p) =? n)); reflexivity.
Qed.
Lemma v_map {A B} (f : A -> prog B) (h : A -> Vec -> res (B * Vec)) : (forall x cur r, exists r', on_vector (f x) cur r = match h x cur with Err e => Err e | Ok (y, cur') => Ok (y, cur', r') end) ->
  forall l cur r, exists r', on_vector (pmap f l) cur r = match M_PMCABC.mapT h l cur with Err e => Err e | Ok (ys, cur') => Ok (ys, cur', r') end.
Proof.
  intros Hf. induction l as [|x l IH]; intros cur r; cbn [pmap M_PMCABC.mapT]; [exists r; reflexivity|]. rewrite vector_bind. destruct (Hf x cur r) as (r1 & E). rewrite E. destruct (h x cur) as [[y c1]|]; [|exists r; reflexivity].
  rewrite vector_bind. destruct (IH c1 r1) as (r2 & E2). rewrite E2. destruct (M_PMCABC.mapT h l c1) as [[ys c2]|]; [|exists r; reflexivity]. exists r2. reflexivity.
Qed.
Notation vstep := (M_PMCABC.step Vec nat Data setp pdfv kupd kpdf prior simc dist dist_max mkrng reseed choice).
Lemma v_step n steps a full restarted fuel aStep seeds s r : exists r', on_vector (w_step kupd kpdf dist dist_max mkrng reseed choice n steps a full restarted fuel aStep seeds s) (M_PMCABC.s_cur _ s) r =
  match vstep n steps a full restarted fuel aStep seeds s with Err e => Err e | Ok s' => Ok (s', M_PMCABC.s_cur _ s', r') end.
Proof.
  unfold w_step, M_PMCABC.step. destruct (nth_error (M_PMCABC.s_eps _ s) aStep) as [[eps|]|]; [|exists r; reflexivity|exists r; reflexivity]. rewrite vector_bind.
  set (mgr := match M_PMCABC.s_acc _ s with Some p => Some p | None => _ end).
  destruct (v_map (w_resample kupd dist dist_max mkrng reseed choice eps n mgr fuel) (fun seed c => match M_PMCABC.resample_parameter Vec nat Data setp pdfv kupd prior simc dist dist_max mkrng reseed choice eps n mgr fuel seed c with Err e => Err e | Ok (th, d, k, c') => Ok ((th, d, k), c') end)) with (l := seeds) (cur := M_PMCABC.s_cur _ s) (r := r) as (r1 & E).
  { intros seed c q. destruct (v_resample eps n mgr fuel seed c q) as (q' & E). exists q'. rewrite E. destruct (M_PMCABC.resample_parameter _ _ _ _ _ _ _ _ _ _ _ _ _ _ _ _ _ _ _) as [[[[th d] k] c']|]; reflexivity. }
  rewrite E. clear E. destruct (M_PMCABC.mapT _ seeds (M_PMCABC.s_cur _ s)) as [[results cur1]|]; [|exists r; reflexivity]. destruct results as [|x0 results0]; [exists r; reflexivity|]. set (results := x0 :: results0).
  destruct (if aStep <? steps - 1 then _ else _) as [eps'|]; [|exists r; reflexivity]. rewrite vector_bind.
  destruct (v_map (w_weight kpdf n mgr) (M_PMCABC.calculate_weight Vec setp pdfv kpdf n mgr)) with (l := map (fun x : Vec * num * nat => fst (fst x)) results) (cur := cur1) (r := r1) as (r2 & E).
  { intros th c q. exists q. apply v_weight. }
  rewrite E. clear E. destruct (M_PMCABC.mapT _ _ cur1) as [[ws cur2]|]; [|exists r; reflexivity]. exists r2.
  destruct (if restarted then _ else _) as [eps'' conf']. cbn [M_Worker.on_vector]. reflexivity.
Qed.
Lemma v_iterate n steps a full restarted fuel : forall seeds aStep s r, exists r', on_vector (w_iterate kupd kpdf dist dist_max mkrng reseed choice n steps a full restarted fuel aStep seeds s) (M_PMCABC.s_cur _ s) r =
  match M_PMCABC.iterate Vec nat Data setp pdfv kupd kpdf prior simc dist dist_max mkrng reseed choice n steps a full restarted fuel aStep seeds s with Err e => Err e | Ok s' => Ok (s', M_PMCABC.s_cur _ s', r') end.
Proof.
  induction seeds as [|sd seeds IH]; intros aStep s r; cbn [w_iterate M_PMCABC.iterate]; [exists r; reflexivity|]. rewrite vector_bind. destruct (v_step n steps a full restarted fuel aStep sd s r) as (r1 & E). rewrite E. destruct (M_PMCABC.step _ _ _ _ _ _ _ _ _ _ _ _ _ _ _ _ _ _ _ _ _ _ _) as [s'|]; [apply IH|exists r; reflexivity].
Qed.
Section Careful2.
Variables (g : graph) (o : list nat).
Hypothesis Hk : forall p i r, fits g o (snd (kupd p i r)).
Lemma c_rejection_loop eps : forall fuel theta d counter, (forall th, theta = Some th -> fits g o th) -> careful g o (fun x => fits g o (fst (fst x))) (w_rejection_loop dist dist_max eps fuel theta d counter).
Proof.
  induction fuel as [|f IH]; intros theta d counter Ht; cbn [w_rejection_loop]; destruct (nlt eps d); try exact I.
  - destruct theta; cbn; [apply Ht; reflexivity|exact I].
  - cbn [careful]. intros th Hth y. apply IH. intros th' E. injection E as <-. exact Hth.
  - destruct theta; cbn; [apply Ht; reflexivity|exact I].
Qed.
Lemma c_resample_loop eps n mgr : forall fuel theta d counter, fits g o theta -> careful g o (fun x => fits g o (fst (fst x))) (w_resample_loop kupd dist choice eps n mgr fuel theta d counter).
Proof.
  induction fuel as [|f IH]; intros theta d counter Ht; cbn [w_resample_loop]; destruct (nlt eps d); try exact Ht; try exact I.
  destruct mgr as [p|]; cbn [careful].
  - intros r r' i _. apply (careful_bind g o (fits g o)); [apply c_propose, Hk|]. intros th Hth. cbn [careful]. intros [y|]; [apply IH, Hth|exact I].
  - intros th Hth [y|]; [apply IH, Hth|exact I].
Qed.
Lemma c_step n steps a full restarted fuel aStep seeds s : careful g o (fun _ => True) (w_step kupd kpdf dist dist_max mkrng reseed choice n steps a full restarted fuel aStep seeds s).
Proof.
  unfold w_step. destruct (nth_error (M_PMCABC.s_eps _ s) aStep) as [[eps|]|]; [|exact I|exact I].
  set (mgr := match M_PMCABC.s_acc _ s with Some p => Some p | None => _ end).
  apply (careful_bind g o (Forall (fun x => fits g o (fst (fst x))))).
  { apply (careful_map g o (fun _ => True)); [|apply Forall_forall; auto]. intros seed _. unfold w_resample. cbn [careful]. intros r r' x _ th Hth. apply c_resample_loop, Hth. }
  intros results Hr. destruct results as [|x0 results0]; [exact I|]. set (results := x0 :: results0) in *. destruct (if aStep <? steps - 1 then _ else _) as [eps'|]; [|exact I].
  apply (careful_bind g o (Forall (fun _ => True))).
  - apply (careful_map g o (fits g o)).
    + intros th Hth. unfold w_weight. destruct mgr as [p|]; [|exact I]. cbn [careful]. split; [exact Hth|]. intros v. destruct (length (M_PMCABC.p_rows p) <? n); [exact I|]. destruct (negb (length (M_PMCABC.p_w p) =? n)); exact I.
    + apply Forall_forall. intros th Hin. apply in_map_iff in Hin. destruct Hin as (x & <- & Hx). rewrite Forall_forall in Hr. apply Hr, Hx.
  - intros ws _. destruct (if restarted then _ else _) as [eps'' conf']. cbn [careful]. auto.
Qed.
Lemma c_iterate n steps a full restarted fuel : forall seeds aStep s, careful g o (fun _ => True) (w_iterate kupd kpdf dist dist_max mkrng reseed choice n steps a full restarted fuel aStep seeds s).
Proof.
  induction seeds as [|sd seeds IH]; intros aStep s; cbn [w_iterate]; [exact I|]. apply (careful_bind g o (fun _ => True)); [apply c_step|]. intros s' _. apply IH.
Qed.
End Careful2.
End Vector.
