(** Every graph operation reads only the marks and values of the graph it is called on. *)
From Verif Require Import M_Base M_Graph S_Graph L_Graph L_Graph2 L_Graph3 S_Fresh.

Section D.
Variable D : nat -> Prop.
Variable withc : bool.   (* whether stored densities are compared, too *)
Definition alike (s t : st) : Prop :=
  (forall n, D n -> vis s n = vis t n) /\ (forall n, D n -> val s n = val t n) /\ ctr s = ctr t
  /\ (withc = true -> forall n, D n -> cpdf s n = cpdf t n).
Definition respects {A} (m : M st A) : Prop :=
  forall s t, alike s t -> alike (fst (m s)) (fst (m t)) /\ snd (m s) = snd (m t).

Lemma r_ret {A} (a : A) : respects (ret a).
Proof. intros s t H. split; [exact H | reflexivity]. Qed.
Lemma r_raise {A} e : respects (@raise st A e).
Proof. intros s t H. split; [exact H | reflexivity]. Qed.
Lemma r_lift {A} (r : res A) : respects (lift r).
Proof. destruct r; [apply r_ret | apply r_raise]. Qed.
Lemma r_bind {A B} (m : M st A) (f : A -> M st B) : respects m -> (forall a, respects (f a)) -> respects (bind m f).
Proof.
  intros Hm Hf s t H. unfold bind. destruct (Hm s t H) as [H1 H2].
  destruct (m s) as [s1 [a|e]], (m t) as [t1 [b|e']]; cbn [fst snd] in H1, H2; inversion H2; subst.
  - apply Hf. exact H1.
  - split; [exact H1 | reflexivity].
Qed.
Lemma r_forM {A B} (f : A -> M st B) l : (forall a, In a l -> respects (f a)) -> respects (forM f l).
Proof.
  induction l as [|x l IH]; intros H; cbn [forM]; [apply r_ret|].
  apply r_bind; [apply H; left; reflexivity|]. intros b. apply r_bind; [apply IH; intros a Ha; apply H; right; exact Ha|].
  intros bs. apply r_ret.
Qed.
Lemma r_forM_ {A} (f : A -> M st unit) l : (forall a, In a l -> respects (f a)) -> respects (forM_ f l).
Proof.
  induction l as [|x l IH]; intros H; cbn [forM_]; [apply r_ret|].
  apply r_bind; [apply H; left; reflexivity|]. intros []. apply IH. intros a Ha. apply H. right. exact Ha.
Qed.
Lemma r_get_vis n : D n -> respects (get_vis n).
Proof. intros Hn s t H. split; [exact H|]. cbn. f_equal. apply H. exact Hn. Qed.
Lemma r_get_val n : D n -> respects (get_val n).
Proof. intros Hn s t H. split; [exact H|]. cbn. f_equal. apply H. exact Hn. Qed.
Lemma r_get_cpdf n : D n -> withc = true -> respects (get_cpdf n).
Proof. intros Hn Hc s t H. split; [exact H|]. cbn. f_equal. apply H; assumption. Qed.
Lemma r_set_vis n b : respects (set_vis n b).
Proof.
  intros s t (A & B & C & E). split; [|reflexivity]. cbn. split; [|split; [exact B|split; [exact C | exact E]]].
  intros m Hm. cbn. unfold upd. destruct (m =? n); [reflexivity | apply A; exact Hm].
Qed.
Lemma r_set_val n v : respects (set_val n v).
Proof.
  intros s t (A & B & C & E). split; [|reflexivity]. cbn. split; [exact A|split; [|split; [exact C | exact E]]].
  intros m Hm. cbn. unfold upd. destruct (m =? n); [reflexivity | apply B; exact Hm].
Qed.
Lemma r_set_cpdf n q : respects (set_cpdf n q).
Proof.
  intros s t (A & B & C & E). split; [|reflexivity]. cbn. split; [exact A|split; [exact B|split; [exact C|]]].
  intros Hc m Hm. cbn. unfold upd. destruct (m =? n); [reflexivity | apply E; assumption].
Qed.
Lemma r_tick : respects tick.
Proof.
  intros s t (A & B & C & E). cbn. split; [|f_equal; exact C]. split; [exact A|split; [exact B|split; [cbn; lia | exact E]]].
Qed.
Lemma r_emit n : respects (emit n).
Proof. intros s t (A & B & C & E). split; [|reflexivity]. split; [exact A|split; [exact B|split; [exact C | exact E]]]. Qed.

Variable g : graph.
Hypothesis Hdown : forall n p, D n -> In p (gpar g n) -> D p.

Ltac rb := apply r_bind; [|intros ?].

Lemma r_reset f : forall n, respects (reset_node g f n).
Proof.
  induction f as [|f IH]; intros n; cbn [reset_node]; [apply r_raise|].
  rb; [apply r_forM_; intros a _; apply IH|]. rb; [apply r_set_vis | apply r_set_cpdf].
Qed.
Lemma r_reset_flags roots : respects (reset_flags g roots).
Proof. apply r_forM_. intros r _. apply r_reset. Qed.

Lemma r_mapping_loop rec : (forall n i, D n -> respects (rec n i)) ->
  forall ps i, (forall p, In p ps -> D p) -> respects (mapping_loop rec ps i).
Proof.
  intros Hr. induction ps as [|p ps IH]; intros i Hp; cbn [mapping_loop]; [apply r_ret|].
  rb; [apply Hr, Hp; left; reflexivity|]. rb; [apply r_set_vis|].
  rb; [apply IH; intros q Hq; apply Hp; right; exact Hq | apply r_ret].
Qed.
Lemma r_mapping_node f : forall n i, D n -> respects (mapping_node g f n i).
Proof.
  induction f as [|f IH]; intros n i Hn; cbn [mapping_node]; [apply r_raise|].
  rb; [apply r_get_vis; exact Hn|]. rb; [apply r_mapping_loop; [exact IH | intros p; apply Hdown; exact Hn]|].
  rb; [apply r_set_vis | apply r_ret].
Qed.
Lemma r_mapping_roots f : forall rs i, (forall r, In r rs -> D r) -> respects (mapping_roots g f rs i).
Proof.
  induction rs as [|r rs IH]; intros i Hr; cbn [mapping_roots]; [apply r_ret|].
  rb; [apply r_mapping_loop; [apply r_mapping_node | intros p; apply Hdown, Hr; left; reflexivity]|].
  rb; [apply r_set_vis|]. rb; [apply IH; intros q Hq; apply Hr; right; exact Hq | apply r_ret].
Qed.
Lemma r_get_mapping roots : (forall r, In r roots -> D r) -> respects (get_mapping g roots).
Proof. intros Hr. unfold get_mapping. rb; [apply r_mapping_roots; exact Hr|]. rb; [apply r_reset_flags | apply r_ret]. Qed.

Lemma r_getp_loop rec : (forall n, D n -> respects (rec n)) ->
  forall ps, (forall p, In p ps -> D p) -> respects (getp_loop rec ps).
Proof.
  intros Hr. induction ps as [|p ps IH]; intros Hp; cbn [getp_loop]; [apply r_ret|].
  assert (Hpd : D p) by (apply Hp; left; reflexivity).
  rb; [apply r_get_vis; exact Hpd|]. rb.
  - destruct a; cbn [negb]; [apply r_ret|]. rb; [apply Hr; exact Hpd|]. rb; [apply r_set_vis | apply r_ret].
  - rb; [apply IH; intros q Hq; apply Hp; right; exact Hq | apply r_ret].
Qed.
Lemma r_getp_node f : forall n, D n -> respects (getp_node g f n).
Proof.
  induction f as [|f IH]; intros n Hn; cbn [getp_node]; [apply r_raise|]. rb.
  - destruct (is_free g n); [|apply r_ret]. rb; [apply r_get_val; exact Hn|]. rb; [apply r_set_vis | apply r_ret].
  - rb; [apply r_getp_loop; [exact IH | intros p; apply Hdown; exact Hn] | apply r_ret].
Qed.
Lemma r_get_parameters roots : (forall r, In r roots -> D r) -> respects (get_parameters g roots).
Proof.
  intros Hr. unfold get_parameters. rb.
  - apply r_forM. intros r Hin. apply r_getp_loop; [apply r_getp_node | intros p; apply Hdown, Hr; exact Hin].
  - rb; [apply r_reset_flags | apply r_ret].
Qed.

Lemma r_input_values n : D n -> respects (input_values g n).
Proof.
  intros Hn. unfold input_values. apply r_forM. intros [m j] Hin. unfold input_value. cbn [fst snd]. rb.
  - apply r_get_val. apply Hdown with n; [exact Hn|]. unfold gpar. apply in_map_iff. exists (m, j). split; [reflexivity | exact Hin].
  - destruct a as [l|]; [|apply r_ret]. destruct (nth_error l j); [apply r_ret | apply r_raise].
Qed.
Lemma r_sov n v : D n -> respects (set_output_values g n v).
Proof.
  intros Hn. unfold set_output_values. destruct (length v =? gdim g n); [|apply r_raise].
  rb; [apply r_input_values; exact Hn|]. destruct (gchk_out g n a v); [|apply r_ret]. rb; [apply r_set_val | apply r_ret].
Qed.
Lemma r_setp_loop rec : (forall n i, D n -> respects (rec n i)) ->
  forall ps i, (forall p, In p ps -> D p) -> respects (setp_loop g rec ps i).
Proof.
  intros Hr. induction ps as [|p ps IH]; intros i Hp; cbn [setp_loop]; [apply r_ret|].
  assert (Hpd : D p) by (apply Hp; left; reflexivity).
  assert (Hps : forall q, In q ps -> D q) by (intros q Hq; apply Hp; right; exact Hq).
  rb; [apply r_get_vis; exact Hpd|]. destruct (a || is_hyper g p); [apply IH; exact Hps|].
  rb; [apply Hr; exact Hpd|]. destruct (fst a0); [apply IH; exact Hps | apply r_ret].
Qed.
Lemma r_setp_node params f : forall n i, D n -> respects (setp_node g params f n i).
Proof.
  induction f as [|f IH]; intros n i Hn; cbn [setp_node]; [apply r_raise|]. rb.
  - destruct (is_oper g n); [apply r_ret|]. destruct (nth_error params i); [|apply r_raise].
    rb; [apply r_sov; exact Hn|]. destruct a; [|apply r_ret]. rb; [apply r_set_vis | apply r_ret].
  - destruct (fst a); [|apply r_ret].
    rb; [apply r_setp_loop; [exact IH | intros p; apply Hdown; exact Hn]|].
    destruct (fst a0); [|apply r_ret]. rb; [apply r_set_vis | apply r_ret].
Qed.
Lemma r_setp_roots params f : forall rs i, (forall r, In r rs -> D r) -> respects (setp_roots g params f rs i).
Proof.
  induction rs as [|r rs IH]; intros i Hr; cbn [setp_roots]; [apply r_ret|].
  rb; [apply r_setp_loop; [apply r_setp_node | intros p; apply Hdown, Hr; left; reflexivity]|].
  destruct (fst a); [|apply r_ret]. rb; [apply r_set_vis|]. apply IH. intros q Hq. apply Hr. right. exact Hq.
Qed.
Lemma r_set_parameters roots params : (forall r, In r roots -> D r) -> respects (set_parameters g roots params).
Proof. intros Hr. unfold set_parameters. rb; [apply r_setp_roots; exact Hr|]. rb; [apply r_reset_flags | apply r_ret]. Qed.

Lemma r_order_loop {A} (rec : nat -> M st (list A)) : (forall n, D n -> respects (rec n)) ->
  forall ps, (forall p, In p ps -> D p) -> respects (order_loop rec ps).
Proof.
  intros Hr. induction ps as [|p ps IH]; intros Hp; cbn [order_loop]; [apply r_ret|].
  assert (Hpd : D p) by (apply Hp; left; reflexivity).
  rb; [apply r_get_vis; exact Hpd|]. rb; [destruct a; cbn [negb]; [apply r_ret | apply Hr; exact Hpd]|].
  rb; [apply IH; intros q Hq; apply Hp; right; exact Hq | apply r_ret].
Qed.
Lemma r_order_node {A} (pm : list (nat * list A)) f : forall n, D n -> respects (order_node g pm f n).
Proof.
  induction f as [|f IH]; intros n Hn; cbn [order_node]; [apply r_raise|].
  rb; [apply r_get_vis; exact Hn|]. destruct a; cbn [negb]; [apply r_ret|]. rb; [apply r_set_vis|].
  rb; [apply r_order_loop; [exact IH | intros p; apply Hdown; exact Hn] | apply r_ret].
Qed.
Lemma r_ordering {A} (pm : list (nat * list A)) roots : (forall r, In r roots -> D r) ->
  respects (get_correct_ordering g roots pm).
Proof.
  intros Hr. unfold get_correct_ordering. rb; [apply r_forM; intros r Hin; apply r_order_node, Hr; exact Hin|].
  rb; [apply r_reset_flags | apply r_ret].
Qed.

Lemma r_apm_loop rec : (forall n i, D n -> respects (rec n i)) ->
  forall ps i, (forall p, In p ps -> D p) -> respects (apm_loop rec ps i).
Proof.
  intros Hr. induction ps as [|p ps IH]; intros i Hp; cbn [apm_loop]; [apply r_ret|].
  rb; [apply Hr, Hp; left; reflexivity|].
  rb; [apply IH; intros q Hq; apply Hp; right; exact Hq | apply r_ret].
Qed.
Lemma r_apm_node f : forall top n i, D n -> respects (apm_node g top f n i).
Proof.
  induction f as [|f IH]; intros top n i Hn; cbn [apm_node]; [apply r_raise|].
  rb; [apply r_get_vis; exact Hn|]. destruct (negb a && negb (is_hyper g n)); [|apply r_ret].
  rb; [apply r_set_vis|]. rb; [|apply r_ret]. apply r_apm_loop; [intros m j; apply IH | intros p; apply Hdown; exact Hn].
Qed.
Lemma r_apm_reset f : forall n, D n -> respects (apm_reset_node g f n).
Proof.
  induction f as [|f IH]; intros n Hn; cbn [apm_reset_node]; [apply r_raise|]. rb; [|apply r_set_vis].
  apply r_forM_. intros p Hp. assert (Hpd : D p) by (apply Hdown with n; assumption).
  rb; [apply r_get_vis; exact Hpd|]. destruct a; [apply IH; exact Hpd | apply r_ret].
Qed.
Lemma r_apm roots : (forall r, In r roots -> D r) -> respects (apm_get_mapping g roots).
Proof.
  intros Hr. unfold apm_get_mapping. rb; [apply r_apm_loop; [intros n i; apply r_apm_node | exact Hr]|].
  rb; [apply r_forM_; intros r Hin; apply r_apm_reset, Hr; exact Hin | apply r_ret].
Qed.

Lemma r_opsample_loop rec : (forall n, D n -> respects (rec n)) ->
  forall ps acc, (forall p, In p ps -> D p) -> respects (opsample_loop g rec ps acc).
Proof.
  intros Hr. induction ps as [|p ps IH]; intros acc Hp; cbn [opsample_loop]; [apply r_ret|].
  assert (Hpd : D p) by (apply Hp; left; reflexivity).
  assert (Hps : forall q, In q ps -> D q) by (intros q Hq; apply Hp; right; exact Hq).
  rb; [apply r_get_vis; exact Hpd|]. destruct a; [apply IH; exact Hps|].
  rb; [apply r_input_values; exact Hpd|]. destruct (gchk_in g p a); [|apply r_raise].
  rb; [apply Hr; exact Hpd|]. rb; [apply r_set_vis | apply IH; exact Hps].
Qed.
Lemma r_fsim f : forall n k, D n -> respects (fsim g f n k).
Proof.
  induction f as [|f IH]; intros n k Hn; cbn [fsim]; [apply r_raise|]. destruct (gkind g n).
  - rb; [apply r_get_val; exact Hn|]. destruct a; [apply r_ret | apply r_raise].
  - rb.
    + assert (Hps : forall p, In p (gpar g n) -> D p) by (intros p; apply Hdown; exact Hn).
      unfold opsample. rb; [apply r_forM; intros p Hp; apply r_get_vis, Hps; exact Hp|].
      rb; [apply r_forM_; intros p Hp; apply r_set_vis|].
      rb; [apply r_opsample_loop; [intros m Hm; apply IH; exact Hm | exact Hps]|].
      rb; [apply r_forM_; intros p Hp; apply r_set_vis | apply r_ret].
    + rb; [apply r_lift | apply r_ret].
  - rb; [apply r_input_values; exact Hn|]. rb; [apply r_tick | apply r_ret].
  - rb; [apply r_input_values; exact Hn|]. rb; [apply r_tick | apply r_ret].
Qed.
Lemma r_draw f n : D n -> respects (draw_and_store g f n).
Proof.
  intros Hn. unfold draw_and_store. destruct (is_hyper g n).
  - rb; [apply r_emit|]. rb; [apply r_set_vis | apply r_ret].
  - rb; [apply r_input_values; exact Hn|]. destruct (gchk_in g n a); [|apply r_ret].
    rb; [apply r_fsim; exact Hn|]. destruct a0 as [[|v rest]|]; [apply r_raise | | apply r_ret].
    rb; [apply r_emit|]. rb; [apply r_sov; exact Hn | apply r_ret].
Qed.
Lemma r_sample_loop rec : (forall n, D n -> respects (rec n)) ->
  forall ps, (forall p, In p ps -> D p) -> respects (sample_loop rec ps).
Proof.
  intros Hr. induction ps as [|p ps IH]; intros Hp; cbn [sample_loop]; [apply r_ret|].
  assert (Hpd : D p) by (apply Hp; left; reflexivity).
  assert (Hps : forall q, In q ps -> D q) by (intros q Hq; apply Hp; right; exact Hq).
  rb; [apply r_get_vis; exact Hpd|]. destruct a; [apply IH; exact Hps|]. rb; [apply r_set_vis|].
  rb; [apply Hr; exact Hpd|]. destruct a0; [apply IH; exact Hps | apply r_ret].
Qed.
Lemma r_sample_node f : forall n, D n -> respects (sample_node g f n).
Proof.
  induction f as [|f IH]; intros n Hn; cbn [sample_node]; [apply r_raise|].
  rb; [apply r_sample_loop; [exact IH | intros p; apply Hdown; exact Hn]|]. destruct a; [|apply r_ret].
  rb; [apply r_draw; exact Hn|]. destruct a; [|apply r_ret]. rb; [apply r_set_vis | apply r_ret].
Qed.
Lemma r_sample_roots f : forall rs, (forall r, In r rs -> D r) -> respects (sample_roots g f rs).
Proof.
  induction rs as [|r rs IH]; intros Hr; cbn [sample_roots]; [apply r_ret|].
  rb; [apply r_sample_loop; [apply r_sample_node | intros p; apply Hdown, Hr; left; reflexivity]|].
  destruct a; [|apply r_ret]. rb; [apply r_set_vis|]. apply IH. intros q Hq. apply Hr. right. exact Hq.
Qed.
Lemma r_sample roots tries : (forall r, In r roots -> D r) -> respects (sample_from_prior g roots tries).
Proof.
  intros Hr. induction tries as [|t IH]; cbn [sample_from_prior]; [apply r_raise|].
  rb; [apply r_sample_roots; exact Hr|]. rb; [apply r_reset_flags|]. destruct a; [apply r_ret | exact IH].
Qed.

Lemma r_pdf_node mp params f : withc = true -> forall n, D n -> respects (pdf_node g mp params f n).
Proof.
  intros Hc. induction f as [|f IH]; intros n Hn; cbn [pdf_node]; [apply r_raise|].
  rb; [destruct (is_oper g n); [apply r_ret | apply r_lift]|].
  rb; [apply r_forM; intros p Hp; apply IH, Hdown with n; assumption|].
  rb; [apply r_get_cpdf; assumption|]. destruct a1; [apply r_ret|].
  destruct (gkind g n); try apply r_ret.
  - rb; [apply r_input_values; exact Hn|]. rb; [apply r_set_cpdf | apply r_ret].
  - rb; [apply r_input_values; exact Hn | apply r_ret].
Qed.
Lemma r_pdf_roots mp params f roots : withc = true -> (forall r, In r roots -> D r) ->
  respects (forM (pdf_root g mp params f) roots).
Proof.
  intros Hc Hr. apply r_forM. intros r Hin. unfold pdf_root. rb; [|apply r_ret].
  apply r_forM. intros p Hp. apply r_pdf_node; [exact Hc|]. apply Hdown with r; [apply Hr; exact Hin | exact Hp].
Qed.
End D.

Section Ask.
Variables (g : graph) (roots : list nat).
Hypothesis Hwf : wf g.
Let D n := exists r, In r roots /\ (n = r \/ Anc g n r).
Lemma D_down n p : D n -> In p (gpar g n) -> D p.
Proof.
  intros (r & Hr & [->|Ha]) Hp; exists r; (split; [exact Hr|]); right; [constructor; exact Hp|].
  clear - Ha Hp. induction Ha as [a n Hin|a q n Hin Ha IH]; [apply anc_step with a; [exact Hin | constructor; exact Hp]|].
  apply anc_step with q; [exact Hin | apply IH; exact Hp].
Qed.
Lemma D_roots r : In r roots -> D r.
Proof. intros Hr. exists r. split; [exact Hr | left; reflexivity]. Qed.

Lemma reset_none s s' n : reset_flags g roots s = (s', Ok tt) -> D n -> cpdf s' n = None.
Proof.
  intros H (r & Hr & Hn). destruct (reset_flags_spec g Hwf roots s) as (s2 & H2 & Hcd).
  assert (s2 = s') by congruence. subst s2.
  destruct (cleared_tidy g Hwf roots s s s' eq_refl eq_refl Hcd) as [(_ & Hc & _) _]. apply (Hc r n Hr Hn).
Qed.
Lemma r_pdf params : respects D false (pdf_of_prior g roots params).
Proof.
  intros s t H.
  set (K := fun mp : list (nat * nat) * nat => rs <- forM (pdf_root g (fst mp) params (depth roots)) roots ;; ret (fold_left Qmult rs 1%Q)).
  change (pdf_of_prior g roots params) with (set_parameters g roots params ;;; (mp <- get_mapping g roots ;; K mp)).
  unfold bind.
  destruct (r_set_parameters D false g D_down roots params D_roots s t H) as [H1 H2].
  destruct (set_parameters g roots params s) as [s1 [a|e]], (set_parameters g roots params t) as [t1 [b|e']];
    cbn [fst snd] in H1, H2; inversion H2; subst; [|split; [exact H1 | reflexivity]].
  destruct (r_get_mapping D false g D_down roots D_roots s1 t1 H1) as [H3 H4].
  destruct (get_mapping g roots s1) as [s2 [mp|e]] eqn:E1, (get_mapping g roots t1) as [t2 [mp'|e']] eqn:E2;
    cbn [fst snd] in H3, H4; inversion H4; subst; [|split; [exact H3 | reflexivity]].
  assert (Hnone : forall u u' m, get_mapping g roots u = (u', Ok m) -> forall n, D n -> cpdf u' n = None).
  { intros u u' m Hm. unfold get_mapping in Hm. apply bind_ok in Hm. destruct Hm as (u1 & r & _ & Hm).
    apply bind_ok in Hm. destruct Hm as (u2 & [] & Hm & Hr). inversion Hr; subst. intros n. apply (reset_none u1). exact Hm. }
  assert (H5 : alike D true s2 t2).
  { destruct H3 as (A & B & C & _). split; [exact A|]. split; [exact B|]. split; [exact C|]. intros _ n Hn.
    rewrite (Hnone s1 s2 mp' E1 n Hn), (Hnone t1 t2 mp' E2 n Hn). reflexivity. }
  assert (HR : respects D true (K mp')).
  { apply r_bind; [apply r_pdf_roots; [exact D_down | reflexivity | exact D_roots] | intros l; apply r_ret]. }
  destruct (HR s2 t2 H5) as [(A & B & C & _) Hq]. split; [|exact Hq].
  split; [exact A|]. split; [exact B|]. split; [exact C|]. discriminate.
Qed.

Lemma answer_alike {A} (f : A -> reply) (m : M st A) s t : respects D false m -> alike D false s t ->
  alike D false (fst (answer f (m s))) (fst (answer f (m t))) /\ snd (answer f (m s)) = snd (answer f (m t)).
Proof. intros Hm H. destruct (Hm s t H) as [H1 H2]. unfold answer. cbn [fst snd]. rewrite H2. split; [exact H1 | reflexivity]. Qed.
Lemma ask_alike o s t : alike D false s t ->
  alike D false (fst (ask g roots o s)) (fst (ask g roots o t)) /\ snd (ask g roots o s) = snd (ask g roots o t).
Proof.
  destruct o; cbn [ask]; apply answer_alike.
  - apply r_sample; [exact D_down | exact D_roots].
  - apply r_get_parameters; [exact D_down | exact D_roots].
  - apply r_set_parameters; [exact D_down | exact D_roots].
  - apply r_ordering; [exact D_down | exact D_roots].
  - apply r_get_mapping; [exact D_down | exact D_roots].
  - apply r_apm; [exact D_down | exact D_roots].
  - apply r_pdf.
Qed.
Lemma asks_alike os : forall s t, alike D false s t -> asks g roots os s = asks g roots os t.
Proof.
  induction os as [|o os IH]; intros s t H; [reflexivity|]. cbn [asks].
  destruct (ask_alike o s t H) as [H1 H2].
  destruct (ask g roots o s) as [s1 r1], (ask g roots o t) as [t1 r2]. cbn [fst snd] in H1, H2. subst r2.
  destruct r1; try reflexivity; f_equal; apply IH; exact H1.
Qed.
Lemma asks_newborn os s : clean g roots s -> asks g roots os s = asks g roots os (newborn s).
Proof.
  intros Hc. apply asks_alike. split; [|split; [reflexivity|split; [reflexivity | discriminate]]].
  intros n (r & Hr & Hn). apply (Hc r n Hr Hn).
Qed.
End Ask.
