(** Proofs about perturbation kernels. *)
From Coq Require Import Qabs Permutation Lqa.
From Verif Require Import M_Base M_Num M_Graph S_Graph L_Graph L_Graph2 L_Graph3 L_Graph4 M_Infer M_Journal M_APM L_APM M_Kernel S_Kernel.

Section Joint.
Variables C Rng D V : Type.
Notation kern := (kernel C Rng D V).

Lemma memb_in n l : memb n l = true <-> In n l.
Proof. apply memb_In. Qed.
Lemma check_models_ok ms : forall seen, NoDup seen ->
  (NoDup (seen ++ ms) /\ check_models ms seen = Ok (seen ++ ms)) \/ (~ NoDup (seen ++ ms) /\ check_models ms seen = Err ValueError).
Proof.
  induction ms as [|m ms IH]; intros seen Hs; cbn [check_models].
  - left. rewrite app_nil_r. split; [exact Hs | reflexivity].
  - destruct (memb m seen) eqn:E.
    + right. split; [|reflexivity]. intros Hn. apply NoDup_remove_2 in Hn. apply Hn. apply in_or_app. left. apply memb_in. exact E.
    + assert (Hs' : NoDup (seen ++ [m])).
      { apply (Permutation_NoDup (Permutation_cons_append seen m)). constructor; [|exact Hs]. intros Hi. apply memb_in in Hi. congruence. }
      specialize (IH _ Hs'). rewrite <- app_assoc in IH. exact IH.
Qed.
Lemma check_kernels_ok (ks : list kern) : forall seen, NoDup seen ->
  (NoDup (seen ++ flat_map k_models ks) /\ check_kernels C Rng D V ks seen = Ok (seen ++ flat_map k_models ks))
  \/ (~ NoDup (seen ++ flat_map k_models ks) /\ check_kernels C Rng D V ks seen = Err ValueError).
Proof.
  induction ks as [|k ks IH]; intros seen Hs; cbn [check_kernels flat_map].
  - left. rewrite app_nil_r. split; [exact Hs | reflexivity].
  - destruct (check_models_ok (k_models k) seen Hs) as [(Hn & E) | (Hn & E)]; rewrite E.
    + specialize (IH _ Hn). rewrite <- app_assoc in IH. exact IH.
    + right. split; [|reflexivity]. intros H. apply Hn. rewrite app_assoc in H. clear - H. revert H. generalize (seen ++ k_models k) as a. generalize (flat_map k_models ks) as b.
      intros b a. revert b. induction a as [|x a IH]; intros b H; [constructor|]. inversion_clear H as [|? ? Hx Ha]. constructor; [|apply (IH b); exact Ha].
      intros Hi. apply Hx. apply in_or_app. left. exact Hi.
Qed.

Lemma update_all_moves (ks : list kern) covs row : forall ki kparams r r' outs,
  update_all C Rng D V ki ks kparams covs row r = (r', Ok outs) <->
  exists rows, length rows = length ks /\ (forall j v, nth_error rows j = Some v -> exists t, nth_error kparams (ki + j) = Some t /\ nth_error t row = Some v)
               /\ Moves covs ki ks rows r r' outs.
Proof.
  induction ks as [|k ks IH]; intros ki kparams r r' outs; cbn [update_all].
  - split.
    + intros H. injection H as <- <-. exists []. split; [reflexivity|]. split; [intros j v H; destruct j; discriminate | constructor].
    + intros (rows & _ & _ & H). inversion H. reflexivity.
  - split.
    + destruct (nth_error kparams ki) as [t|] eqn:Et; [|discriminate]. destruct (nth_error t row) as [v|] eqn:Ev; [|discriminate].
      destruct (k_upd k (nth_error covs ki) v r) as [r1 [o|e]] eqn:Ek; [|discriminate].
      destruct (update_all C Rng D V (S ki) ks kparams covs row r1) as [r2 [os|e]] eqn:Er; [|discriminate]. intros H. injection H as <- <-.
      apply IH in Er. destruct Er as (rows & Hl & Hr & Hm). exists (v :: rows). split; [cbn; congruence|]. split.
      * intros [|j] w; cbn [nth_error]; intros H; [injection H as <-; rewrite Nat.add_0_r; exists t; split; assumption|].
        rewrite Nat.add_succ_r. apply (Hr j w H).
      * econstructor; eassumption.
    + intros (rows & Hl & Hr & Hm). inversion Hm as [|? ? ? w rows' ? r1 ? out outs' Hk Hm']; subst.
      destruct (Hr 0 w eq_refl) as (t & Ht & Hw). rewrite Nat.add_0_r in Ht. rewrite Ht, Hw, Hk.
      assert (E : update_all C Rng D V (S ki) ks kparams covs row r1 = (r', Ok outs')).
      { apply IH. exists rows'. split; [cbn in Hl; congruence|]. split; [|exact Hm']. intros j v H. specialize (Hr (S j) v H). rewrite Nat.add_succ_r in Hr. exact Hr. }
      rewrite E. reflexivity.
Qed.
Lemma moves_len covs (ks : list kern) : forall ki rows r r' outs, Moves covs ki ks rows r r' outs -> length rows = length ks /\ length outs = length ks.
Proof.
  induction ks as [|k ks IH]; intros ki rows r r' outs H; inversion H as [|? ? ? w rows' ? r1 ? out outs' Hk Hm]; subst; cbn; [split; reflexivity|].
  destruct (IH _ _ _ _ _ Hm) as (A & B). split; congruence.
Qed.

Lemma pair_models_ok ms : forall index vals l, pair_models V ms index vals = Ok l ->
  map fst l = ms /\ forall p m, nth_error ms p = Some m -> exists v, nth_error vals (index + p) = Some v /\ nth_error l p = Some (m, [v]).
Proof.
  induction ms as [|m ms IH]; intros index vals l; cbn [pair_models].
  - intros H. injection H as <-. split; [reflexivity|]. intros [|p] m H; discriminate.
  - destruct (nth_error vals index) as [v|] eqn:Ev; [|discriminate]. destruct (pair_models V ms (S index) vals) as [l'|e] eqn:El; [|discriminate].
    intros H. injection H as <-. destruct (IH _ _ _ El) as (H1 & H2). split; [cbn; congruence|].
    intros [|p] m' H; cbn [nth_error] in *; [injection H as <-; exists v; rewrite Nat.add_0_r; split; [exact Ev | reflexivity]|].
    rewrite Nat.add_succ_r. apply (H2 p m' H).
Qed.
Lemma pair_models_ex ms : forall index vals, index + length ms <= length vals -> exists l, pair_models V ms index vals = Ok l.
Proof.
  induction ms as [|m ms IH]; intros index vals H; cbn [pair_models]; [eexists; reflexivity|]. cbn [length] in H.
  destruct (nth_error vals index) as [v|] eqn:Ev; [|apply nth_error_None in Ev; lia]. destruct (IH (S index) vals ltac:(lia)) as (l & ->). eexists. reflexivity.
Qed.
Lemma pair_models_short ms : forall index vals, length vals < index + length ms -> ms <> [] -> pair_models V ms index vals = Err IndexError.
Proof.
  induction ms as [|m ms IH]; intros index vals H Hn; [congruence|]. cbn [pair_models]. cbn [length] in H.
  destruct (nth_error vals index) as [v|] eqn:Ev; [|reflexivity].
  destruct ms as [|m' ms]. { assert (index < length vals) by (apply nth_error_Some; congruence). cbn in H. lia. }
  rewrite IH; [reflexivity | cbn [length] in *; lia | discriminate].
Qed.
Lemma pair_all_ok (ks : list kern) : forall outs pm, length outs = length ks -> pair_all C Rng D V ks outs = Ok pm ->
  map fst pm = flat_map k_models ks
  /\ forall i k out p m, nth_error ks i = Some k -> nth_error outs i = Some out -> nth_error (k_models k) p = Some m ->
       exists v, nth_error out p = Some v /\ In (m, [v]) pm.
Proof.
  induction ks as [|k ks IH]; intros outs pm Hl; cbn [pair_all].
  - intros H. injection H as <-. split; [reflexivity|]. intros [|i]; discriminate.
  - destruct outs as [|out outs]; [discriminate|]. destruct (pair_models V (k_models k) 0 out) as [l|e] eqn:E1; [|discriminate].
    destruct (pair_all C Rng D V ks outs) as [l'|e] eqn:E2; [|discriminate]. intros H. injection H as <-.
    destruct (pair_models_ok _ _ _ _ E1) as (A1 & A2). destruct (IH outs l' ltac:(cbn in Hl; congruence) E2) as (B1 & B2).
    split; [rewrite map_app; cbn [flat_map]; congruence|].
    intros [|i] k' o p m Hk Ho Hm; cbn [nth_error] in *.
    + injection Hk as <-. injection Ho as <-. destruct (A2 p m Hm) as (v & Hv & Hin). exists v. split; [exact Hv|]. apply in_or_app. left. apply (nth_error_In _ _ Hin).
    + destruct (B2 i k' o p m Hk Ho Hm) as (v & Hv & Hin). exists v. split; [exact Hv|]. apply in_or_app. right. exact Hin.
Qed.
Lemma values_of_unique {A} (pm : list (nat * list A)) m v : NoDup (map fst pm) -> In (m, v) pm -> values_of pm m = v.
Proof.
  unfold values_of. induction pm as [|[m' v'] pm IH]; intros Hn Hi; [contradiction|]. cbn [find fst]. cbn [map fst] in Hn. inversion_clear Hn as [|? ? Hx Hn'].
  destruct Hi as [E | Hi].
  - injection E as -> ->. rewrite Nat.eqb_refl. reflexivity.
  - destruct (Nat.eqb_spec m' m) as [-> | Hne]; [|apply IH; assumption]. exfalso. apply Hx. apply (in_map fst) in Hi. exact Hi.
Qed.
Lemma values_of_none {A} (pm : list (nat * list A)) m : ~ In m (map fst pm) -> values_of pm m = [].
Proof.
  unfold values_of. induction pm as [|[m' v'] pm IH]; intros Hn; [reflexivity|]. cbn [find fst]. cbn [map fst In] in Hn.
  destruct (Nat.eqb_spec m' m) as [-> | Hne]; [exfalso; apply Hn; left; reflexivity|]. apply IH. intros Hi. apply Hn. right. exact Hi.
Qed.

(** densities *)
Lemma pick_none o (x : list V) m k : ~ In m o -> pick V m (combine o (seq k (length o))) x = Ok [].
Proof.
  revert k. induction o as [|n o IH]; intros k H; [reflexivity|]. cbn [length seq combine pick]. destruct (Nat.eqb_spec m n) as [-> | Hne]; [exfalso; apply H; left; reflexivity|].
  apply IH. intros Hi. apply H. right. exact Hi.
Qed.
Lemma pick_one (f : nat -> V) m : forall o o0, NoDup o -> In m o -> pick V m (combine o (seq (length o0) (length o))) (map f (o0 ++ o)) = Ok [f m].
Proof.
  induction o as [|n o IH]; intros o0 Hn Hi; [contradiction|]. cbn [length seq combine pick]. inversion_clear Hn as [|? ? Hx Hn'].
  destruct (Nat.eqb_spec m n) as [-> | Hne].
  - assert (E : nth_error (map f (o0 ++ n :: o)) (length o0) = Some (f n)).
    { rewrite nth_error_map, nth_error_app2, Nat.sub_diag by lia. reflexivity. }
    rewrite E, pick_none by exact Hx. reflexivity.
  - destruct Hi as [-> | Hi]; [congruence|]. specialize (IH (o0 ++ [n]) Hn' Hi). rewrite app_length in IH. cbn [length] in IH. rewrite Nat.add_1_r in IH. rewrite <- app_assoc in IH. exact IH.
Qed.
Lemma pick_all_ok (f : nat -> V) o ms : NoDup o -> incl ms o -> pick_all V ms (combine o (seq 0 (length o))) (map f o) = Ok (map f ms).
Proof.
  intros Hn. induction ms as [|m ms IH]; intros Hi; [reflexivity|]. cbn [pick_all map].
  pose proof (pick_one f m o [] Hn (Hi m (or_introl eq_refl))) as E. cbn [length app] in E. rewrite E, IH by (intros a Ha; apply Hi; right; exact Ha). reflexivity.
Qed.
Lemma joint_pdf_ok mul covs (fm fx : nat -> V) o (ks : list kern) ds : NoDup o -> forall ki acc, incl (flat_map k_models ks) o -> Densities covs fm fx ki ks ds ->
  joint_pdf_from C Rng D V mul ki ks (combine o (seq 0 (length o))) covs (map fm o) (map fx o) acc = Ok (fold_left mul ds acc).
Proof.
  intros Hn. revert ds. induction ks as [|k ks IH]; intros ds ki acc Hi Hd; inversion Hd as [|? ? ? d ds' Hk Hd']; subst; cbn [joint_pdf_from fold_left]; [reflexivity|].
  cbn [flat_map] in Hi. rewrite !pick_all_ok by (try exact Hn; intros a Ha; apply Hi; apply in_or_app; left; exact Ha). rewrite Hk.
  apply IH; [intros a Ha; apply Hi; apply in_or_app; right; exact Ha | exact Hd'].
Qed.
End Joint.

Section Graph.
Variables C Rng D V : Type.
Notation kern := (kernel C Rng D V).
Variable g : graph.
Hypothesis Hwf : wf g.

Lemma kernel_parameters_ok roots (ks : list kern) pop o : indep g roots -> (forall r, In r roots -> is_hyper g r = false) -> ParamOrder g roots o ->
  incl (flat_map k_models ks) o ->
  forall s, clean g roots s ->
  exists s', kernel_parameters C Rng D V g roots (map (fun f => map f o) pop) ks s = (s', Ok (map (fun k => map (fun f => map f (k_models k)) pop) ks))
             /\ clean g roots s' /\ val s' = val s.
Proof.
  intros Hi Hh Ho. induction ks as [|k ks IH]; intros Hs s Hc; unfold kernel_parameters; cbn [forM].
  - exists s. split; [reflexivity|]. split; [exact Hc | reflexivity].
  - destruct (bds_values_ok V g Hwf roots s pop o (k_models k) Hi Hh Hc Ho) as (s1 & E1 & Hc1 & Hv1).
    cbn [flat_map] in Hs. destruct (IH ltac:(intros a Ha; apply Hs, in_or_app; right; exact Ha) s1 Hc1) as (s2 & E2 & Hc2 & Hv2).
    exists s2. split; [|split; [exact Hc2 | congruence]]. unfold bind. unfold table in E1. rewrite E1. unfold kernel_parameters in E2. rewrite E2. unfold ret. cbn [map].
    do 3 f_equal. apply map_ext. intros f. f_equal. clear - Hs. assert (Hk : incl (k_models k) o) by (intros a Ha; apply Hs, in_or_app; left; exact Ha). clear Hs.
    induction (k_models k) as [|m ms IH]; [reflexivity|]. cbn [filter].
    destruct (memb m o) eqn:E; [f_equal; apply IH; intros a Ha; apply Hk; right; exact Ha|].
    exfalso. assert (X : memb m o = true) by (apply memb_In; apply Hk; left; reflexivity). congruence.
Qed.
End Graph.

Section Proposal.
Variables C Rng D V : Type.
Notation kern := (kernel C Rng D V).
Variable g : graph.
Hypothesis Hwf : wf g.

Lemma pair_all_ex (ks : list kern) : forall outs, length outs = length ks ->
  (forall j k out, nth_error ks j = Some k -> nth_error outs j = Some out -> length (k_models k) <= length out) -> exists pm, pair_all C Rng D V ks outs = Ok pm.
Proof.
  induction ks as [|k ks IH]; intros outs Hl H; cbn [pair_all]; [eexists; reflexivity|]. destruct outs as [|out outs]; [discriminate|].
  destruct (pair_models_ex V (k_models k) 0 out (H 0 k out eq_refl eq_refl)) as (l & ->).
  destruct (IH outs ltac:(cbn in Hl; congruence) (fun j => H (S j))) as (l' & ->). eexists. reflexivity.
Qed.
Lemma in_flat_nth (ks : list kern) m : In m (flat_map k_models ks) -> exists j k p, nth_error ks j = Some k /\ nth_error (k_models k) p = Some m.
Proof.
  intros H. apply in_flat_map in H. destruct H as (k & Hk & Hm). apply In_nth_error in Hk. destruct Hk as (j & Hj). apply In_nth_error in Hm. destruct Hm as (p & Hp).
  exists j, k, p. split; assumption.
Qed.
Lemma flat_single {A B} (f : A -> list B) (h : A -> B) o : (forall m, In m o -> f m = [h m]) -> flat_map f o = map h o.
Proof. induction o as [|m o IH]; intros H; [reflexivity|]. cbn [flat_map map]. rewrite (H m (or_introl eq_refl)). cbn [app]. f_equal. apply IH. intros a Ha. apply H. right. exact Ha. Qed.

Lemma proposal_ok roots s (ks : list kern) pop o i f covs r r' outs :
  indep g roots -> (forall r, In r roots -> is_hyper g r = false) -> clean g roots s -> ParamOrder g roots o ->
  NoDup (flat_map k_models ks) -> (forall m, In m (flat_map k_models ks) <-> In m o) ->
  nth_error pop i = Some f -> Moves covs 0 ks (map (fun k => map f (k_models k)) ks) r r' outs ->
  (forall j k out, nth_error ks j = Some k -> nth_error outs j = Some out -> length out = length (k_models k)) ->
  exists s1 kp s2 v, kernel_parameters C Rng D V g roots (map (fun f => map f o) pop) ks s = (s1, Ok kp)
    /\ proposal C Rng D V g roots ks kp covs i r s1 = (s2, Ok (r', v)) /\ clean g roots s2 /\ val s2 = val s /\ length v = length o
    /\ forall j k out p m q, nth_error ks j = Some k -> nth_error outs j = Some out -> nth_error (k_models k) p = Some m -> nth_error o q = Some m ->
         nth_error v q = nth_error out p.
Proof.
  intros Hi Hh Hc Ho Hnd Hcov Hf Hm Hsz.
  assert (Hincl : incl (flat_map k_models ks) o) by (intros m; apply Hcov).
  destruct (kernel_parameters_ok C Rng D V g Hwf roots ks pop o Hi Hh Ho Hincl s Hc) as (s1 & E1 & Hc1 & Hv1).
  set (kp := map (fun k => map (fun f => map f (k_models k)) pop) ks) in *.
  assert (Hlen := moves_len C Rng D V covs ks _ _ _ _ _ Hm). destruct Hlen as (_ & Hlo).
  assert (Eu : update_all C Rng D V 0 ks kp covs i r = (r', Ok outs)).
  { apply update_all_moves. exists (map (fun k => map f (k_models k)) ks). split; [apply map_length|]. split; [|exact Hm].
    intros j v Hj. rewrite nth_error_map in Hj. destruct (nth_error ks j) as [k|] eqn:Ek; [|discriminate]. cbn in Hj. injection Hj as <-.
    exists (map (fun f => map f (k_models k)) pop). cbn [Nat.add]. split; [unfold kp; rewrite nth_error_map, Ek; reflexivity|]. rewrite nth_error_map, Hf. reflexivity. }
  destruct (pair_all_ex ks outs Hlo) as (pm & Ep). { intros j k out Hk Hout. rewrite (Hsz j k out Hk Hout). lia. }
  destruct (pair_all_ok C Rng D V ks outs pm Hlo Ep) as (Hfst & Hval).
  assert (Hndp : NoDup (map fst pm)) by (rewrite Hfst; exact Hnd).
  assert (Hone : forall m, In m o -> exists v, values_of pm m = [v] /\ forall j k out p, nth_error ks j = Some k -> nth_error outs j = Some out -> nth_error (k_models k) p = Some m -> nth_error out p = Some v).
  { intros m Hmo. apply Hcov in Hmo. destruct (in_flat_nth ks m Hmo) as (j & k & p & Hk & Hp).
    destruct (nth_error outs j) as [out|] eqn:Eo; [|apply nth_error_None in Eo; assert (j < length ks) by (apply nth_error_Some; congruence); lia].
    destruct (Hval j k out p m Hk Eo Hp) as (v & Hv & Hin). exists v. split; [apply values_of_unique; assumption|].
    intros j' k' out' p' Hk' Ho' Hp'. destruct (Hval j' k' out' p' m Hk' Ho' Hp') as (v' & Hv' & Hin'). rewrite Hv'. f_equal.
    pose proof (values_of_unique pm m _ Hndp Hin) as X. rewrite (values_of_unique pm m _ Hndp Hin') in X. congruence. }
  assert (Ho' := Ho). apply (ParamOrder_order g Hwf) in Ho'.
  assert (Hz : forall n, is_free g n = false \/ In n roots -> lookup_params pm n = []).
  { intros n Hn. rewrite lookup_values_of. apply values_of_none. rewrite Hfst, Hcov, Ho', (order_In g Hwf). intros (Hfr & r0 & Hr0 & Ha).
    destruct Hn as [Hn | Hn]; [congruence | apply (Hi n r0 Hn Hr0 Ha)]. }
  destruct (@get_correct_ordering_spec g Hwf V pm (fun n H => Hz n (or_introl H)) roots s1 Hi Hc1 (fun n H => Hz n (or_intror H))) as (s2 & E2 & (Hc2 & _) & Hv2).
  exists s1, kp, s2, (flat_map (values_of pm) o). split; [exact E1|]. split.
  { unfold proposal, joint_update. rewrite Eu, Ep. unfold bind. rewrite E2. unfold ret. rewrite Ho'.
    rewrite (flat_map_ext (values_of pm) (lookup_params pm)) by (intros n; symmetry; apply lookup_values_of). reflexivity. }
  split; [exact Hc2|]. split; [congruence|].
  assert (Hdec : forall ms, incl ms o -> length (flat_map (values_of pm) ms) = length ms
      /\ forall q m, nth_error ms q = Some m -> exists v, values_of pm m = [v] /\ nth_error (flat_map (values_of pm) ms) q = Some v).
  { induction ms as [|m ms IH]; intros Hin; [split; [reflexivity | intros [|q]; discriminate]|].
    destruct (Hone m (Hin m (or_introl eq_refl))) as (v & Ev & _). destruct (IH (fun a Ha => Hin a (or_intror Ha))) as (A & B). cbn [flat_map]. rewrite Ev. split; [cbn; congruence|].
    intros [|q] m' Hq; cbn [nth_error app] in *; [injection Hq as <-; exists v; split; [exact Ev | reflexivity]|]. apply (B q m' Hq). }
  destruct (Hdec o (fun a H => H)) as (A & B). split; [exact A|].
  intros j k out p m q Hk Hout Hp Hq. destruct (B q m Hq) as (v & Ev & ->). symmetry.
  destruct (Hone m (nth_error_In _ _ Hq)) as (v' & Ev' & Hv'). rewrite (Hv' j k out p Hk Hout Hp). congruence.
Qed.
End Proposal.

(** ** structure of the rows of continuous and random-walk kernels *)
Definition arr_row (ls : list (list Q)) : list kval := map KA ls.
Lemma all_arrays_row ls : all_arrays (map KA ls) = Ok ls.
Proof. induction ls as [|l ls IH]; [reflexivity|]. cbn. rewrite IH. reflexivity. Qed.
Lemma all_scalars_row l : all_scalars (map KS l) = Ok l.
Proof. induction l as [|x l IH]; [reflexivity|]. cbn. rewrite IH. reflexivity. Qed.
Lemma all_scalars_inv row l : all_scalars row = Ok l -> row = map KS l.
Proof.
  revert l. induction row as [|[q|a] row IH]; cbn; intros l H; [injection H as <-; reflexivity| |discriminate].
  destruct (all_scalars row) as [l'|]; [|discriminate]. injection H as <-. cbn. f_equal. apply IH. reflexivity.
Qed.
Lemma all_arrays_inv row ls : all_arrays row = Ok ls -> row = map KA ls.
Proof.
  revert ls. induction row as [|[q|a] row IH]; cbn; intros l H; [injection H as <-; reflexivity|discriminate|].
  destruct (all_arrays row) as [l'|]; [|discriminate]. injection H as <-. cbn. f_equal. apply IH. reflexivity.
Qed.
Lemma pieces_ok ls : forall v, length v = length (concat ls) ->
  exists ls', pieces (map (@length Q) ls) v = map KA ls' /\ map (@length Q) ls' = map (@length Q) ls /\ concat ls' = v.
Proof.
  induction ls as [|l ls IH]; intros v H; cbn [map pieces concat] in *.
  - exists []. cbn. destruct v; [split; [reflexivity|split; reflexivity] | discriminate].
  - rewrite app_length in H. destruct (IH (skipn (length l) v)) as (ls' & E & El & Ec). { rewrite skipn_length. lia. }
    exists (firstn (length l) v :: ls'). cbn [map concat]. rewrite E, El, Ec. split; [reflexivity|]. split.
    + rewrite firstn_length. f_equal. lia.
    + apply firstn_skipn.
Qed.

(** ** the random walk *)
Section Walk.
Variable C : Type.
Variable jump : Z.
Hypothesis Hj : (0 <= jump)%Z.
Definition width := Z.to_nat (2 * jump + 1).
Definition close (z x : Z) : bool := (Z.abs (z - x) <=? jump)%Z.
Definition wsteps := steps (list nat) replay jump.

Lemma wstep_cons z l d t : wsteps (z :: l) (d :: t) =
  match wsteps l t with (t', Ok ws) => (t', Ok ((z - inject_Z jump + inject_Z (Z.of_nat d))%Q :: ws)) | (t', Err e) => (t', Err e) end.
Proof.
  unfold wsteps. cbn [steps]. unfold step1. destruct (Z.leb_spec (2 * jump + 1) 0); [lia|]. unfold replay. reflexivity.
Qed.
Lemma wsteps_ok l : forall t, length l <= length t -> exists ws, wsteps l t = (skipn (length l) t, Ok ws) /\ length ws = length l.
Proof.
  induction l as [|z l IH]; intros t H; [exists []; split; reflexivity|]. destruct t as [|d t]; [cbn in H; lia|]. rewrite wstep_cons.
  destruct (IH t ltac:(cbn in H; lia)) as (ws & -> & Hl). eexists. split; [reflexivity|]. cbn. congruence.
Qed.
Lemma filter_flat_map {A B} (f : B -> bool) (h : A -> list B) l : filter f (flat_map h l) = flat_map (fun a => filter f (h a)) l.
Proof. induction l as [|a l IH]; [reflexivity|]. cbn [flat_map]. rewrite filter_app, IH. reflexivity. Qed.
Lemma filter_map_len {A B} (f : B -> bool) (h : A -> B) l : length (filter f (map h l)) = length (filter (fun a => f (h a)) l).
Proof. induction l as [|a l IH]; [reflexivity|]. cbn [map filter]. destruct (f (h a)); cbn [length]; congruence. Qed.
Lemma flat_map_len {A B} (h : A -> list B) l : length (flat_map h l) = list_sum (map (fun a => length (h a)) l).
Proof. induction l as [|a l IH]; [reflexivity|]. cbn [flat_map]. rewrite app_length, IH. reflexivity. Qed.
Lemma sum_pick (P : nat -> bool) c k : forall n a, (forall d, P d = true <-> d = k) ->
  list_sum (map (fun d => if P d then c else 0) (seq a n)) = if (a <=? k) && (k <? a + n) then c else 0.
Proof.
  induction n as [|n IH]; intros a H; cbn [seq map list_sum fold_right].
  - destruct (Nat.leb_spec a k), (Nat.ltb_spec k (a + 0)); cbn [andb]; try reflexivity; lia.
  - change (fold_right Nat.add 0 (map (fun d => if P d then c else 0) (seq (S a) n))) with (list_sum (map (fun d => if P d then c else 0) (seq (S a) n))).
    rewrite (IH (S a) H). destruct (P a) eqn:E.
    + apply H in E. subst a. destruct (Nat.leb_spec (S k) k); [lia|]. destruct (Nat.leb_spec k k); [|lia]. destruct (Nat.ltb_spec k (k + S n)); [|lia]. cbn. lia.
    + assert (a <> k) by (intros X; apply H in X; congruence). replace (S a + n) with (a + S n) by lia.
      destruct (Nat.leb_spec (S a) k), (Nat.leb_spec a k); try lia; reflexivity.
Qed.
Lemma inject_close z x d : Qeq_bool (inject_Z z - inject_Z jump + inject_Z (Z.of_nat d)) (inject_Z x) = (Z.of_nat d =? x - z + jump)%Z.
Proof.
  destruct (Z.eqb_spec (Z.of_nat d) (x - z + jump)) as [E | E].
  - apply Qeq_bool_iff. rewrite E. unfold Z.sub. rewrite !inject_Z_plus, inject_Z_opp. ring.
  - destruct (Qeq_bool _ _) eqn:Q; [|reflexivity]. exfalso. apply E. apply Qeq_bool_iff in Q. unfold Qminus in Q. rewrite <- inject_Z_opp, <- !inject_Z_plus in Q. apply (proj1 (inject_Z_injective _ _)) in Q. clear - Q. lia.
Qed.
Lemma hits_steps zs : forall xs, length xs = length zs ->
  hits (wsteps (ints zs)) (ints xs) width (length zs) = if forallb (fun p => close (fst p) (snd p)) (combine zs xs) then 1 else 0.
Proof.
  induction zs as [|z zs IH]; intros [|x xs] Hl; try discriminate; [reflexivity|].
  cbn [length] in *. injection Hl as Hl. specialize (IH xs Hl). unfold hits in *. cbn [tapes ints map combine forallb fst snd].
  rewrite filter_flat_map, flat_map_len.
  rewrite (map_ext _ (fun d => if (Z.of_nat d =? x - z + jump)%Z then length (filter (fun t => returns (ints xs) (wsteps (ints zs) t)) (tapes width (length zs))) else 0)).
  - rewrite IH. clear IH. destruct (Z.leb_spec 0 (x - z + jump)) as [H0 | H0].
    + rewrite (sum_pick _ _ (Z.to_nat (x - z + jump))) by (intros d; rewrite Z.eqb_eq; lia). cbn [Nat.leb Nat.add andb].
      destruct (close z x) eqn:Ec; [apply Z.leb_le in Ec | apply Z.leb_gt in Ec]; destruct (Nat.ltb_spec (Z.to_nat (x - z + jump)) width) as [Hw|Hw]; unfold width in Hw; try (exfalso; clear - H0 Ec Hw; lia); reflexivity.
    + destruct (close z x) eqn:Ec; [apply Z.leb_le in Ec; lia|]. cbn [andb].
      rewrite (map_ext _ (fun _ => 0)). * induction (seq 0 width) as [|a l IHl]; [reflexivity | cbn; exact IHl].
      * intros d. destruct (Z.eqb_spec (Z.of_nat d) (x - z + jump)); [lia | reflexivity].
  - clear IH. intros d. rewrite filter_map_len. rewrite <- inject_close.
    rewrite (filter_ext _ (fun t => Qeq_bool (inject_Z z - inject_Z jump + inject_Z (Z.of_nat d)) (inject_Z x) && returns (ints xs) (wsteps (ints zs) t))).
    + destruct (Qeq_bool _ _); [reflexivity|]. cbn [andb]. induction (tapes width (length zs)) as [|t l IHl]; [reflexivity | exact IHl].
    + intros t. change (inject_Z z :: map inject_Z zs) with (inject_Z z :: ints zs). rewrite wstep_cons. unfold returns. destruct (wsteps (ints zs) t) as [t' [ws|e]]; [reflexivity | rewrite andb_false_r; reflexivity].
Qed.
Lemma tapes_spec n k t : In t (tapes n k) <-> length t = k /\ Forall (fun d => d < n) t.
Proof.
  revert t. induction k as [|k IH]; intros t; cbn [tapes].
  - split; [intros [<-|[]]; split; [reflexivity | constructor] | intros (H & _); left; destruct t; [reflexivity | discriminate]].
  - rewrite in_flat_map. split.
    + intros (d & Hd & Ht). apply in_map_iff in Ht. destruct Ht as (t' & <- & Ht'). apply IH in Ht'. destruct Ht' as (A & B). apply in_seq in Hd. split; [cbn; congruence|]. constructor; [lia | exact B].
    + intros (A & B). destruct t as [|d t]; [discriminate|]. exists d. split; [apply in_seq; pose proof (Forall_inv B); cbn in *; lia|]. apply in_map, IH. split; [cbn in A; congruence | apply (Forall_inv_tail B)].
Qed.
Lemma tapes_len n k : length (tapes n k) = n ^ k.
Proof.
  induction k as [|k IH]; [reflexivity|]. cbn [tapes Nat.pow]. rewrite flat_map_len. rewrite (map_ext _ (fun _ => n ^ k)) by (intros d; rewrite map_length; exact IH).
  assert (X : forall l : list nat, list_sum (map (fun _ => n ^ k) l) = length l * n ^ k) by (induction l as [|a l IHl]; [reflexivity | cbn [map length Nat.mul]; rewrite <- IHl; reflexivity]).
  rewrite X, seq_length. reflexivity.
Qed.
Lemma tapes_nodup n k : NoDup (tapes n k).
Proof.
  induction k as [|k IH]; cbn [tapes]; [constructor; [intros [] | constructor]|]. assert (Hs := seq_NoDup n 0). induction Hs as [|d l Hd Hl IHl]; [constructor|]. cbn [flat_map].
  assert (Hm : NoDup (map (cons d) (tapes n k))) by (apply FinFun.Injective_map_NoDup; [intros a b E; congruence | exact IH]).
  clear IH. assert (Hx : forall t, In t (map (cons d) (tapes n k)) -> ~ In t (flat_map (fun d0 => map (cons d0) (tapes n k)) l)).
  { intros t Ht Hf. apply in_map_iff in Ht. destruct Ht as (t' & <- & _). apply in_flat_map in Hf. destruct Hf as (d' & Hd' & Ht'). apply in_map_iff in Ht'. destruct Ht' as (t'' & E & _). injection E as -> _. contradiction. }
  revert Hx. generalize (map (cons d) (tapes n k)) Hm. intros a Ha. induction Ha as [|x a Hxa Ha IHa]; intros Hx; [exact IHl|]. cbn [app]. constructor.
  - intros Hi. apply in_app_or in Hi. destruct Hi as [Hi | Hi]; [contradiction | apply (Hx x (or_introl eq_refl) Hi)].
  - apply IHa. intros t Ht. apply Hx. right. exact Ht.
Qed.
End Walk.

(** ** the random walk on a network *)
Section Network.
Variable network : Z -> option (list (Z * Q)).
Definition cum (ps : list Q) (i : nat) : Q := qsum (firstn i ps).
Lemma edge_nth v l : network v = Some l -> NoDup (map fst l) -> forall n w, In (n, w) l -> edge network v n = Ok w.
Proof.
  intros Hl Hn n w Hi. unfold edge. rewrite Hl. clear Hl. induction l as [|[n' w'] l IH]; [contradiction|]. cbn [find fst]. cbn [map fst] in Hn. inversion_clear Hn as [|? ? Hx Hn'].
  destruct Hi as [E | Hi]; [injection E as -> ->; rewrite Z.eqb_refl; reflexivity|].
  destruct (Z.eqb_spec n' n) as [-> | _]; [exfalso; apply Hx; apply (in_map fst) in Hi; exact Hi | apply IH; assumption].
Qed.
Lemma edges_own v l : network v = Some l -> NoDup (map fst l) -> edges network v l = Ok (map snd l).
Proof.
  intros Hl Hn. assert (H : forall l', incl l' l -> edges network v l' = Ok (map snd l')).
  { induction l' as [|[n w] l' IH]; intros Hi; [reflexivity|]. cbn [edges fst map snd]. rewrite (edge_nth v l Hl Hn n w (Hi _ (or_introl eq_refl))), IH by (intros a Ha; apply Hi; right; exact Ha). reflexivity. }
  apply H. intros a Ha; exact Ha.
Qed.
Lemma qsum_nonneg l : Forall (fun w => 0 <= w)%Q l -> (0 <= qsum l)%Q.
Proof. induction l as [|w l IH]; intros H; cbn; [apply Qle_refl|]. pose proof (Forall_inv H) as A. pose proof (IH (Forall_inv_tail H)) as B. cbn in A. fold (qsum l) in *. lra. Qed.
Lemma qsum_div l t : (~ t == 0)%Q -> (qsum (map (fun w => w / t) l) == qsum l / t)%Q.
Proof.
  intros Ht. induction l as [|w l IH]; [cbn; field; exact Ht|].
  change (qsum (map (fun w0 => w0 / t) (w :: l)))%Q with (w / t + qsum (map (fun w0 => w0 / t) l))%Q. change (qsum (w :: l)) with (w + qsum l)%Q.
  rewrite IH. field. exact Ht.
Qed.
(** which position is chosen: the one whose interval contains u *)
Lemma choose_spec ns : forall ps u, length ps = length ns -> Forall (fun p => 0 <= p)%Q ps -> (0 <= u)%Q -> NoDup ns ->
  forall i n, nth_error ns i = Some n -> (choose (combine ns ps) u = Some n <-> (cum ps i <= u)%Q /\ (u < cum ps (S i))%Q).
Proof.
  induction ns as [|n0 ns IH]; intros [|p ps] u Hl Hp Hu Hn i n Hi; try discriminate; [destruct i; discriminate|].
  cbn [combine choose]. injection Hl as Hl. pose proof (Forall_inv Hp) as Hp0. pose proof (Forall_inv_tail Hp) as Hp'. cbn in Hp0. inversion_clear Hn as [|? ? Hx Hn'].
  destruct (Qle_bool p u) eqn:E.
  - apply Qle_bool_iff in E. destruct i as [|i]; cbn [nth_error] in Hi.
    + injection Hi as <-. split.
      * intros H. exfalso. apply Hx. clear - H. revert ps H. generalize (u - p)%Q. induction ns as [|m ns IH]; intros q [|p' ps] H; cbn in H; try discriminate.
        destruct (Qle_bool p' q); [right; apply (IH _ _ H) | injection H as ->; left; reflexivity].
      * intros (_ & H). exfalso. unfold cum in H. cbn in H. rewrite Qplus_0_r in H. apply (Qlt_not_le _ _ H E).
    + assert (Hu' : (0 <= u - p)%Q) by lra.
      rewrite (IH ps (u - p)%Q Hl Hp' Hu' Hn' i n Hi). unfold cum. cbn [firstn]. change (qsum (p :: firstn i ps)) with (p + qsum (firstn i ps))%Q.
      change (qsum (p :: match ps with [] => [] | a :: l => a :: firstn i l end)) with (p + qsum (firstn (S i) ps))%Q. change (match ps with [] => [] | a :: l => a :: firstn i l end) with (firstn (S i) ps).
      split; intros (A & B); split; lra.
  - assert (Eu : (u < p)%Q) by (apply Qnot_le_lt; intros H; apply Qle_bool_iff in H; congruence). split.
    + intros H. injection H as <-. destruct i as [|i]; cbn [nth_error] in Hi; [|exfalso; apply Hx; apply (nth_error_In _ _ Hi)].
      split; unfold cum; cbn; [exact Hu | rewrite Qplus_0_r; exact Eu].
    + intros (A & B). destruct i as [|i]; cbn [nth_error] in Hi; [congruence|]. exfalso. unfold cum in A. cbn [firstn] in A. change (qsum (p :: firstn i ps)) with (p + qsum (firstn i ps))%Q in A.
      assert (Hs : (0 <= qsum (firstn i ps))%Q) by (apply qsum_nonneg; clear - Hp'; revert i; induction Hp'; intros [|i]; cbn; constructor; auto).
      lra.
Qed.
End Network.
