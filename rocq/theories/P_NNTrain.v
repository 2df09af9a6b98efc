(** C84: the training routines show every sample once per epoch and follow the average loss of each batch. *)
From Coq Require Import Reals Lra Lia Permutation FunctionalExtensionality.
From Verif Require Import M_Base M_Num M_XReal M_MMD M_KNN M_Similarity M_Losses M_Infer M_Trainer M_NNTrain S_Stats S_Similarity P_Losses P_Similarity P_Trainer S_NNTrain L_NNTrain L_PMC L_Stats L_Distance.
Open Scope nat_scope.

(** *** Dictionaries *)
Lemma keq_refl k : keq k k = true. Proof. destruct k; try reflexivity. apply Nat.eqb_refl. Qed.
Lemma kget_kset d k v k' : kget (kset d k v) k' = if keq k' k then Some v else kget d k'.
Proof.
  induction d as [|[k0 v0] d IH]; cbn [kset kget]; [reflexivity|]. destruct (keq k k0) eqn:E; cbn [kget].
  - assert (k = k0) as <-. { destruct k, k0; try discriminate; try reflexivity. apply Nat.eqb_eq in E. congruence. } destruct (keq k' k); reflexivity.
  - rewrite IH. destruct (keq k' k) eqn:E2; [|reflexivity]. assert (k' = k) as ->. { destruct k', k; try discriminate; try reflexivity. apply Nat.eqb_eq in E2. congruence. } rewrite E. reflexivity.
Qed.
Lemma kget_extra d cuda load_all k :
  kget (kupdate d (extra cuda load_all)) k
  = match k with KWorkers => if cuda then Some (if load_all then 0 else 1)%Z else kget d k | KPin => if cuda then Some (if load_all then 0 else 1)%Z else kget d k | _ => kget d k end.
Proof. unfold extra, kupdate. destruct cuda; [destruct load_all|]; cbn [fold_left fst snd]; rewrite ?kget_kset; destruct k; reflexivity. Qed.

Section Run.
  Variables X Y W : Type.
  Variable cast : X -> X.
  Variable castY : Y -> Y.
  Variable coords : Y -> list R.
  Variable emb : W -> X -> list R.
  Variable item_ : xr -> num.
  Variable update : optimiser -> R -> (W -> xr) -> W -> W.
  Variable custom_rate : nat -> list (nat * Z) -> R -> nat -> R.
  Variable perm : nat -> nat -> list nat.
  Variable draws : bool -> nat -> nat -> nat -> nat.
  Variable unif : bool -> nat -> nat -> R.
  Variable fuel : nat.
  Notation args := (args X Y).
  Notation batch := (batch X Y).
  Notation routine := (routine X Y W cast castY coords emb item_ update custom_rate perm draws unif fuel).
  Notation prepare := (prepare X Y cast castY).
  Notation Pass := (Pass X Y cast castY).
  Notation bloss := (batch_loss X Y W coords emb).

  (** One step on a batch, as asked for: the optimiser with the learning rate of the epoch, on the average loss of the batch. *)
  Definition asked_opt (a : args) : optimiser := mkopt (opt_class X Y a) (lr_of X Y a) (opt_kw X Y a).
  Definition asked_rate (a : args) (epoch : nat) : R := match sched_class X Y a with None => lr_of X Y a | Some c => custom_rate c (sched_kw X Y a) (lr_of X Y a) epoch end.
  Definition asked_step (k : kind) (a : args) (w : W) (b : batch) : W * num :=
    (update (asked_opt a) (asked_rate a (fst b)) (bloss k (margin X Y a) (snd b)) w, item_ (bloss k (margin X Y a) (snd b) w)).
  Definition asked_vloss (k : kind) (a : args) (w : W) (b : batch) : num := item_ (bloss k (margin X Y a) (snd b) w).

  Lemma data_loader_ok n b sh kw ld : data_loader n b sh kw = Ok ld ->
    0 < b /\ ld = mkloader b sh (match kget kw KWorkers with Some z => z | None => 0%Z end) (istrue (kget kw KPin)) (istrue (kget kw KDrop)).
  Proof.
    unfold data_loader. destruct (existsb _ kw); [discriminate|]. destruct (match kget kw KWorkers with Some z => (z <? 0)%Z | None => false end); [discriminate|]. destruct ((n =? 0) && sh); [discriminate|].
    destruct (Nat.eqb_spec b 0); [discriminate|]. intros H. injection H as <-. split; [lia | reflexivity].
  Qed.
  Lemma optimizer_ok k a o : optimizer X Y k a = Ok o -> o = asked_opt a.
  Proof. unfold optimizer, asked_opt, lr_of. destruct (existsb _ _); [discriminate|]. destruct k, (lr X Y a); intros H; try discriminate; injection H as <-; reflexivity. Qed.

  (** What a successful preparation has built. *)
  Lemma prepare_ok k s lk a s' u : prepare k s lk a = (s', Ok u) ->
    make X Y cast castY k (weight X Y a) (samples X Y a) (labs X Y a) = Ok (s_data X Y u)
    /\ 0 < batch_size X Y a
    /\ (let kw := kupdate (s lk) (extra (cuda X Y a) (load_all X Y a)) in
        let ld sh := mkloader (batch_size X Y a) sh (match kget kw KWorkers with Some z => z | None => 0%Z end) (istrue (kget kw KPin)) (istrue (kget kw KDrop)) in
        s' = supd s lk kw /\ s_loader X Y u = ld true
        /\ match samples_val X Y a, labs_val X Y a, s_val X Y u with
           | Some xv, Some lv, Some (d, l) => make X Y cast castY k (weight X Y a) xv lv = Ok d /\ l = ld false
           | None, None, None => True
           | _, _, _ => False
           end)
    /\ s_opt X Y u = asked_opt a /\ s_sched X Y u = scheduler X Y a /\ s_dev X Y u = data_dev (cuda X Y a) (load_all X Y a).
  Proof.
    unfold M_NNTrain.prepare. destruct (make X Y cast castY k (weight X Y a) (samples X Y a) (labs X Y a)) as [d|] eqn:Ed; [|intros H; discriminate].
    assert (G : forall (dv : option (dataset X Y)), let kw := kupdate (s lk) (extra (cuda X Y a) (load_all X Y a)) in
      (supd s lk kw, rthen (data_loader (dlen X Y d) (batch_size X Y a) true kw) (fun ld =>
                 rthen (match dv with Some v => rthen (data_loader (dlen X Y v) (batch_size X Y a) false kw) (fun l => Ok (Some (v, l))) | None => Ok None end) (fun vl =>
                 rthen (optimizer X Y k a) (fun o => Ok (mksetup X Y d ld vl o (scheduler X Y a) (data_dev (cuda X Y a) (load_all X Y a))))))) = (s', Ok u) ->
      s_data X Y u = d /\ 0 < batch_size X Y a /\ s' = supd s lk kw
      /\ (let ld sh := mkloader (batch_size X Y a) sh (match kget kw KWorkers with Some z => z | None => 0%Z end) (istrue (kget kw KPin)) (istrue (kget kw KDrop)) in
          s_loader X Y u = ld true /\ s_val X Y u = match dv with Some v => Some (v, ld false) | None => None end)
      /\ s_opt X Y u = asked_opt a /\ s_sched X Y u = scheduler X Y a /\ s_dev X Y u = data_dev (cuda X Y a) (load_all X Y a)).
    { intros dv kw H. injection H as <- H. destruct (data_loader _ _ true kw) as [ld|] eqn:El; [|discriminate]. cbn [rthen] in H.
      destruct (data_loader_ok _ _ _ _ _ El) as (Hb & ->).
      destruct dv as [v|].
      - destruct (data_loader _ _ false kw) as [l|] eqn:El2; [|discriminate]. cbn [rthen] in H. destruct (data_loader_ok _ _ _ _ _ El2) as (_ & ->).
        destruct (optimizer X Y k a) as [o|] eqn:Eo; [|discriminate]. cbn [rthen] in H. apply optimizer_ok in Eo. injection H as <-. cbn. split; [reflexivity|]. split; [exact Hb|]. split; [reflexivity|]. split; [split; reflexivity|]. split; [exact Eo|]. split; reflexivity.
      - cbn [rthen] in H. destruct (optimizer X Y k a) as [o|] eqn:Eo; [|discriminate]. cbn [rthen] in H. apply optimizer_ok in Eo. injection H as <-. cbn. split; [reflexivity|]. split; [exact Hb|]. split; [reflexivity|]. split; [split; reflexivity|]. split; [exact Eo|]. split; reflexivity. }
    destruct (samples_val X Y a) as [xv|], (labs_val X Y a) as [lv|]; intros H; try discriminate.
    - destruct (make X Y cast castY k (weight X Y a) xv lv) as [dv|] eqn:Ev; [|discriminate]. cbn [rthen] in H. destruct (G (Some dv) H) as (G1 & G2 & G3 & (G4 & G5) & G6). rewrite G1, G5. split; [reflexivity|]. split; [exact G2|]. cbv zeta. split; [|exact G6]. split; [exact G3|]. split; [exact G4|]. split; reflexivity.
    - destruct (G None H) as (G1 & G2 & G3 & (G4 & G5) & G6). rewrite G1, G5. split; [reflexivity|]. split; [exact G2|]. cbv zeta. split; [|exact G6]. split; [exact G3|]. split; [exact G4 | exact I].
  Qed.

  Variable q : nat.
  Hypothesis Hq : 0 < q.
  Hypothesis Hemb : forall w x, length (emb w x) = q.
  Hypothesis Hcoords : forall y, length (coords y) = q.

  Lemma pass_batches k xs l b drop order e bs bt : 0 < b -> Pass k xs l b drop order e bs -> In bt bs -> fst bt = e /\ snd bt <> [] /\ Forall (shape X Y k) (snd bt).
  Proof.
    intros Hb (iss & HP & HF) Hin.
    assert (Hne : Forall (fun is : list nat => is <> []) iss).
    { destruct drop; [destruct HP as (HP & _) | destruct HP as (_ & HP & _)]; eapply Forall_impl; try exact HP; intros x Hx -> ; cbn in Hx; lia. }
    clear HP. induction HF as [|is b0 iss bs (H1 & H2) HF IH]; [destruct Hin|]. destruct Hin as [<-|Hin]; [|apply IH; [exact Hin | apply Forall_inv_tail in Hne; exact Hne]].
    split; [exact H1|]. apply Forall_inv in Hne. split.
    - destruct H2; [congruence | discriminate].
    - clear -H2. induction H2 as [|i it is its H H2 IH]; constructor; [eapply shows_shape; exact H | exact IH].
  Qed.

  (** A routine that returns has run m epochs.  In each of them the training loader has shown every sample once, in batches of the size asked for, and the validation
      loader every validation sample once, in order; what is shown for a sample is the sample with a different one and their entry of the similarity matrix, or an anchor
      with a similar and a dissimilar sample, or the sample with its own parameters.  Weights and losses are those of the optimiser, learning rate and average loss asked
      for. *)
  Theorem C84_run : (forall e n, Permutation (perm e n) (seq 0 n)) ->
    forall k s lk nd a w s' w' tr te,
    Fits X Y k (samples X Y a) (labs X Y a) -> (forall xv lv, samples_val X Y a = Some xv -> labs_val X Y a = Some lv -> Fits X Y k xv lv) ->
    routine k s lk nd a w = (s', Ok (w', tr, te)) ->
    let drop := istrue (kget (s lk) KDrop) in
    let start := start_epoch X Y a in
    let step := asked_step k a in
    exists tb vb m, m <= n_epochs X Y a - start
    /\ (forall e, start <= e < start + m -> exists order, Permutation order (seq 0 (length (samples X Y a))) /\ Pass k (samples X Y a) (labs X Y a) (batch_size X Y a) drop order e (tb e))
    /\ (forall xv lv e, samples_val X Y a = Some xv -> labs_val X Y a = Some lv -> start <= e < start + m -> Pass k xv lv (batch_size X Y a) drop (seq 0 (length xv)) e (vb e))
    /\ w' = trained W batch step tb w start m
    /\ tr = map (tloss W batch step tb w start) (seq 0 m)
    /\ te = match samples_val X Y a with None => None | Some _ => Some (map (val_loss W batch step (asked_vloss k a) tb vb w start) (seq 0 m)) end
    /\ (m = n_epochs X Y a - start \/ early X Y a = true /\ samples_val X Y a <> None /\ stops W batch step (asked_vloss k a) tb vb w start (interval X Y a) (start_es X Y a) (m - 1)).
  Proof.
    intros Hperm k s lk nd a w s' w' tr te HF HFv HR drop start step.
    unfold M_NNTrain.routine in HR. destruct (prepare k s lk a) as [s1 [u|]] eqn:EP; [|discriminate]. injection HR as <- HR.
    destruct (prepare_ok _ _ _ _ _ _ EP) as (Hd & Hb & (_ & Hld & Hval) & Hopt & Hsch & _).
    unfold M_NNTrain.train in HR. cbv zeta in HR.
    destruct (fit W batch _ _ _ _ w _ _ _ _ _) as [[[[w0 tr0] te0] ks]|] eqn:EF; [|discriminate]. cbn [rthen fst] in HR. injection HR as -> -> ->.
    apply (fit_ran W batch (0, [])) in EF. destruct EF as (m & Hm & HL & Hw & Htr & Hte & Hstop).
    set (st0 := fun (w : W) (b : batch) => _) in Hw, Htr, Hte, Hstop. set (vl0 := fun (w : W) (b : batch) => _) in Hte, Hstop.
    set (tb0 := fun e : nat => placed X Y (cuda X Y a) (s_dev X Y u) nd (load X Y perm draws unif fuel true (s_loader X Y u) (s_data X Y u) e)) in *.
    assert (Hplaced : forall c d n (l : res (list batch)) bs, placed X Y c d n l = Ok bs -> l = Ok bs).
    { intros c d n [[|b l]|] bs H; cbn [placed] in H; try exact H. destruct (same_place c d n); [exact H | discriminate]. }
    assert (Hdrop : istrue (kget (kupdate (s lk) (extra (cuda X Y a) (load_all X Y a))) KDrop) = drop) by (rewrite kget_extra; reflexivity).
    cbv zeta in Hld. rewrite Hdrop in Hld.
    set (tb := whole batch (0, []) tb0) in *.
    assert (PT : forall e, start <= e < start + m -> exists order, Permutation order (seq 0 (length (samples X Y a))) /\ Pass k (samples X Y a) (labs X Y a) (batch_size X Y a) drop order e (tb e)).
    { intros e He. exists (perm e (length (samples X Y a))). split; [apply Hperm|]. destruct (HL e He) as (H0 & _). assert (H1 : tb0 e = Ok (tb e)) by exact H0. unfold tb0 in H1. apply Hplaced in H1.
      rewrite Hld in H1. apply (load_pass X Y cast castY draws unif fuel perm true e k (weight X Y a) (samples X Y a) (labs X Y a)) in H1; [exact H1 | exact Hb | exact HF | exact Hd]. }
    set (vb := match s_val X Y u with None => fun _ => [] | Some (d, l) => whole batch (0, []) (fun e => placed X Y (cuda X Y a) (s_dev X Y u) nd (load X Y perm draws unif fuel false l d e)) end).
    assert (PV : forall xv lv e, samples_val X Y a = Some xv -> labs_val X Y a = Some lv -> start <= e < start + m -> Pass k xv lv (batch_size X Y a) drop (seq 0 (length xv)) e (vb e)).
    { intros xv lv e Ex El He. rewrite Ex, El in Hval. unfold vb. destruct (s_val X Y u) as [[d l]|]; [|contradiction]. destruct Hval as (Hv & Hl2). cbv zeta in Hl2. rewrite Hdrop in Hl2.
      destruct (HL e He) as (_ & H2). specialize (H2 _ eq_refl). cbn beta in H2. apply Hplaced in H2. rewrite Hl2 in H2 at 1.
      apply (load_pass X Y cast castY draws unif fuel perm false e k (weight X Y a) xv lv) in H2; [exact H2 | exact Hb | exact (HFv xv lv Ex El) | exact Hv]. }
    assert (Est : forall j b w, start <= j < start + m -> In b (tb j) -> st0 w b = step w b).
    { intros j b w1 Hj Hin. destruct (PT j Hj) as (order & _ & HP). destruct (pass_batches _ _ _ _ _ _ _ _ _ Hb HP Hin) as (_ & B2 & B3).
      assert (EL : (fun w => loss_of X Y coords k (margin X Y a) (emb w) (snd b)) = bloss k (margin X Y a) (snd b)).
      { apply functional_extensionality. intros w2. apply (loss_spec X Y W coords emb k (margin X Y a) w2 (snd b) q Hq (Hemb w2) Hcoords B2 B3). }
      unfold st0, step, asked_step. rewrite Hopt, Hsch. rewrite EL. f_equal; [|rewrite <- EL; reflexivity]. f_equal. unfold rate, scheduler, asked_rate. destruct (sched_class X Y a); [reflexivity|]. cbn [asked_opt o_lr]. rewrite pow1. ring. }
    assert (Evl : forall j b w, samples_val X Y a <> None -> start <= j < start + m -> In b (vb j) -> vl0 w b = asked_vloss k a w b).
    { intros j b w1 Hx Hj Hin. destruct (samples_val X Y a) as [xv|] eqn:Ex; [|congruence]. destruct (labs_val X Y a) as [lv|] eqn:El; [|destruct (s_val X Y u) as [[? ?]|]; contradiction].
      destruct (pass_batches _ _ _ _ _ _ _ _ _ Hb (PV xv lv j eq_refl eq_refl Hj) Hin) as (_ & B2 & B3). unfold vl0, asked_vloss. f_equal. apply (loss_spec X Y W coords emb k (margin X Y a) w1 (snd b) q Hq (Hemb w1) Hcoords B2 B3). }
    destruct (trained_same W batch st0 step tb start m Est w) as (T1 & T2).
    assert (T3 : forall j, samples_val X Y a <> None -> j < m -> val_loss W batch st0 vl0 tb vb w start j = val_loss W batch step (asked_vloss k a) tb vb w start j).
    { intros j Hx Hj. unfold val_loss. rewrite T1 by lia. f_equal. apply map_ext_in. intros b Hin. apply (Evl (start + j)); [exact Hx | lia | exact Hin]. }
    exists tb, vb, m. split; [exact Hm|]. split; [exact PT|]. split; [exact PV|]. split; [rewrite Hw; apply T1; lia|]. split; [rewrite Htr; apply map_ext_in; intros j Hj; apply in_seq in Hj; apply T2; lia|].
    split.
    - rewrite Hte. unfold vb in *. destruct (samples_val X Y a) as [xv|] eqn:Ex, (labs_val X Y a) as [lv|], (s_val X Y u) as [[d l]|]; try contradiction; [|reflexivity].
      f_equal. apply map_ext_in. intros j Hj. apply in_seq in Hj. apply T3; [discriminate | lia].
    - destruct Hstop as [(E & _)|(v & Ev & Ee & Hpos & Hs & _)]; [left; exact E|]. right. split; [exact Ee|].
      assert (Hx : samples_val X Y a <> None). { intros Ex. rewrite Ex in Hval. destruct (labs_val X Y a), (s_val X Y u) as [[? ?]|]; try contradiction. discriminate. }
      split; [exact Hx|]. assert (Evb : whole batch (0, []) v = vb). { unfold vb. destruct (s_val X Y u) as [[d l]|]; [|discriminate]. injection Ev as <-. reflexivity. }
      rewrite Evb in Hs. destruct Hs as (S1 & S2 & S3 & S4). split; [exact S1|]. split; [exact S2|]. split; [exact S3|]. rewrite !T3 in S4 by (try exact Hx; lia). exact S4.
  Qed.
End Run.
Print Assumptions C84_run.

Section Setup.
  Variables X Y W : Type.
  Variable cast : X -> X.
  Variable castY : Y -> Y.
  Variable coords : Y -> list R.
  Variable emb : W -> X -> list R.
  Variable item_ : xr -> num.
  Variable update : optimiser -> R -> (W -> xr) -> W -> W.
  Variable custom_rate : nat -> list (nat * Z) -> R -> nat -> R.
  Variable perm : nat -> nat -> list nat.
  Variable draws : bool -> nat -> nat -> nat -> nat.
  Variable unif : bool -> nat -> nat -> R.
  Variable fuel : nat.
  Notation routine := (routine X Y W cast castY coords emb item_ update custom_rate perm draws unif fuel).
  Notation prepare := (prepare X Y cast castY).

  (** The loaders: the training set is shuffled, the validation set is not, both have the batch size asked for.  On the GPU the number of workers and pinning of memory are
      set by the routine, and memory is pinned exactly when the data are not on the GPU yet; otherwise they are those of the dictionary given. *)
  Theorem C84_loaders : forall k s lk a s' u, prepare k s lk a = (s', Ok u) ->
    let l := s_loader X Y u in
    l_batch l = batch_size X Y a /\ l_shuffle l = true /\ l_drop l = istrue (kget (s lk) KDrop)
    /\ (s_dev X Y u = Gpu <-> cuda X Y a = true /\ load_all X Y a = true)
    /\ (cuda X Y a = true -> (l_pin l = true <-> s_dev X Y u = Cpu) /\ l_workers l = if load_all X Y a then 0%Z else 1%Z)
    /\ (cuda X Y a = false -> l_pin l = istrue (kget (s lk) KPin) /\ l_workers l = match kget (s lk) KWorkers with Some z => z | None => 0%Z end)
    /\ match s_val X Y u with
       | None => samples_val X Y a = None /\ labs_val X Y a = None
       | Some (d, v) => (exists xv, samples_val X Y a = Some xv /\ dlen X Y d = length xv)
           /\ v = mkloader (l_batch l) false (l_workers l) (l_pin l) (l_drop l)
       end.
  Proof.
    intros k s lk a s' u H l. destruct (prepare_ok X Y cast castY k s lk a s' u H) as (_ & _ & (_ & Hl & Hv) & _ & _ & Hd). cbv zeta in Hl, Hv. unfold l. rewrite Hl, Hd. rewrite !kget_extra in *. cbn [l_batch l_shuffle l_drop l_pin l_workers].
    split; [reflexivity|]. split; [reflexivity|]. split; [reflexivity|]. split; [unfold data_dev; destruct (cuda X Y a), (load_all X Y a); split; intros E; try discriminate; try (destruct E; discriminate); try (split; reflexivity); reflexivity|].
    split; [intros ->; unfold data_dev; destruct (load_all X Y a); cbn; split; try reflexivity; split; intros; try discriminate; reflexivity|].
    split; [intros ->; split; reflexivity|].
    destruct (s_val X Y u) as [[d v]|], (samples_val X Y a) as [xv|], (labs_val X Y a) as [lv|]; try contradiction; [|split; reflexivity].
    destruct Hv as (Hm & ->). split; [exists xv; split; [reflexivity | apply (make_len X Y cast castY _ _ _ _ _ Hm)] | reflexivity].
  Qed.

  (** Requests that are refused: validation samples without labels or labels without samples; different numbers of simulations and parameters; a batch size of zero; no
      learning rate for the regression. *)
  Theorem C84_refused : forall k s lk nd a w,
    (Fits X Y k (samples X Y a) (labs X Y a) -> (samples_val X Y a = None <-> labs_val X Y a <> None) -> routine k s lk nd a w = (s, Err RuntimeError))
    /\ (forall ys, k = FP -> labs X Y a = Pars Y ys -> length (samples X Y a) <> length ys -> routine k s lk nd a w = (s, Err RuntimeError))
    /\ (forall s' r, routine k s lk nd a w = (s', Ok r) -> 0 < batch_size X Y a /\ (samples_val X Y a = None <-> labs_val X Y a = None) /\ (k = FP -> lr X Y a <> None)).
  Proof.
    intros k s lk nd a w.
    assert (P : forall ys, k = FP -> labs X Y a = Pars Y ys -> length (samples X Y a) <> length ys -> routine k s lk nd a w = (s, Err RuntimeError)).
    { intros ys -> E Hl. unfold M_NNTrain.routine, M_NNTrain.prepare. rewrite E. cbn [make]. rewrite (proj2 (Nat.eqb_neq _ _) Hl). reflexivity. }
    split; [|split; [exact P|]].
    - intros HF HV. destruct (make X Y cast castY k (weight X Y a) (samples X Y a) (labs X Y a)) as [d|e] eqn:E.
      + unfold M_NNTrain.routine, M_NNTrain.prepare. rewrite E. destruct (samples_val X Y a), (labs_val X Y a); try reflexivity; exfalso.
        * destruct HV as (_ & HV). discriminate HV. discriminate.
        * destruct HV as (HV & _). now apply HV.
      + destruct k, (labs X Y a) as [M|ys] eqn:El; cbn [Fits] in HF; try contradiction; cbn [make] in E; try discriminate.
        destruct (Nat.eqb_spec (length (samples X Y a)) (length ys)) as [|Hn]; [discriminate|]. apply (P ys eq_refl eq_refl Hn).
    - intros s' r H. unfold M_NNTrain.routine in H. destruct (prepare k s lk a) as [s1 [u|]] eqn:EP; [|discriminate].
      pose proof (prepare_ok X Y cast castY k s lk a s1 u EP) as (_ & Hb & (_ & _ & Hv) & _). split; [exact Hb|]. split.
      + destruct (samples_val X Y a), (labs_val X Y a), (s_val X Y u) as [[? ?]|]; try contradiction; split; intros; try discriminate; reflexivity.
      + intros -> Hlr. unfold M_NNTrain.prepare in EP. destruct (make _ _ _ _ _ _ _ _) as [d|]; [|discriminate].
        assert (G : forall x, rthen (optimizer X Y FP a) x <> Ok u). { intros x. unfold optimizer. rewrite Hlr. destruct (existsb _ _); discriminate. }
        destruct (samples_val X Y a), (labs_val X Y a); try discriminate.
        * destruct (make _ _ _ _ _ _ _ _) as [dv|]; [|discriminate]. cbn [rthen] in EP. injection EP as _ EP. destruct (data_loader _ _ true _); [|discriminate]. cbn [rthen] in EP. destruct (data_loader _ _ false _); [|discriminate]. cbn [rthen] in EP. now apply G in EP.
        * injection EP as _ EP. destruct (data_loader _ _ true _); [|discriminate]. cbn [rthen] in EP. now apply G in EP.
  Qed.

  (** Network and data meet on the same device whenever the GPU is asked for, or the network given is on the CPU; a network on the GPU with cuda=False makes every
      training with at least one epoch fail. *)
  Theorem C84_place : forall a nd, same_place (cuda X Y a) (data_dev (cuda X Y a) (load_all X Y a)) nd = true <-> cuda X Y a = true \/ nd = Cpu.
  Proof. intros a nd. unfold same_place, data_dev. destruct (cuda X Y a), (load_all X Y a), nd; cbn; split; intros H; try discriminate; try reflexivity; try (now left); try (now right); destruct H; discriminate. Qed.
  Theorem C84_stranded : forall k s lk a w s' r, cuda X Y a = false -> start_epoch X Y a < n_epochs X Y a -> routine k s lk Gpu a w <> (s', Ok r).
  Proof.
    intros k s lk a w s' [[w' tr] te] Hc He H. unfold M_NNTrain.routine in H. destruct (prepare k s lk a) as [s1 [u|]] eqn:EP; [|discriminate]. injection H as _ H.
    destruct (prepare_ok X Y cast castY k s lk a s1 u EP) as (_ & _ & _ & _ & _ & Hd). unfold M_NNTrain.train in H. cbv zeta in H.
    destruct (fit W _ _ _ _ _ w _ _ _ _ _) as [[[[w0 tr0] te0] ks]|] eqn:EF; [|discriminate]. apply (fit_ran W _ (0, [])) in EF. destruct EF as (m & Hm & HL & _ & _ & _ & Hs).
    assert (Hpos : 0 < m). { destruct Hs as [(E & _)|(v & _ & _ & E & _)]; lia. }
    destruct (HL (start_epoch X Y a) ltac:(lia)) as (H1 & _). set (ld := load X Y perm draws unif fuel true (s_loader X Y u) (s_data X Y u)) in *.
    unfold whole in H1. destruct (ld (start_epoch X Y a)) as [[|b bs]|] eqn:E; cbn [placed] in H1.
    - discriminate.
    - rewrite Hd, Hc in H1. cbn in H1. discriminate.
    - discriminate.
  Qed.

  (** A routine writes the number of workers and the pinning of memory into the dictionary it is given when the GPU is used, and changes no other dictionary. *)
  Theorem C84_store : forall k s lk nd a w s' r, routine k s lk nd a w = (s', Ok r) ->
    (forall o, o <> lk -> s' o = s o) /\
    (forall key, kget (s' lk) key = match key with
      | KWorkers | KPin => if cuda X Y a then Some (if load_all X Y a then 0 else 1)%Z else kget (s lk) key
      | _ => kget (s lk) key end).
  Proof.
    intros k s lk nd a w s' r H. unfold M_NNTrain.routine in H. destruct (prepare k s lk a) as [s1 [u|]] eqn:EP; [|discriminate]. injection H as <- _.
    destruct (prepare_ok X Y cast castY k s lk a s1 u EP) as (_ & _ & (-> & _) & _). unfold supd. split.
    - intros o Ho. rewrite (proj2 (Nat.eqb_neq _ _) Ho). reflexivity.
    - intros key. rewrite Nat.eqb_refl, kget_extra. destruct key; reflexivity.
  Qed.
  (** Calls that are each given their own empty dictionary do not influence each other: what is built depends on the arguments alone. *)
  Theorem C84_own : forall k s1 s2 o1 o2 a, s1 o1 = s2 o2 -> snd (prepare k s1 o1 a) = snd (prepare k s2 o2 a).
  Proof.
    intros k s1 s2 o1 o2 a E. unfold M_NNTrain.prepare. destruct (make _ _ _ _ _ _ _ _); [|reflexivity]. rewrite E. destruct (samples_val X Y a), (labs_val X Y a); try reflexivity.
    destruct (rthen _ _); reflexivity.
  Qed.
End Setup.
Print Assumptions C84_loaders. Print Assumptions C84_refused. Print Assumptions C84_place. Print Assumptions C84_stranded. Print Assumptions C84_store. Print Assumptions C84_own.

(** *** The loss reported for an epoch *)
Section Mean.
  Variable A : Type.
  Variable f : A -> R.
  Lemma total_batches b (bs : list (list A)) : 0 < b -> Forall (fun l => length l = b) bs -> total (map f (concat bs)) = (total (map (fun l => average (map f l)) bs) * INR b)%R.
  Proof.
    intros Hb. induction 1 as [|l bs Hl H IH]; [cbn; ring|]. cbn [concat map]. rewrite map_app, total_app, total_cons, IH. unfold average at 2. rewrite map_length, Hl. field. apply not_0_INR. lia.
  Qed.
  (** With batches of one size the mean of the losses of the batches is the mean over the samples. *)
  Theorem C84_mean : forall b (bs : list (list A)), 0 < b -> bs <> [] -> Forall (fun l => length l = b) bs -> average (map (fun l => average (map f l)) bs) = average (map f (concat bs)).
  Proof.
    intros b bs Hb Hne H. unfold average at 1 3. rewrite (total_batches b bs Hb H), !map_length, (length_concat_const bs b H), mult_INR. field. split; apply not_0_INR; [lia|]. destruct bs; [congruence | discriminate].
  Qed.
End Mean.
Print Assumptions C84_mean.
(** With a smaller last batch it is not: the samples of that batch count more. *)
Theorem C84_mean_refuted :
  ~ (forall A (f : A -> R) b (order : list A) bs, 0 < b -> order <> [] -> Pieces b false order bs -> average (map (fun l => average (map f l)) bs) = average (map f order)).
Proof.
  intros H. specialize (H R (fun x => x) 2 [0%R; 0%R; 1%R] [[0%R; 0%R]; [1%R]] ltac:(lia) ltac:(discriminate)).
  assert (P : Pieces 2 false [0%R; 0%R; 1%R] [[0%R; 0%R]; [1%R]]). { split; [reflexivity|]. split; [repeat constructor; cbn; lia | repeat constructor]. }
  specialize (H P). unfold average in H. cbn in H. lra.
Qed.
Print Assumptions C84_mean_refuted.

(** *** Targets of one batch *)
Section Collate.
  Variables X Y : Type.
  Variable draws : bool -> nat -> nat -> nat -> nat.
  Variable unif : bool -> nat -> nat -> R.
  Variable fuel : nat.
  (** Batches can be put together when no weight is given, when every sample has another similar one, or when the data are triplets or labelled samples. *)
  Theorem C84_collates : forall tr e d is its,
    match d with DPairs _ _ _ M w => w = None \/ forall i n, Similars M i n -> 2 <= n | _ => True end ->
    Forall2 (fun i it => get_item X Y draws unif fuel tr e d i = Ok it) is its -> collate X Y its = Ok its.
  Proof.
    intros tr e d is its Hd HF.
    assert (G : (forall it, In it its -> match snd it with IntT _ _ => False | _ => True end) \/ (forall it, In it its -> match snd it with TensorT _ _ => False | _ => True end)).
    { assert (Hin : forall it, In it its -> exists i, get_item X Y draws unif fuel tr e d i = Ok it).
      { intros it H. induction HF as [|i0 it0 is its H0 HF IH]; [destruct H|]. destruct H as [<-|H]; [eauto | apply IH; exact H]. }
      destruct d as [xs M w|xs M|xs ys]; cbn [get_item] in Hin.
      - destruct w as [w|].
        + destruct Hd as [Hd|Hd]; [discriminate|]. right. intros it H. destruct (Hin it H) as (i & Hi). destruct (siamese _ _ _ _ _ _ i) as [[[a b] t]|] eqn:Es; [|discriminate].
          destruct (pick xs a); [|discriminate]. destruct (pick xs b); [|discriminate]. cbn [rthen] in Hi. injection Hi as <-. cbn [snd]. unfold target_kind.
          destruct (nth_error M i) as [r|] eqn:Er; [|unfold siamese, row_of in Es; rewrite Er in Es; discriminate].
          destruct (Nat.ltb_spec (trues r) 2) as [L|L]; [|exact I]. specialize (Hd i (trues r) ltac:(exists r; split; [exact Er | reflexivity])). lia.
        + left. intros it H. destruct (Hin it H) as (i & Hi). destruct (siamese _ _ _ _ _ _ i) as [[[a b] t]|]; [|discriminate]. destruct (pick xs a); [|discriminate]. destruct (pick xs b); [|discriminate]. cbn [rthen] in Hi. injection Hi as <-. exact I.
      - left. intros it H. destruct (Hin it H) as (i & Hi). destruct (M_Similarity.triplet _ _ _ _ i) as [[[a p] m]|]; [|discriminate]. destruct (pick xs a); [|discriminate]. destruct (pick xs p); [|discriminate]. destruct (pick xs m); [|discriminate]. cbn [rthen] in Hi. injection Hi as <-. exact I.
      - left. intros it H. destruct (Hin it H) as (i & Hi). destruct (pick xs i); [|discriminate]. destruct (pick ys i); [|discriminate]. cbn [rthen] in Hi. injection Hi as <-. exact I. }
    unfold collate. destruct its as [|[x t] rest]; [reflexivity|]. destruct t as [ |t|t|y]; try reflexivity. destruct G as [G|G].
    - assert (E : existsb (fun it : item X Y => match snd it with IntT _ _ => true | _ => false end) rest = false).
      { apply not_true_iff_false. intros E. apply existsb_exists in E. destruct E as (it & Hit & E). specialize (G it (or_intror Hit)). destruct (snd it); try discriminate. exact G. }
      match goal with |- context [existsb ?g rest] => replace (existsb g rest) with false by (symmetry; exact E) end. reflexivity.
    - destruct (G (x, TensorT Y t) (or_introl eq_refl)).
  Qed.
End Collate.
Print Assumptions C84_collates.

(** *** Cases: samples and parameters are numbers; the weights count the steps; every loss is reported as 0. *)
Definition ex_routine (k : kind) := routine nat nat nat (fun x => x) (fun y => y) (fun y => [INR y]) (fun _ x => [INR x]) (fun _ => Fin 0) (fun _ _ _ w => S w) (fun _ _ r _ => r)
  (fun _ n => seq 0 n) (fun _ _ _ j => j) (fun _ _ _ => 0%R) 5 k.
Definition ex_args (xs : list nat) (l : labels nat) (w : option R) (gpu : bool) (b n : nat) : args nat nat :=
  mkargs nat nat xs l None None gpu false b n 0 1 10 false w 1 (Some (/ 1000)%R) None [] None [].
Definition empty_store : store := fun _ => [].
Example C84_case : ex_routine FP empty_store 7 Cpu (ex_args [1; 2; 3] (Pars nat [10; 20; 30]) None false 2 2) 0
  = (supd empty_store 7 [], Ok (4, [ndiv (Fin 0) (Fin 2); ndiv (Fin 0) (Fin 2)], None))
  /\ Fits nat nat FP [1; 2; 3] (Pars nat [10; 20; 30]) /\ forall e n : nat, Permutation (seq 0 n) (seq 0 n).
Proof. split; [reflexivity|]. split; [exact I | intros _ n; apply Permutation_refl]. Qed.
Definition lonely : list (list bool) := [[true; false; false]; [false; true; true]; [false; true; true]].
Example C84_case_pairs : fst (ex_routine Contrastive empty_store 7 Cpu (ex_args [5; 6; 7] (Sim nat lonely) None false 3 2) 0) = supd empty_store 7 []
  /\ (exists tr, snd (ex_routine Contrastive empty_store 7 Cpu (ex_args [5; 6; 7] (Sim nat lonely) None false 3 2) 0) = Ok (2, tr, None)) /\ Square 3 lonely.
Proof. split; [reflexivity|]. split; [eexists; reflexivity | split; [reflexivity | repeat constructor]]. Qed.

(** With a weight for similar pairs and one sample without a similar one, training fails when that sample comes first in its batch, although every item exists. *)
Theorem C84_mixed_refuted : exists (xs : list nat) M w s r, Square (length xs) M /\ (exists i j, i <> j /\ Entry M i j true)
  /\ (forall i, i < length xs -> exists it, get_item nat nat (fun _ _ _ j => j) (fun _ _ _ => 0%R) 5 true 0 (DPairs nat nat xs M (Some w)) i = Ok it)
  /\ ex_routine Contrastive empty_store 7 Cpu (ex_args xs (Sim nat M) (Some w) false 3 1) 0 = (s, Err r) /\ r = TypeError.
Proof.
  exists [5; 6; 7], lonely, 1%R, (supd empty_store 7 []), TypeError. split; [split; [reflexivity | repeat constructor]|]. split; [exists 1, 2; split; [lia|]; exists [false; true; true]; split; reflexivity|].
  assert (G : forall i, i < 3 -> get_item nat nat (fun _ _ _ j => j) (fun _ _ _ => 0%R) 5 true 0 (DPairs nat nat [5; 6; 7] lonely (Some 1%R)) i
     = Ok (match i with 0 => ([5; 6], TensorT nat false) | 1 => ([6; 7], IntT nat true) | _ => ([7; 6], IntT nat true) end)).
  { intros i Hi. destruct i as [|[|[|i]]]; [| | |lia]; cbn [get_item]; unfold siamese; cbn -[Rlt_dec]; try (destruct (Rlt_dec 0 1) as [_|Hn]; [|exfalso; apply Hn; lra]); reflexivity. }
  split; [intros i Hi; eexists; apply G; exact Hi|]. split; [|reflexivity].
  unfold ex_routine, routine. assert (EP : prepare nat nat (fun x => x) (fun y => y) Contrastive empty_store 7 (ex_args [5; 6; 7] (Sim nat lonely) (Some 1%R) false 3 1)
    = (supd empty_store 7 [], Ok (mksetup nat nat (DPairs nat nat [5; 6; 7] lonely (Some 1%R)) (mkloader 3 true 0 false false) None (mkopt None (/ 1000) []) (StepLR 8 1) Cpu))) by reflexivity.
  rewrite EP. unfold train, fit. cbn [s_val ex_args early n_epochs start_epoch Nat.sub epochs s_loader s_data s_dev cuda].
  assert (EL : load nat nat (fun _ n => seq 0 n) (fun _ _ _ j => j) (fun _ _ _ => 0%R) 5 true (mkloader 3 true 0 false false) (DPairs nat nat [5; 6; 7] lonely (Some 1%R)) 0 = Err TypeError).
  { unfold load. cbn [l_batch l_drop l_shuffle dlen length seq]. unfold pieces. cbn [length chunks firstn skipn all_ok]. rewrite (G 0), (G 1), (G 2) by lia. reflexivity. }
  rewrite EL. reflexivity.
Qed.
Print Assumptions C84_mixed_refuted.

(** The default dictionary of a class remembers a training on the GPU: a later one without GPU gets a worker process and pinned memory. *)
Definition ex_construct := construct nat nat nat (fun x => x) (fun y => y) (fun y => [INR y]) (fun _ x => [INR x]) (fun _ => Fin 0) (fun _ _ _ w => S w) (fun _ _ r _ => r)
  (fun _ n => seq 0 n) (fun _ _ _ j => j) (fun _ _ _ => 0%R) 5 (fun k => match k with Contrastive => 0 | Triplet => 1 | FP => 2 end).
Theorem C84_leak_refuted : exists a b s' s1 s2 u1 u2 r,
  cuda nat nat a = true /\ cuda nat nat b = false /\ ex_construct FP empty_store None Cpu a 0 = (s', Ok r)
  /\ prepare nat nat (fun x => x) (fun y => y) FP empty_store 2 b = (s1, Ok u1) /\ prepare nat nat (fun x => x) (fun y => y) FP s' 2 b = (s2, Ok u2)
  /\ l_workers (s_loader nat nat u1) = 0%Z /\ l_pin (s_loader nat nat u1) = false /\ l_workers (s_loader nat nat u2) = 1%Z /\ l_pin (s_loader nat nat u2) = true.
Proof.
  exists (ex_args [1; 2] (Pars nat [3; 4]) None true 1 1), (ex_args [1; 2] (Pars nat [3; 4]) None false 1 1). eexists _, _, _, _, _, _. split; [reflexivity|]. split; [reflexivity|]. split; [reflexivity|]. split; [reflexivity|]. split; [reflexivity|].
  split; [reflexivity|]. split; [reflexivity|]. split; reflexivity.
Qed.
Print Assumptions C84_leak_refuted.
