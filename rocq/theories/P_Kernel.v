(** C32, C33: perturbation kernels. *)
From Coq Require Import Qabs Permutation Lqa.
From Verif Require Import M_Base M_Num M_Graph S_Graph M_GraphEx L_Graph L_Graph2 L_Graph3 L_Graph4 M_Infer M_Journal M_APM M_Kernel S_Kernel L_Kernel L_Num.
Open Scope nat_scope.

(** A joint kernel is refused, with ValueError, exactly if some model is named twice. *)
Theorem C32_check :
  forall (C Rng D V : Type) (ks : list (kernel C Rng D V)),
  (joint_init C Rng D V ks = Ok ks <-> NoDup (flat_map k_models ks))
  /\ (joint_init C Rng D V ks = Err ValueError <-> ~ NoDup (flat_map k_models ks)).
Proof.
  intros C Rng D V ks. unfold joint_init. destruct (check_kernels_ok C Rng D V ks [] (NoDup_nil _)) as [(H & E) | (H & E)]; rewrite E; cbn [app] in H.
  - split; split; intros X; try assumption; try reflexivity; [discriminate | contradiction].
  - split; split; intros X; try assumption; try reflexivity; [discriminate | contradiction].
Qed.
Print Assumptions C32_check.

(** update names the models of all kernels, in order, and every model gets the value its own kernel computed for its position, from that kernel's
    row of the population and with the generator handed from kernel to kernel. *)
Theorem C32_update :
  forall (C Rng D V : Type) (ks : list (kernel C Rng D V)) kparams covs row r r' pm,
  joint_update C Rng D V ks kparams covs row r = (r', Ok pm) ->
  map fst pm = flat_map k_models ks
  /\ exists rows outs, (forall j v, nth_error rows j = Some v -> exists t, nth_error kparams j = Some t /\ nth_error t row = Some v)
       /\ Moves covs 0 ks rows r r' outs
       /\ forall j k out p m, nth_error ks j = Some k -> nth_error outs j = Some out -> nth_error (k_models k) p = Some m ->
            exists v, nth_error out p = Some v /\ In (m, [v]) pm.
Proof.
  intros C Rng D V ks kparams covs row r r' pm. unfold joint_update.
  destruct (update_all C Rng D V 0 ks kparams covs row r) as [r1 [outs|e]] eqn:E; [|discriminate]. intros H. injection H as <- Hp.
  apply update_all_moves in E. destruct E as (rows & Hl & Hr & Hm). destruct (moves_len C Rng D V covs ks _ _ _ _ _ Hm) as (_ & Hlo).
  destruct (pair_all_ok C Rng D V ks outs pm Hlo Hp) as (A & B). split; [exact A|]. exists rows, outs. split; [exact Hr|]. split; [exact Hm | exact B].
Qed.
Print Assumptions C32_update.

(** The proposal of perturb for sample i: with kernels naming exactly the free parameters, once each, and returning one value per model, the vector given to
    set_parameters has one entry per free parameter, and the entry of each parameter is what the kernel owning it made of the values of its own models in
    sample i. *)
Theorem C32_perturb :
  forall (C Rng D V : Type) g, wf g -> forall roots s (ks : list (kernel C Rng D V)) (pop : list (nat -> V)) o i f covs r r' outs,
  indep g roots -> (forall r, In r roots -> is_hyper g r = false) -> clean g roots s -> ParamOrder g roots o ->
  NoDup (flat_map k_models ks) -> (forall m, In m (flat_map k_models ks) <-> In m o) ->
  nth_error pop i = Some f -> Moves covs 0 ks (map (fun k => map f (k_models k)) ks) r r' outs ->
  (forall j k out, nth_error ks j = Some k -> nth_error outs j = Some out -> length out = length (k_models k)) ->
  exists s1 kp s2 v, kernel_parameters C Rng D V g roots (map (fun f => map f o) pop) ks s = (s1, Ok kp)
    /\ proposal C Rng D V g roots ks kp covs i r s1 = (s2, Ok (r', v)) /\ clean g roots s2 /\ val s2 = val s /\ length v = length o
    /\ forall j k out p m q, nth_error ks j = Some k -> nth_error outs j = Some out -> nth_error (k_models k) p = Some m -> nth_error o q = Some m ->
         nth_error v q = nth_error out p.
Proof. intros C Rng D V g Hwf roots s ks pop o i f covs r r' outs. exact (proposal_ok C Rng D V g Hwf roots s ks pop o i f covs r r' outs). Qed.
Print Assumptions C32_perturb.

(** The density of a joint move is the product of the kernels' densities, each between its own columns of the two samples. *)
Theorem C32_pdf :
  forall (C Rng D V : Type) (one : D) mul covs (mean x : nat -> V) o (ks : list (kernel C Rng D V)) ds,
  NoDup o -> incl (flat_map k_models ks) o -> Densities covs mean x 0 ks ds ->
  joint_pdf C Rng D V one mul ks (combine o (seq 0 (length o))) covs (map mean o) (map x o) = Ok (fold_left mul ds one).
Proof. intros C Rng D V one mul covs mean x o ks ds Hn Hi Hd. apply joint_pdf_ok; assumption. Qed.
Print Assumptions C32_pdf.

(** A kernel that draws a whole vector gives back a row of the same structure whose numbers, in order, are the vector drawn around the numbers of the old
    row. *)
Theorem C32_structure :
  forall (C Rng : Type) (draw : list Q -> C -> Rng -> Rng * res (list Q)),
  (forall m c r r' v, draw m c r = (r', Ok v) -> length v = length m) ->
  forall c row r r' row', vec_update C Rng draw (Some c) row r = (r', Ok row') ->
  exists m v, flat row = Ok m /\ flat row' = Ok v /\ draw m c r = (r', Ok v) /\ length row' = length row
    /\ forall i, match nth_error row i, nth_error row' i with
                 | Some (KS _), Some (KS _) => True
                 | Some (KA a), Some (KA b) => length b = length a
                 | None, None => True
                 | _, _ => False
                 end.
Proof.
  intros C Rng draw Hd c row r r' row'. unfold vec_update. destruct row as [|[q|a] row]; [discriminate| |].
  - destruct (all_scalars (KS q :: row)) as [m|e] eqn:Es; [|discriminate]. destruct (draw m c r) as [r1 [v|e]] eqn:Ed; [|discriminate]. intros H. injection H as <- <-.
    exists m, v. pose proof (Hd _ _ _ _ _ Ed) as Hl. apply all_scalars_inv in Es. destruct m as [|m0 m]; [discriminate|]. destruct v as [|v0 v]; [discriminate|]. rewrite Es.
    split; [unfold flat; cbn [map]; change (KS m0 :: map KS m) with (map KS (m0 :: m)); apply all_scalars_row|].
    split; [unfold flat; cbn [map]; change (KS v0 :: map KS v) with (map KS (v0 :: v)); apply all_scalars_row|].
    split; [exact Ed|]. split; [rewrite !map_length; exact Hl|].
    intros i. rewrite !nth_error_map. destruct (nth_error (m0 :: m) i) eqn:A, (nth_error (v0 :: v) i) eqn:B; cbn [option_map]; try exact I.
    + apply nth_error_None in B. assert (i < length (m0 :: m)) by (apply nth_error_Some; congruence). lia.
    + apply nth_error_None in A. assert (i < length (v0 :: v)) by (apply nth_error_Some; congruence). lia.
  - destruct (all_arrays (KA a :: row)) as [ls|e] eqn:Es; [|discriminate]. destruct (draw (concat ls) c r) as [r1 [v|e]] eqn:Ed; [|discriminate]. intros H. injection H as <- <-.
    pose proof (Hd _ _ _ _ _ Ed) as Hl. destruct (pieces_ok ls v Hl) as (ls' & -> & El & Ec). apply all_arrays_inv in Es. exists (concat ls), v.
    assert (Hlen : length ls' = length ls) by (apply (f_equal (@length nat)) in El; rewrite !map_length in El; exact El).
    destruct ls as [|l0 ls]; [discriminate|]. destruct ls' as [|l0' ls']; [discriminate|]. rewrite Es.
    split; [unfold flat; cbn [map]; change (KA l0 :: map KA ls) with (map KA (l0 :: ls)); rewrite all_arrays_row; reflexivity|].
    split; [unfold flat; cbn [map]; change (KA l0' :: map KA ls') with (map KA (l0' :: ls')); rewrite all_arrays_row, Ec; reflexivity|].
    split; [exact Ed|]. split; [rewrite !map_length; exact Hlen|].
    intros i. rewrite !nth_error_map. pose proof (f_equal (fun l => nth_error l i) El) as X. cbn beta in X. rewrite !nth_error_map in X.
    destruct (nth_error (l0 :: ls) i), (nth_error (l0' :: ls') i); cbn [option_map] in *; try discriminate; [congruence | exact I].
Qed.
Print Assumptions C32_structure.

(** DefaultKernel: the continuous models in one kernel, the others in another; no kernel without models unless there are no models at all. *)
Theorem C32_default :
  forall (C Rng D : Type) mvn dens rint ofq (continuous : nat -> bool) models,
  (NoDup models -> exists ks, default_kernel C Rng D mvn dens rint ofq continuous models = Ok ks
      /\ (forall m, In m (flat_map k_models ks) <-> In m models)
      /\ (forall k, In k ks -> exists b, forall m, In m (k_models k) -> continuous m = b)
      /\ (models <> [] -> forall k, In k ks -> k_models k <> []))
  /\ (~ NoDup models -> default_kernel C Rng D mvn dens rint ofq continuous models = Err ValueError).
Proof.
  intros C Rng D mvn dens rint ofq continuous models. unfold default_kernel.
  set (cont := filter continuous models). set (disc := filter (fun m => negb (continuous m)) models).
  assert (Hin : forall m, In m models <-> In m cont \/ In m disc).
  { intros m. unfold cont, disc. rewrite !filter_In. destruct (continuous m); cbn; intuition congruence. }
  assert (Hc : forall m, In m cont -> continuous m = true) by (intros m H; apply filter_In in H; apply H).
  assert (Hd : forall m, In m disc -> continuous m = false) by (intros m H; apply filter_In in H; destruct H as (_ & H); destruct (continuous m); [discriminate | reflexivity]).
  assert (Hnd : NoDup models <-> NoDup (cont ++ disc)).
  { assert (Hp : Permutation models (cont ++ disc)).
    { unfold cont, disc. clear. induction models as [|m l IH]; [constructor|]. cbn [filter]. destruct (continuous m); cbn [negb app]; [constructor; exact IH|].
      apply Permutation_cons_app. exact IH. }
    split; intros H; [apply (Permutation_NoDup Hp H) | apply (Permutation_NoDup (Permutation_sym Hp) H)]. }
  destruct cont as [|c0 cont'] eqn:Ec; destruct disc as [|d0 disc'] eqn:Ed; match goal with |- context [joint_init _ _ _ _ ?ks] => pose proof (C32_check C Rng D kval ks) as (K1 & K2); cbn [flat_map] in K1, K2 end.
  - cbn in K1, K2. split.
    + intros _. eexists. split; [apply K1; constructor|]. split; [intros m; cbn; rewrite Hin; cbn; intuition|]. split.
      * intros k [<-|[]]. exists true. intros m [].
      * intros Hm. exfalso. destruct models as [|m l]; [congruence|]. destruct (proj1 (Hin m) (or_introl eq_refl)) as [[]|[]].
    + intros H. exfalso. apply H. apply Hnd. constructor.
  - rewrite app_nil_r in K1, K2. cbn [k_models walk_kernel] in K1, K2. cbn [app] in Hnd. split.
    + intros H. eexists. split; [apply K1, Hnd, H|]. split; [intros m; cbn [flat_map k_models walk_kernel]; rewrite app_nil_r, Hin; cbn [In]; tauto|]. split.
      * intros k [<-|[]]. exists false. cbn [k_models walk_kernel]. exact Hd.
      * intros _ k [<-|[]]. cbn [k_models walk_kernel]. discriminate.
    + intros H. apply K2. intros X. apply H, Hnd, X.
  - rewrite app_nil_r in K1, K2, Hnd. cbn [k_models vec_kernel] in K1, K2. split.
    + intros H. eexists. split; [apply K1, Hnd, H|]. split; [intros m; cbn [flat_map k_models vec_kernel]; rewrite app_nil_r, Hin; cbn [In]; tauto|]. split.
      * intros k [<-|[]]. exists true. cbn [k_models vec_kernel]. exact Hc.
      * intros _ k [<-|[]]. cbn [k_models vec_kernel]. discriminate.
    + intros H. apply K2. intros X. apply H, Hnd, X.
  - rewrite app_nil_r in K1, K2. cbn [k_models vec_kernel walk_kernel] in K1, K2. split.
    + intros H. eexists. split; [apply K1, Hnd, H|]. split; [intros m; cbn [flat_map k_models vec_kernel walk_kernel]; rewrite app_nil_r, in_app_iff, Hin; tauto|]. split.
      * intros k [<-|[<-|[]]]; [exists true; exact Hc | exists false; exact Hd].
      * intros _ k [<-|[<-|[]]]; cbn [k_models vec_kernel walk_kernel]; discriminate.
    + intros H. apply K2. intros X. apply H, Hnd, X.
Qed.
Print Assumptions C32_default.

(** Continuous models are moved by the multivariate normal kernel, discrete ones by a random walk with steps of at most one. *)
Theorem C32_default_kinds :
  forall (C Rng D : Type) mvn dens rint ofq (continuous : nat -> bool) models ks, default_kernel C Rng D mvn dens rint ofq continuous models = Ok ks ->
  forall k m, In k ks -> In m (k_models k) ->
  (continuous m = true -> (forall cov row r, k_upd k cov row r = vec_update C Rng mvn cov row r) /\ (forall cov mean x, k_pdf k cov mean x = vec_pdf C D dens cov mean x))
  /\ (continuous m = false -> (forall cov mean x, k_pdf k cov mean x = walk_pmf C D ofq 1 cov mean x)
      /\ (forall cov z r, (forall n s, 0 < n -> snd (rint n s) < n) -> exists r' z', k_upd k cov [KS (inject_Z z)] r = (r', Ok [KS z']) /\ (inject_Z (z - 1) <= z')%Q /\ (z' <= inject_Z (z + 1))%Q)
      /\ (forall cov z r d, (forall n s, rint n s = (s, d)) -> exists z', k_upd k cov [KS (inject_Z z)] r = (r, Ok [KS z']) /\ (z' == inject_Z (z - 1 + Z.of_nat d))%Q)).
Proof.
  intros C Rng D mvn dens rint ofq continuous models ks E k m Hk Hm. unfold default_kernel in E.
  assert (W : k = vec_kernel C Rng D mvn dens (filter continuous models) \/ k = walk_kernel C Rng D rint ofq 1 (filter (fun m => negb (continuous m)) models)).
  { unfold joint_init in E. destruct (filter continuous models) as [|c0 cs]; [|destruct (filter (fun m => negb (continuous m)) models) as [|d0 ds]].
    - destruct (check_kernels _ _ _ _ _ _); [|discriminate]. injection E as <-. destruct Hk as [<-|[]]. now right.
    - destruct (check_kernels _ _ _ _ _ _); [|discriminate]. injection E as <-. destruct Hk as [<-|[]]. now left.
    - destruct (check_kernels _ _ _ _ _ _); [|discriminate]. injection E as <-. destruct Hk as [<-|[<-|[]]]; [now left | now right]. }
  destruct W as [-> | ->]; cbn [k_models vec_kernel walk_kernel k_upd k_pdf] in *; apply filter_In in Hm; destruct Hm as (_ & Hm).
  - split; [|congruence]. intros _. split; reflexivity.
  - apply negb_true_iff in Hm. split; [congruence|]. intros _. split; [reflexivity|]. unfold walk_update. cbn [all_scalars steps]. unfold step1. change (2 * 1 + 1 <=? 0)%Z with false. cbv iota. change (Z.to_nat (2 * 1 + 1)) with 3. split.
    + intros cov z r Hr. destruct (rint 3 r) as [r' d] eqn:Ed. eexists r', _. split; [reflexivity|]. specialize (Hr 3 r ltac:(lia)). rewrite Ed in Hr. cbn [snd] in Hr.
      unfold Qminus. rewrite <- inject_Z_opp, <- !inject_Z_plus, <- !Zle_Qle. lia.
    + intros cov z r d Hr. rewrite (Hr 3 r). eexists. split; [reflexivity|]. unfold Qminus. rewrite <- inject_Z_opp, <- !inject_Z_plus. reflexivity.
Qed.
Print Assumptions C32_default_kinds.


(** Coverage is not checked: kernels that leave out a free parameter are accepted, and the proposal they make is a vector that is too short, on which
    set_parameters raises. *)
Definition shift (models : list nat) : kernel unit unit unit (list Q) :=
  mkkernel models (fun _ row r => (r, Ok (map (map (Qplus (1 # 10))) row))) (fun _ _ _ => Ok tt).
Theorem C32_uncovered_refuted :
  ~ (forall g roots s (ks : list (kernel unit unit unit (list Q))) accepted kp s1 s2 v s3 e,
       wf g -> indep g roots -> clean g roots s -> joint_init unit unit unit (list Q) ks = Ok ks ->
       kernel_parameters unit unit unit (list Q) g roots accepted ks s = (s1, Ok kp) ->
       proposal unit unit unit (list Q) g roots ks kp [] 0 tt s1 = (s2, Ok (tt, v)) -> set_parameters g roots v s2 <> (s3, Err e)).
Proof.
  intros H.
  pose (a := kernel_parameters unit unit unit (list Q) g1 [5] [[[69 # 10]; [69 # 10]]] [shift [3]] s1).
  pose (b := proposal unit unit unit (list Q) g1 [5] [shift [3]] [[[[69 # 10]]]] [] 0 tt (fst a)).
  apply (H g1 [5] s1 [shift [3]] [[[69 # 10]; [69 # 10]]] [[[[69 # 10]]]] (fst a) (fst b) [[((1 # 10) + (69 # 10))%Q]] (fst (set_parameters g1 [5] [[((1 # 10) + (69 # 10))%Q]] (fst b))) IndexError).
  - apply mkgraph_wf; reflexivity.
  - apply indep_single, mkgraph_wf; reflexivity.
  - apply st0_clean.
  - reflexivity.
  - assert (E : snd a = Ok [[[[69 # 10]]]]) by (vm_compute; reflexivity). rewrite <- E. apply surjective_pairing.
  - assert (E : snd b = Ok (tt, [[((1 # 10) + (69 # 10))%Q]])) by (vm_compute; reflexivity). rewrite <- E. apply surjective_pairing.
  - assert (E : snd (set_parameters g1 [5] [[((1 # 10) + (69 # 10))%Q]] (fst b)) = Err IndexError) by (vm_compute; reflexivity). rewrite <- E. apply surjective_pairing.
Qed.
Print Assumptions C32_uncovered_refuted.

(** a joint kernel of two kernels on the two parameters of g1 (order 3, 2), the kernels in the other order *)
Example C32_hypotheses : wf g1 /\ indep g1 [5] /\ clean g1 [5] s1 /\ ParamOrder g1 [5] [3; 2] /\ NoDup (flat_map k_models [shift [2]; shift [3]])
  /\ (forall m, In m (flat_map k_models [shift [2]; shift [3]]) <-> In m [3; 2]).
Proof.
  assert (W : wf g1) by (apply mkgraph_wf; reflexivity).
  split; [exact W|]. split; [apply indep_single; exact W|]. split; [apply st0_clean|]. split; [apply (ParamOrder_order g1 W); reflexivity|].
  split; [repeat constructor; cbn; intuition lia|]. intros m. cbn. tauto.
Qed.
Example C32_case :
  let ks := [shift [2]; shift [3]] in
  let a := kernel_parameters unit unit unit (list Q) g1 [5] [[[3#1]; [2#1]]; [[30#1]; [20#1]]] ks s1 in
  snd a = Ok [[[[2#1]]; [[20#1]]]; [[[3#1]]; [[30#1]]]]
  /\ exists s2, proposal unit unit unit (list Q) g1 [5] ks [[[[2#1]]; [[20#1]]]; [[[3#1]]; [[30#1]]]] [] 1 tt (fst a) = (s2, Ok (tt, [[(1#10) + 30]; [(1#10) + 20]]%Q)).
Proof.
  intros ks a. split; [vm_compute; reflexivity|]. eexists.
  match goal with |- ?p = _ => rewrite (surjective_pairing p) end. f_equal; vm_compute; reflexivity.
Qed.

(** ** C33: the random walk.  The probability of a move is the fraction of the equally likely sequences of draws that lead to it. *)
Definition moved (jump : Z) (row : list kval) (t : list nat) : list nat * res (list Q) :=
  match walk_update unit (list nat) replay jump None row t with (t', Ok r) => (t', flat r) | (t', Err e) => (t', Err e) end.
(** number of possible draws for one value *)
Definition choices (jump : Z) : nat := Z.to_nat (2 * jump + 1).
Definition within (jump : Z) (zs xs : list Z) : Prop := Forall2 (fun z x => Z.abs (z - x) <= jump)%Z zs xs.
Definition pmf (jump : Z) := walk_pmf unit Q (fun q => q) jump None.

Lemma moved_scalars jump zs t : zs <> [] -> moved jump (map KS (ints zs)) t = match wsteps jump (ints zs) t with (t', Ok []) => (t', Err IndexError) | x => x end.
Proof.
  intros Hz. unfold moved, walk_update. destruct zs as [|z zs]; [congruence|]. cbn [ints map]. change (KS (inject_Z z) :: map KS (map inject_Z zs)) with (map KS (ints (z :: zs))).
  rewrite all_scalars_row. unfold wsteps. destruct (steps (list nat) replay jump (inject_Z z :: map inject_Z zs) t) as [t' [l|e]] eqn:E; cbn [ints map]; [|rewrite E; reflexivity].
  change (ints (z :: zs)) with (inject_Z z :: map inject_Z zs). rewrite E. destruct l as [|q l]; [reflexivity|]. unfold flat. cbn [map]. change (KS q :: map KS l) with (map KS (q :: l)). rewrite all_scalars_row. reflexivity.
Qed.
Lemma returns_nil x xs t : returns (x :: xs) (t, Ok []) = false.
Proof. reflexivity. Qed.
Lemma hits_ext f h x n k : (forall t, In t (tapes n k) -> returns x (f t) = returns x (h t)) -> hits f x n k = hits h x n k.
Proof.
  intros H. unfold hits. f_equal. revert H. generalize (tapes n k) as l. induction l as [|t l IH]; intros H; [reflexivity|]. cbn [filter]. rewrite (H t (or_introl eq_refl)), IH by (intros a Ha; apply H; right; exact Ha). reflexivity.
Qed.
Lemma close_within jump zs xs : length xs = length zs -> (forallb (fun p => close jump (fst p) (snd p)) (combine zs xs) = true <-> within jump zs xs).
Proof.
  revert xs. induction zs as [|z zs IH]; intros [|x xs] Hl; try discriminate; [split; [constructor | reflexivity]|]. cbn [combine forallb fst snd]. rewrite andb_true_iff, IH by (cbn in Hl; congruence).
  unfold close. rewrite Z.leb_le. split; [intros (A & B); constructor; assumption | intros H; inversion H; split; assumption].
Qed.

(** Every point within reach is hit by exactly one of the (2 jump + 1)^k equally likely sequences of draws, other points by none; numbers and arrays
    alike. *)
Theorem C33_moves :
  forall jump row zs xs, (0 <= jump)%Z -> zs <> [] -> flat row = Ok (ints zs) -> length xs = length zs ->
  (within jump zs xs -> hits (moved jump row) (ints xs) (choices jump) (length zs) = 1)
  /\ (~ within jump zs xs -> hits (moved jump row) (ints xs) (choices jump) (length zs) = 0)
  /\ length (tapes (choices jump) (length zs)) = choices jump ^ length zs /\ NoDup (tapes (choices jump) (length zs))
  /\ (forall t, In t (tapes (choices jump) (length zs)) <-> length t = length zs /\ Forall (fun d => d < choices jump) t).
Proof.
  intros jump row zs xs Hj Hz Hf Hl.
  assert (E : hits (moved jump row) (ints xs) (choices jump) (length zs) = if forallb (fun p => close jump (fst p) (snd p)) (combine zs xs) then 1 else 0).
  { rewrite <- (hits_steps jump Hj zs xs Hl). change (width jump) with (choices jump). apply hits_ext. intros t Ht. apply tapes_spec in Ht. destruct Ht as (Ht & _).
    assert (Hli : length (ints zs) = length zs) by apply map_length.
    destruct (wsteps_ok jump Hj (ints zs) t ltac:(rewrite Hli, Ht; apply Nat.le_refl)) as (ws & Ew & Hw).
    unfold moved, walk_update. destruct row as [|[q|a] row]; [discriminate| |].
    - unfold flat in Hf. rewrite Hf. unfold wsteps in *. rewrite Ew. cbn [fst snd returns].
      destruct ws as [|w ws]; [destruct zs; [congruence | discriminate]|]. unfold flat. cbn [map]. change (KS w :: map KS ws) with (map KS (w :: ws)). rewrite all_scalars_row. reflexivity.
    - unfold flat in Hf. destruct (all_arrays (KA a :: row)) as [ls|e] eqn:Ea; [|discriminate]. injection Hf as Hf. rewrite Hf. unfold wsteps in *. rewrite Ew.
      destruct (pieces_ok ls ws ltac:(rewrite Hf; exact Hw)) as (ls' & -> & El & Ec).
      destruct ls' as [|l0 ls']. { cbn in El. destruct ls; [|discriminate]. cbn in Hf. destruct zs; [congruence | discriminate]. }
      unfold flat. cbn [map]. change (KA l0 :: map KA ls') with (map KA (l0 :: ls')). rewrite all_arrays_row, Ec. reflexivity. }
  split; [|split; [|split; [apply tapes_len | split; [apply tapes_nodup | intros t; apply tapes_spec]]]].
  - intros H. rewrite E. apply (close_within jump zs xs Hl) in H. rewrite H. reflexivity.
  - intros H. rewrite E. destruct (forallb _ _) eqn:F; [|reflexivity]. exfalso. apply H. apply (close_within jump zs xs Hl). exact F.
Qed.
Print Assumptions C33_moves.

Lemma abs_inject z x jump : Qle_bool (Qabs (inject_Z z - inject_Z x)) (inject_Z jump) = (Z.abs (z - x) <=? jump)%Z.
Proof.
  unfold Qminus. rewrite <- inject_Z_opp, <- inject_Z_plus. change (Qabs (inject_Z (z + - x))) with (inject_Z (Z.abs (z + - x))).
  destruct (Z.leb_spec (Z.abs (z - x)) jump) as [H | H].
  - apply Qle_bool_iff. rewrite <- Zle_Qle. exact H.
  - destruct (Qle_bool _ _) eqn:E; [|reflexivity]. apply Qle_bool_iff in E. rewrite <- Zle_Qle in E. unfold Z.sub in H. lia.
Qed.
(** the two ways a single value is stored *)
Inductive single (z : Z) : list kval -> Prop := single_num : single z [KS (inject_Z z)] | single_arr : single z [KA [inject_Z z]].

(** With one value the mass function is the probability of the move, it is 0 out of reach and sums to one over the points within reach. *)
Theorem C33_single :
  forall jump z mean, (0 <= jump)%Z -> single z mean ->
  (forall x y, single x y -> exists p, pmf jump mean y = Ok p
     /\ (p == inject_Z (Z.of_nat (hits (moved jump mean) [inject_Z x] (choices jump) 1)) / inject_Z (Z.of_nat (choices jump)))%Q
     /\ ((jump < Z.abs (z - x))%Z -> p == 0)%Q)
  /\ (qsum (map (fun d => match pmf jump mean [KS (inject_Z (z - jump + Z.of_nat d))] with Ok p => p | Err _ => 0 end) (seq 0 (choices jump))) == 1)%Q.
Proof.
  intros jump z mean Hj Hm.
  assert (Hn : inject_Z (Z.of_nat (choices jump)) = inject_Z (2 * jump + 1)) by (unfold choices; rewrite Z2Nat.id by lia; reflexivity).
  assert (Hpos : (0 < inject_Z (2 * jump + 1))%Q) by (change 0%Q with (inject_Z 0); rewrite <- Zlt_Qlt; lia).
  assert (Hp : forall x y, single x y -> pmf jump mean y = Ok (if (Z.abs (z - x) <=? jump)%Z then 1 / inject_Z (2 * jump + 1) else 0)%Q).
  { intros x y Hy. unfold pmf, walk_pmf, far. inversion Hm; inversion Hy; subst; rewrite abs_inject; destruct (Z.abs (z - x) <=? jump)%Z; reflexivity. }
  assert (Hf : flat mean = Ok (ints [z])) by (inversion Hm; reflexivity).
  split.
  - intros x y Hy. eexists. split; [apply (Hp x y Hy)|].
    destruct (C33_moves jump mean [z] [x] Hj ltac:(discriminate) Hf eq_refl) as (A & B & _). cbn [length ints map] in A, B. change (ints [x]) with [inject_Z x] in A, B.
    destruct (Z.leb_spec (Z.abs (z - x)) jump) as [H | H].
    + rewrite A by (constructor; [exact H | constructor]). rewrite Hn. split; [reflexivity|]. intros X. lia.
    + rewrite B by (intros W; inversion W; lia). rewrite Hn. split; [|reflexivity]. field. intros X. rewrite X in Hpos. apply (Qlt_irrefl _ Hpos).
  - assert (Hall : forall d, In d (seq 0 (choices jump)) -> match pmf jump mean [KS (inject_Z (z - jump + Z.of_nat d))] with Ok p => p | Err _ => 0%Q end = (1 / inject_Z (2 * jump + 1))%Q).
    { intros d Hd. apply in_seq in Hd. rewrite (Hp _ _ (single_num _)). unfold choices in Hd. destruct (Z.leb_spec (Z.abs (z - (z - jump + Z.of_nat d))) jump); [reflexivity | lia]. }
    rewrite (map_ext_in _ _ _ Hall).
    assert (Hs : forall (l : list nat) c, (qsum (map (fun _ => c) l) == inject_Z (Z.of_nat (length l)) * c)%Q).
    { clear. induction l as [|a l IH]; intros c; [cbn; ring|]. change (qsum (map (fun _ => c) (a :: l))) with (c + qsum (map (fun _ => c) l))%Q. rewrite IH. cbn [length].
      rewrite Nat2Z.inj_succ. unfold Z.succ. rewrite inject_Z_plus. change (inject_Z 1) with 1%Q. ring. }
    rewrite Hs, seq_length, Hn. field. intros X. rewrite X in Hpos. apply (Qlt_irrefl _ Hpos).
Qed.
Print Assumptions C33_single.

(** a generator that writes down the ranges of the draws; its draws are those of another *)
Definition recording (pick : list nat -> nat) (n : nat) (t : list nat) : list nat * nat := (t ++ [n], pick t).
Lemma recorded pick jump : (0 <= jump)%Z -> forall l t, fst (steps (list nat) (recording pick) jump l t) = t ++ repeat (choices jump) (length l)
  /\ exists ws, snd (steps (list nat) (recording pick) jump l t) = Ok ws.
Proof.
  intros Hj. induction l as [|v l IH]; intros t; [cbn; rewrite app_nil_r; split; [reflexivity | now exists []]|].
  cbn [steps]. unfold step1. destruct (Z.leb_spec (2 * jump + 1) 0); [lia|]. unfold recording at 1 3. change (Z.to_nat (2 * jump + 1)) with (choices jump).
  specialize (IH (t ++ [choices jump])). destruct (steps (list nat) (recording pick) jump l (t ++ [choices jump])) as [t' r]. cbn [fst snd] in IH. destruct IH as (A & ws & ->). cbn [fst snd].
  split; [rewrite A, <- app_assoc; reflexivity | eexists; reflexivity].
Qed.
(** Every value is moved by one draw from exactly 2 jump + 1 possibilities, whatever the earlier draws. *)
Theorem C33_draws :
  forall jump row qs pick, (0 <= jump)%Z -> flat row = Ok qs -> fst (walk_update unit (list nat) (recording pick) jump None row []) = repeat (choices jump) (length qs).
Proof.
  intros jump row qs pick Hj Hf. unfold walk_update. destruct row as [|[q|a] row]; [discriminate| |].
  - unfold flat in Hf. rewrite Hf. destruct (recorded pick jump Hj qs []) as (A & ws & B). destruct (steps _ _ jump qs []) as [t r]. cbn [fst snd] in *. subst r. cbn [fst]. exact A.
  - unfold flat in Hf. destruct (all_arrays (KA a :: row)) as [ls|e]; [|discriminate]. injection Hf as <-. destruct (recorded pick jump Hj (concat ls) []) as (A & ws & B).
    destruct (steps _ _ jump (concat ls) []) as [t r]. cbn [fst snd] in *. subst r. cbn [fst]. exact A.
Qed.
Print Assumptions C33_draws.


(** With two or more values the mass function is wrong: it only looks at the first.  It exceeds the probability of every move within reach and is positive for
    moves that cannot happen. *)
Theorem C33_many_refuted :
  forall jump zs, (1 <= jump)%Z -> 2 <= length zs ->
  (forall xs, within jump zs xs -> exists p, pmf jump (map KS (ints zs)) (map KS (ints xs)) = Ok p
     /\ (inject_Z (Z.of_nat (hits (moved jump (map KS (ints zs))) (ints xs) (choices jump) (length zs))) / inject_Z (Z.of_nat (choices jump ^ length zs)) < p)%Q)
  /\ exists xs p, length xs = length zs /\ hits (moved jump (map KS (ints zs))) (ints xs) (choices jump) (length zs) = 0
       /\ pmf jump (map KS (ints zs)) (map KS (ints xs)) = Ok p /\ (0 < p)%Q.
Proof.
  intros jump zs Hj Hk. destruct zs as [|z0 [|z1 zs]]; try (cbn in Hk; lia).
  set (all := z0 :: z1 :: zs) in *. assert (Hf : flat (map KS (ints all)) = Ok (ints all)) by (unfold all; cbn [ints map flat]; apply (all_scalars_row (ints all))).
  assert (Hn : Z.of_nat (choices jump) = (2 * jump + 1)%Z) by (unfold choices; lia).
  assert (Hpos : (0 < inject_Z (2 * jump + 1))%Q) by (change 0%Q with (inject_Z 0); rewrite <- Zlt_Qlt; lia).
  assert (Hp : forall x xs, pmf jump (map KS (ints all)) (map KS (ints (x :: xs))) = Ok (if (Z.abs (z0 - x) <=? jump)%Z then 1 / inject_Z (2 * jump + 1) else 0)%Q).
  { intros x xs. unfold pmf, walk_pmf, far, all. cbn [ints map]. rewrite abs_inject. destruct (Z.abs (z0 - x) <=? jump)%Z; reflexivity. }
  split.
  - intros xs Hw. assert (Hl : length xs = length all) by (symmetry; clear - Hw; unfold within in Hw; induction Hw; cbn; congruence).
    destruct (C33_moves jump _ all xs ltac:(lia) ltac:(discriminate) Hf Hl) as (A & _). rewrite (A Hw). destruct xs as [|x xs]; [discriminate|].
    inversion Hw as [|? ? ? ? H0 Hw']; subst. eexists. split; [apply Hp|]. destruct (Z.leb_spec (Z.abs (z0 - x)) jump); [|lia].
    change (inject_Z (Z.of_nat 1)) with 1%Q. rewrite <- Hn.
    assert (Hlt : (Z.of_nat (choices jump) < Z.of_nat (choices jump ^ length all))%Z).
    { apply inj_lt. rewrite <- (Nat.pow_1_r (choices jump)) at 1. apply Nat.pow_lt_mono_r; unfold choices; cbn [length all]; lia. }
    assert (P1 : (0 < inject_Z (Z.of_nat (choices jump)))%Q) by (rewrite Hn; exact Hpos).
    assert (P2 : (inject_Z (Z.of_nat (choices jump)) < inject_Z (Z.of_nat (choices jump ^ length all)))%Q) by (rewrite <- Zlt_Qlt; exact Hlt).
    apply Qlt_shift_div_l; [exact P1|]. 
    setoid_replace (1 / inject_Z (Z.of_nat (choices jump ^ length all)) * inject_Z (Z.of_nat (choices jump)))%Q with (inject_Z (Z.of_nat (choices jump)) / inject_Z (Z.of_nat (choices jump ^ length all)))%Q by (field; intros X; lra).
    apply Qlt_shift_div_r; [lra|]. rewrite Qmult_1_l. exact P2.
  - exists (z0 :: (z1 + jump + 1)%Z :: zs), (1 / inject_Z (2 * jump + 1))%Q. split; [reflexivity|]. split.
    + destruct (C33_moves jump _ all (z0 :: (z1 + jump + 1)%Z :: zs) ltac:(lia) ltac:(discriminate) Hf eq_refl) as (_ & B & _). apply B. intros W. inversion W as [|? ? ? ? _ W']. inversion W' as [|? ? ? ? Hx1 _]. lia.
    + split; [rewrite Hp; destruct (Z.leb_spec (Z.abs (z0 - z0)) jump); [reflexivity | lia]|]. apply Qlt_shift_div_l; [exact Hpos | rewrite Qmult_0_l; reflexivity].
Qed.
Print Assumptions C33_many_refuted.

(** A value stored as an array of two or more numbers cannot be evaluated at all. *)
Theorem C33_array_refuted :
  forall jump a b l a' b' l' m x, pmf jump (KA (a :: b :: l) :: m) (KA (a' :: b' :: l') :: x) = Err ValueError.
Proof. reflexivity. Qed.
Print Assumptions C33_array_refuted.

Example C33_case : pmf 1 [KS 3] [KS 4] = Ok (1 # 3)%Q /\ pmf 1 [KS 3] [KS 5] = Ok 0%Q /\ moved 2 [KS 3; KS 7] [0; 4] = ([], Ok [1; 9]%Q)
  /\ hits (moved 1 [KS 3; KS 7]) [4; 7]%Q 3 2 = 1 /\ pmf 1 [KS 3; KS 7] [KS 4; KS 7] = Ok (1 # 3)%Q.
Proof. vm_compute. intuition. Qed.

(** ** the walk on a network.  From a node with distinct neighbours and non-negative weights of positive sum, a row of arrays moves to the i-th neighbour
    exactly if the uniform draw lies in an interval of the length of the neighbour's share of the weight, and this share is the value of the mass function
    (evaluated with numpy integers). *)
Theorem C33_network :
  forall network v l, network v = Some l -> NoDup (map fst l) -> Forall (fun p => 0 <= snd p)%Q l -> (0 < qsum (map snd l))%Q ->
  forall i n w, nth_error l i = Some (n, w) ->
  exists a b, (0 <= a)%Q /\ (b <= 1)%Q /\ (b - a == w / qsum (map snd l))%Q
    /\ (forall u, (0 <= u)%Q -> (net_update_arrays network [[v]] [u] = Ok [n] <-> (a <= u /\ u < b)%Q))
    /\ exists p, net_pmf network false [v] [n] = Ok (Fin p) /\ (p == w / qsum (map snd l))%Q.
Proof.
  intros network v l Hv Hn Hw Ht i n w Hi. set (tot := qsum (map snd l)) in *.
  set (ps := map (fun w => w / tot)%Q (map snd l)).
  assert (Hps : Forall (fun p => 0 <= p)%Q ps).
  { unfold ps. rewrite map_map. clear - Hw Ht. clearbody tot. induction Hw as [|[m x] l Hx Hw IH]; cbn; constructor; [|exact IH]. cbn in Hx. apply Qle_shift_div_l; [exact Ht | rewrite Qmult_0_l; exact Hx]. }
  assert (Htot : (~ tot == 0)%Q) by (intros X; rewrite X in Ht; apply (Qlt_irrefl _ Ht)).
  assert (Hsum : (qsum ps == 1)%Q) by (unfold ps; rewrite qsum_div by exact Htot; fold tot; field; exact Htot).
  assert (Hlen : length ps = length (map fst l)) by (unfold ps; rewrite !map_length; reflexivity).
  assert (Hni : nth_error (map fst l) i = Some n) by (rewrite nth_error_map, Hi; reflexivity).
  assert (Hpi : nth_error ps i = Some (w / tot)%Q) by (unfold ps; rewrite map_map, nth_error_map, Hi; reflexivity).
  assert (Hstep : forall k p, nth_error ps k = Some p -> (cum ps (S k) == cum ps k + p)%Q).
  { clear. clearbody ps. unfold cum. induction ps as [|x ps IH]; intros [|k] p H; try discriminate; cbn [nth_error] in H.
    - injection H as ->. cbn [firstn qsum fold_right]. ring.
    - specialize (IH k p H). change (firstn (S (S k)) (x :: ps)) with (x :: firstn (S k) ps). change (firstn (S k) (x :: ps)) with (x :: firstn k ps).
      change (qsum (x :: firstn (S k) ps)) with (x + qsum (firstn (S k) ps))%Q. change (qsum (x :: firstn k ps)) with (x + qsum (firstn k ps))%Q. rewrite IH. ring. }
  assert (Hcum : forall k, (0 <= cum ps k)%Q) by (intros k; unfold cum; apply qsum_nonneg; clear - Hps; revert k; induction Hps; intros [|k]; cbn; constructor; auto).
  assert (Hcum1 : forall k, (cum ps k <= 1)%Q).
  { intros k. rewrite <- Hsum. unfold cum. rewrite <- (firstn_skipn k ps) at 2.
    assert (Ha : forall a b, (qsum (a ++ b) == qsum a + qsum b)%Q) by (clear; induction a as [|x a IH]; intros b; [cbn [app]; change (qsum []) with 0%Q; ring|]; change (qsum ((x :: a) ++ b)) with (x + qsum (a ++ b))%Q; change (qsum (x :: a)) with (x + qsum a)%Q; rewrite IH; ring).
    rewrite Ha. assert (0 <= qsum (skipn k ps))%Q by (apply qsum_nonneg; clear - Hps; revert k; induction Hps; intros [|k]; cbn; try constructor; auto). lra. }
  exists (cum ps i), (cum ps (S i)). split; [apply Hcum|]. split; [apply Hcum1|]. split; [rewrite (Hstep i _ Hpi); ring|]. split.
  - intros u Hu. rewrite <- (choose_spec (map fst l) ps u Hlen Hps Hu Hn i n Hni). unfold net_update_arrays. cbn [concat app net_steps]. unfold net_step, nodes. rewrite Hv, (edges_own network v l Hv Hn). fold tot.
    destruct (Qeq_bool tot 0) eqn:E0; [apply Qeq_bool_iff in E0; contradiction|]. cbv zeta. fold ps.
    assert (Ee : existsb (fun p => negb (Qle_bool 0 p)) ps = false).
    { clear - Hps. induction Hps as [|p ps Hp Hps IH]; [reflexivity|]. cbn [existsb]. rewrite IH. apply Qle_bool_iff in Hp. rewrite Hp. reflexivity. }
    rewrite Ee. destruct (choose (combine (map fst l) ps) u) as [m|]; split; intros H; try discriminate; congruence.
  - unfold net_pmf. cbn [net_pmf_from]. unfold net_factor, nodes. rewrite Hv, (edges_own network v l Hv Hn).
    assert (Ef : find (fun p : Z * Q => (fst p =? n)%Z) (combine (map fst l) (map snd l)) = Some (n, w)).
    { clear - Hn Hi. revert i Hi. induction l as [|[m x] l IH]; intros [|i] Hi; try discriminate; cbn [map fst snd combine find nth_error] in *.
      - injection Hi as -> ->. rewrite Z.eqb_refl. reflexivity.
      - inversion_clear Hn as [|? ? Hx Hn']. destruct (Z.eqb_spec m n) as [-> | _]; [exfalso; apply Hx; apply nth_error_In in Hi; apply (in_map fst) in Hi; exact Hi | apply (IH Hn' i Hi)]. }
    rewrite Ef. cbn [snd]. fold tot. unfold ndiv. destruct (Qeq_bool tot 0) eqn:E0; [apply Qeq_bool_iff in E0; contradiction|]. eexists. split; [reflexivity|]. field. exact Htot.
Qed.
Print Assumptions C33_network.

(** A node that is not a neighbour is never proposed and has mass 0. *)
Theorem C33_network_unreachable :
  forall network v l n, network v = Some l -> NoDup (map fst l) -> ~ In n (map fst l) ->
  (forall u, net_update_arrays network [[v]] [u] <> Ok [n]) /\ exists p, net_pmf network false [v] [n] = Ok (Fin p) /\ (p == 0)%Q.
Proof.
  intros network v l n Hv Hn Hx. split.
  - intros u. unfold net_update_arrays. cbn [concat app net_steps]. unfold net_step, nodes. rewrite Hv, (edges_own network v l Hv Hn). destruct (Qeq_bool _ 0); [discriminate|]. cbv zeta.
    destruct (existsb _ _); [discriminate|]. set (ps := map _ (map snd l)).
    assert (Hc : forall (ns : list Z) qs w m, choose (combine ns qs) w = Some m -> In m ns).
    { clear. induction ns as [|a ns IH]; intros [|q qs] w m H; try discriminate. cbn [combine choose] in H. destruct (Qle_bool q w); [right; eapply IH, H | injection H as ->; now left]. }
    destruct (choose (combine (map fst l) ps) u) as [m|] eqn:E; [|discriminate]. intros H. injection H as ->. apply Hx. eapply Hc, E.
  - unfold net_pmf. cbn [net_pmf_from]. unfold net_factor, nodes. rewrite Hv, (edges_own network v l Hv Hn).
    assert (Ef : find (fun p : Z * Q => (fst p =? n)%Z) (combine (map fst l) (map snd l)) = None).
    { clear - Hx. induction l as [|[m x] l IH]; [reflexivity|]. cbn [map fst snd combine find In] in *. destruct (Z.eqb_spec m n) as [->|_]; [tauto | apply IH; tauto]. }
    rewrite Ef. cbn [nmul]. eexists. split; [reflexivity|]. ring.
Qed.
Print Assumptions C33_network_unreachable.


(** The mass function of a row is the product over its values. *)
Theorem C33_network_product :
  forall network m1 x1 m2 x2 f g, net_pmf network false [m1] [x1] = Ok (Fin f) -> net_pmf network false m2 x2 = Ok (Fin g) -> m2 <> [] ->
  exists p, net_pmf network false (m1 :: m2) (x1 :: x2) = Ok (Fin p) /\ (p == f * g)%Q.
Proof.
  intros network m1 x1 m2 x2 f g0. unfold net_pmf. cbn [net_pmf_from]. destruct (net_factor network false m1 x1) as [[a| | |]|e]; intros E1 H2 Hm; try discriminate; cbn [nmul nsign] in *; try discriminate.
  - injection E1 as <-. destruct m2 as [|m m2]; [congruence|].
    assert (G : forall m2 x2 d d' k, (d' == k * d)%Q -> forall g0, net_pmf_from network false m2 x2 (Fin d) = Ok (Fin g0) -> exists p, net_pmf_from network false m2 x2 (Fin d') = Ok (Fin p) /\ (p == k * g0)%Q).
    { clear. induction m2 as [|m m2 IH]; intros x2 d d' k Hd g0 H; cbn [net_pmf_from] in *.
      - injection H as <-. exists d'. split; [reflexivity | exact Hd].
      - destruct x2 as [|x x2]; [discriminate|]. destruct (net_factor network false m x) as [f|e]; [|discriminate].
        assert (Hbad : forall z, (z = PInf \/ z = NInf \/ z = NaN) -> forall m2 x2 q, net_pmf_from network false m2 x2 z <> Ok (Fin q)).
        { clear. intros z Hz m2. revert z Hz. induction m2 as [|m m2 IH]; intros z Hz x2 q; cbn [net_pmf_from]; [destruct Hz as [-> | [-> | ->]]; discriminate|].
          destruct x2; [discriminate|]. destruct (net_factor network false m z0) as [f|e]; [|discriminate]. apply IH.
          destruct Hz as [-> | [-> | ->]]; unfold nmul; cbn [nsign]; destruct f as [y| | |]; cbn [nsign]; try (destruct (Qcompare y 0)); tauto. }
        destruct f as [f| | |]; unfold nmul in *; cbn [nsign] in *.
        + apply (IH x2 (d * f)%Q (d' * f)%Q k); [rewrite Hd; ring | exact H].
        + exfalso. destruct (Qcompare d 0); (eapply Hbad; [|exact H]); tauto.
        + exfalso. destruct (Qcompare d 0); (eapply Hbad; [|exact H]); tauto.
        + exfalso. destruct (Qcompare d 0); (eapply Hbad; [|exact H]); tauto. }
    destruct (G (m :: m2) x2 1%Q (1 * a)%Q (1 * a)%Q ltac:(ring) g0 H2) as (p & A & B). exists p. split; [exact A | exact B].
Qed.
Print Assumptions C33_network_product.

(** A row of numbers moves by the weights of the edges of node 1 instead of the current node: the move can have another probability than the mass function
    says, or raise KeyError. *)
Definition net (v : Z) : option (list (Z * Q)) :=
  match v with 1%Z => Some [(2, 1 # 1); (3, 3 # 1)]%Z | 2%Z => Some [(1, 1 # 1); (3, 1 # 1)]%Z | 3%Z => Some [(1, 3 # 1); (2, 1 # 1)]%Z | 4%Z => Some [(2, 1 # 1); (3, 1 # 1)]%Z | _ => None end.
Theorem C33_network_scalars_refuted :
  net_pmf net false [4%Z] [2%Z] = Ok (Fin (1 # 2)) /\ (forall u, (0 <= u)%Q -> (net_update_scalars net [4%Z] [u] = Ok [2%Z] <-> (u < 1 # 4)%Q))
  /\ forall u, net_update_scalars net [2%Z] [u] = Err KeyError.
Proof.
  split; [reflexivity|]. split; [|intros u; reflexivity].
  intros u Hu. unfold net_update_scalars. cbn [net_steps]. unfold net_step. cbn -[Qle_bool Qminus Qdiv Qplus Qeq_bool].
  replace (Qeq_bool (1 + (3 + 0)) 0) with false by reflexivity.
  replace (Qle_bool 0 (1 / (1 + (3 + 0)))) with true by reflexivity. replace (Qle_bool 0 (3 / (1 + (3 + 0)))) with true by reflexivity. cbn [negb orb].
  destruct (Qle_bool (1 / (1 + (3 + 0))) u) eqn:E.
  - apply Qle_bool_iff in E. assert (E' : (1 # 4 <= u)%Q) by exact E. split; [|intros H; exfalso; apply (Qlt_not_le _ _ H E')]. destruct (Qle_bool _ _); discriminate.
  - split; [|reflexivity]. intros _. apply Qnot_le_lt. intros H. assert (X : Qle_bool (1 / (1 + (3 + 0))) u = true) by (apply Qle_bool_iff; exact H). congruence.
Qed.
Print Assumptions C33_network_scalars_refuted.

(** With Python integers the mass function raises IndexError for every possible move. *)
Theorem C33_network_int_refuted :
  forall network v l n w, network v = Some l -> NoDup (map fst l) -> In (n, w) l -> net_pmf network true [v] [n] = Err IndexError.
Proof.
  intros network v l n w Hv Hn Hi. unfold net_pmf. cbn [net_pmf_from]. unfold net_factor, nodes. rewrite Hv, (edges_own network v l Hv Hn).
  destruct (find (fun p : Z * Q => (fst p =? n)%Z) (combine (map fst l) (map snd l))) eqn:E; [reflexivity|]. exfalso.
  assert (Hc : In (n, w) (combine (map fst l) (map snd l))).
  { clear - Hi. induction l as [|[m x] l IH]; [contradiction|]. cbn. destruct Hi as [-> | Hi]; [left; reflexivity | right; apply IH, Hi]. }
  pose proof (find_none _ _ E _ Hc) as X. cbn in X. rewrite Z.eqb_refl in X. discriminate.
Qed.
Print Assumptions C33_network_int_refuted.

Example C33_network_case : NoDup (map fst [(2, 1 # 1); (3, 3 # 1)]%Z) /\ (0 < qsum (map snd [(2%Z, 1 # 1); (3%Z, 3 # 1)]))%Q
  /\ net_update_arrays net [[1]; [4]]%Z [1 # 5; 3 # 4]%Q = Ok [2; 3]%Z /\ net_pmf net false [1; 4]%Z [3; 2]%Z = Ok (Fin (1 * (3 / 4) * (1 / 2))).
Proof. split; [repeat constructor; cbn; intuition lia|]. split; [reflexivity|]. split; reflexivity. Qed.
