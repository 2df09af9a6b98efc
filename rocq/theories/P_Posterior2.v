(** C70, continued: what posterior_cov refuses, the iteration it reads, cases. *)
From Coq Require Import Reals Qreals ZArith Lia Lra.
From Verif Require Import M_Base M_Num M_XReal M_MMD M_Stats M_Graph M_Infer M_Journal M_APM M_Kernel M_Cov M_Posterior S_Journal L_Journal L_Journal2 L_Journal3 S_Stats S_Distance L_PMC L_Stats L_Distance L_PosDef L_MMD S_Cov P_Cov S_Posterior L_Posterior P_Posterior.
Open Scope R_scope.

(** Weights that define no covariance are refused: too many or too few, a negative one, or a zero sum. *)
Theorem C70_refused : forall (Name S C D : Type) (j : journal Name kval S C D) it params w n ds,
  Holds j it params w -> Columns n ds params -> (1 <= n)%nat -> (1 <= list_sum ds)%nat ->
  (length w <> n -> posterior_cov j it = Err RuntimeError) /\
  (length w = n -> (exists q, In q w /\ Q2R q < 0) -> posterior_cov j it = Err ValueError) /\
  (length w = n -> Forall (fun q => Q2R q = 0) w -> posterior_cov j it = Err ZeroDivisionError).
Proof.
  intros Name S C D j it params w n ds HJ HC Hn Hp. unfold posterior_cov. rewrite (holds_iter j it params w HJ). cbn [rthen fst snd].
  rewrite (joined_params_ok n ds) by first [assumption | apply (columns_pos _ _ _ HC Hp)]. cbn [rthen]. set (p := list_sum ds) in *. set (rows := map (sample params) (seq 0 n)).
  assert (LR : length rows = n) by (unfold rows; rewrite map_length, seq_length; reflexivity).
  unfold cov_columns. cbn [cov_variables cov_observations]. destruct (map (fun i => map (fun r => nth i r 0) rows) (seq 0 p)) as [|v0 vs] eqn:E; [destruct p; [lia|discriminate]|]. clear E. rewrite LR, map_length.
  split; [|split].
  - intros H. replace (length w =? n)%nat with false by (symmetry; apply Nat.eqb_neq; exact H). reflexivity.
  - intros <- (q & Hq & N). rewrite Nat.eqb_refl. cbn [negb]. replace (existsb _ _) with true; [reflexivity|]. symmetry. apply existsb_exists. exists (Q2R q). split; [apply in_map; exact Hq|]. destruct (Rlt_dec (Q2R q) 0); [reflexivity|lra].
  - intros <- HZ. rewrite Nat.eqb_refl. cbn [negb]. rewrite no_negative by (apply Forall_map; eapply Forall_impl; [|exact HZ]; intros a Ha; cbn in Ha; lra).
    assert (Z : rsuml (map Q2R w) = 0) by (clear -HZ; induction HZ as [|a w Ha HZ IH]; [reflexivity|cbn [map rsuml fold_right]; fold (rsuml (map Q2R w)); rewrite IH, Ha; lra]).
    rewrite Z. destruct (Req_EM_T 0 0) as [_|X]; [reflexivity|congruence].
Qed.
Print Assumptions C70_refused.

(** A sample of a parameter that does not hold exactly one entry makes the call fail. *)
Lemma mapR_err {A B} (f : A -> res B) e : (forall x e', f x = Err e' -> e' = e) -> forall l, (exists x, In x l /\ f x = Err e) -> mapR f l = Err e.
Proof.
  intros H. induction l as [|a l IH]; intros (x & Hx & Ex); [destruct Hx|]. cbn [mapR]. destruct (f a) as [b|e'] eqn:Ea; [|rewrite (H a e' Ea); reflexivity].
  destruct Hx as [->|Hx]; [congruence|]. rewrite IH by (exists x; auto). reflexivity.
Qed.
Lemma one_err s e : one_entry s = Err e -> e = ValueError.
Proof. destruct s as [|v [|v' s]]; cbn; intros H; congruence. Qed.
Lemma mapR_only {A B} (f : A -> res B) e0 : (forall x e', f x = Err e' -> e' = e0) -> forall l e, mapR f l = Err e -> e = e0.
Proof.
  intros H. induction l as [|a l IH]; intros e; cbn [mapR]; [discriminate|]. destruct (f a) as [b|e'] eqn:Ea; [|intros [= <-]; exact (H a e' Ea)].
  destruct (mapR f l) as [ys|e'] eqn:E; [discriminate|]. intros [= <-]. apply IH. reflexivity.
Qed.
Lemma scalars_err : forall vs e, all_scalars vs = Err e -> e = ValueError.
Proof. induction vs as [|[q|l] vs IH]; intros e; cbn; try congruence. destruct (all_scalars vs); [discriminate|]. intros [= <-]. apply IH. reflexivity. Qed.
Lemma arrays_err : forall vs e, all_arrays vs = Err e -> e = ValueError.
Proof. induction vs as [|[q|l] vs IH]; intros e; cbn; try congruence. destruct (all_arrays vs); [discriminate|]. intros [= <-]. apply IH. reflexivity. Qed.
Lemma joined_err col e : joined col = Err e -> e = ValueError.
Proof.
  unfold joined. destruct (mapR one_entry col) as [vs|e'] eqn:E; cbn [rthen].
  - destruct vs as [|[q|l] vs]; [congruence| |].
    + destruct (all_scalars (KS q :: vs)) eqn:E2; cbn [rthen]; [discriminate|]. intros [= <-]. exact (scalars_err _ _ E2).
    + destruct (all_arrays (KA l :: vs)) eqn:E2; cbn [rthen]; [destruct (forallb _ _); congruence|]. intros [= <-]. exact (arrays_err _ _ E2).
  - intros [= <-]. exact (mapR_only one_entry ValueError one_err _ _ E).
Qed.
Theorem C70_entries : forall (Name S C D : Type) (j : journal Name kval S C D) it params w,
  Holds j it params w -> (exists name col s, In (name, col) params /\ In s col /\ length s <> 1%nat) -> posterior_cov j it = Err ValueError.
Proof.
  intros Name S C D j it params w HJ (name & col & s & Hc & Hs & HL). unfold posterior_cov. rewrite (holds_iter j it params w HJ). cbn [rthen fst snd]. unfold joined_params.
  rewrite (mapR_err (fun kc => joined (snd kc)) ValueError); [reflexivity|intros x e'; apply joined_err|]. exists (name, col). split; [exact Hc|]. unfold joined. cbn [snd].
  rewrite (mapR_err one_entry ValueError one_err); [reflexivity|]. exists s. split; [exact Hs|]. destruct s as [|v [|v' s]]; cbn in HL |- *; congruence || reflexivity.
Qed.
Print Assumptions C70_entries.

(** Parameters stored as plain numbers work only alone: two or more are put one after the other, and the weights no longer
    fit. *)
Definition NumberColumn (n : nat) (col : list (list kval)) : Prop := length col = n /\ Forall (fun s => exists q, s = [KS q]) col.
Lemma joined_numbers n col : (1 <= n)%nat -> NumberColumn n col -> joined col = Ok (Vector (map (fun s => nth 0 (numbers s) 0) col)).
Proof.
  intros Hn [HL HF].
  assert (E : exists qs, mapR one_entry col = Ok (map KS qs) /\ all_scalars (map KS qs) = Ok qs /\ map Q2R qs = map (fun s => nth 0 (numbers s) 0) col).
  { clear HL. induction HF as [|s col (q & ->) _ (qs & E1 & E2 & E3)]; [exists []; repeat (split; [reflexivity|]); reflexivity|].
    exists (q :: qs). cbn [mapR one_entry map all_scalars]. rewrite E1, E2, E3. repeat (split; [reflexivity|]). reflexivity. }
  destruct E as (qs & E1 & E2 & E3). unfold joined. rewrite E1. cbn [rthen]. destruct qs as [|q qs]; [destruct col; [cbn in HL; lia|discriminate]|]. cbn [map] in *. rewrite E2. cbn [rthen map]. rewrite E3. reflexivity.
Qed.
Lemma after_ok : forall cols x, after x (map Vector cols) = Ok (Vector (x ++ concat cols)).
Proof. induction cols as [|c cols IH]; intros x; cbn [map after concat]; [rewrite app_nil_r; reflexivity|]. rewrite IH, app_assoc. reflexivity. Qed.
Lemma joined_params_numbers {Name} n (params : list (Name * list (list kval))) : (1 <= n)%nat -> params <> [] -> Forall (fun kc => NumberColumn n (snd kc)) params ->
  exists l, joined_params params = Ok (Vector l) /\ length l = (n * length params)%nat /\ (forall name col, params = [(name, col)] -> l = map (fun s => nth 0 (numbers s) 0) col).
Proof.
  intros Hn NE HF. set (f := fun kc : Name * list (list kval) => map (fun s => nth 0 (numbers s) 0) (snd kc)).
  assert (E : mapR (fun kc => joined (snd kc)) params = Ok (map Vector (map f params))).
  { clear NE. induction HF as [|kc params H HF IH]; [reflexivity|]. cbn [mapR map]. rewrite (joined_numbers n (snd kc) Hn H), IH. reflexivity. }
  exists (concat (map f params)). split; [|split].
  - unfold joined_params. rewrite E. cbn [rthen]. destruct params as [|kc params]; [congruence|]. cbn [map hstack]. rewrite after_ok. reflexivity.
  - clear E NE. induction HF as [|kc params [H _] HF IH]; [cbn; lia|]. cbn [map concat length]. rewrite app_length, IH. unfold f. rewrite map_length, H. lia.
  - intros name col ->. cbn. rewrite app_nil_r. reflexivity.
Qed.
Theorem C70_numbers_refuted : forall (Name S C D : Type) (j : journal Name kval S C D) it params w,
  Holds j it params w -> Forall (fun kc => NumberColumn (length w) (snd kc)) params -> (1 <= length w)%nat -> (2 <= length params)%nat ->
  posterior_cov j it = Err RuntimeError.
Proof.
  intros Name S C D j it params w HJ HF Hn Hp. destruct (joined_params_numbers (length w) params Hn) as (l & E & L & _); [destruct params; [cbn in Hp; lia|discriminate]|exact HF|].
  unfold posterior_cov. rewrite (holds_iter j it params w HJ). cbn [rthen fst snd]. rewrite E. cbn [rthen]. unfold cov_columns. cbn [cov_variables cov_observations]. rewrite map_length, L.
  replace (length w =? length w * length params)%nat with false by (symmetry; apply Nat.eqb_neq; nia). reflexivity.
Qed.
Print Assumptions C70_numbers_refuted.

(** An iteration that does not exist is an IndexError; iteration i of a journal that keeps everything is the i-th recorded
    one, with the i-th recorded weights. *)
Theorem C70_no_iteration : forall (Name S C D : Type) (j : journal Name kval S C D) it,
  at_pos (j_names j) (iter_of j it) = None \/ at_pos (j_weights j) (iter_of j it) = None -> posterior_cov j it = Err IndexError.
Proof.
  intros Name S C D j it H. unfold posterior_cov, of_iteration. change (match it with Some i => i | None => (Z.of_nat (length (j_names j)) - 1)%Z end) with (iter_of j it).
  rewrite !pyget_spec. destruct H as [H|H].
  - unfold ndict, column in *. rewrite H. reflexivity.
  - rewrite H. match goal with |- context [or_index ?o] => destruct o end; reflexivity.
Qed.
Print Assumptions C70_no_iteration.
Theorem C70_same_iteration : forall (Name S C D : Type) (neqb : Name -> Name -> bool), (forall a b, reflect (a = b) (neqb a b)) ->
  forall (j : journal Name kval S C D) os i pairs w, new 1 = Ok j -> nth_error (users os) i = Some pairs -> nth_error (wts os) i = Some w -> NoDup (map fst pairs) ->
  Holds (adds neqb j os) (Some (Z.of_nat i)) pairs (wvals w).
Proof.
  intros Name S C D neqb Hq j os i pairs w H Hu Hw Hn. destruct (history Name kval S C D neqb 1 j os H) as (_ & _ & I2 & _ & _ & I5 & _). cbn in I2, I5.
  assert (HP : forall A (l : list A), at_pos l (Z.of_nat i) = nth_error l i) by (intros A l; unfold at_pos; destruct (Z.leb_spec 0 (Z.of_nat i)); [|lia]; rewrite Nat2Z.id; reflexivity).
  unfold Holds, iter_of. unfold ndict, column in *. rewrite I2, I5. split.
  - match goal with |- ?e = _ => change e with (at_pos (map (dict_of neqb) (users os)) (Z.of_nat i)) end. rewrite HP, nth_error_map. setoid_rewrite Hu. cbn. rewrite dict_nodup; auto.
  - exists w. split; [|reflexivity]. rewrite HP. exact Hw.
Qed.
Print Assumptions C70_same_iteration.

(** A journal with two samples of a parameter m with one and a parameter s with two coordinates. *)
Definition j70 (params : list (nat * list (list kval))) (w : list Q) : journal nat kval nat nat nat := mkj 0 [] [params] [] [] [Col w] [] [] [] None false.
Definition p70 : list (nat * list (list kval)) := [(3%nat, [[KA [1%Q]]; [KA [3%Q]]]); (7%nat, [[KA [10%Q; 0%Q]]; [KA [14%Q; 5%Q]]])].
Lemma q1 : Q2R 1 = 1. Proof. unfold Q2R. cbn. lra. Qed.
Lemma holds70 params w : Holds (j70 params w) None params w.
Proof. split; [reflexivity|]. exists (Col w). split; reflexivity. Qed.
Lemma columns70 : Columns 2 [1; 2]%nat p70.
Proof.
  constructor; [split; [reflexivity|]; constructor; [eexists; split; reflexivity|]; constructor; [eexists; split; reflexivity|constructor]|].
  constructor; [|constructor]. split; [reflexivity|]. constructor; [eexists; split; reflexivity|]. constructor; [eexists; split; reflexivity|constructor].
Qed.
Example C70_case : TwoPositive (map Q2R [1%Q; 1%Q]) /\ exists a A, posterior_cov (j70 p70 [1%Q; 1%Q]) None = Ok (a, [3; 7]%nat) /\ IsMatrix 3 A a /\ A 0%nat 1%nat = 4 /\ A 2%nat 2%nat = 25 / 2.
Proof.
  assert (T : TwoPositive (map Q2R [1%Q; 1%Q])) by (cbn [map]; rewrite q1; exact (repeat_two 1 2 Rlt_0_1 (le_n 2))). split; [exact T|].
  destruct (C70_value nat nat nat nat (j70 p70 [1%Q; 1%Q]) None p70 [1%Q; 1%Q] [1; 2]%nat (holds70 _ _) columns70 ltac:(cbn; lia) T) as (a & A & E & HA & HV).
  exists a, A. split; [exact E|]. split; [exact HA|].
  pose proof (HV 0%nat 0%nat 1%nat 1%nat 0%nat 2%nat eq_refl ltac:(lia) eq_refl ltac:(lia)) as V1. pose proof (HV 1%nat 1%nat 2%nat 1%nat 1%nat 2%nat eq_refl ltac:(lia) eq_refl ltac:(lia)) as V2.
  change (column_of [1; 2]%nat 0 0) with 0%nat in V1. change (column_of [1; 2]%nat 1 0) with 1%nat in V1. change (column_of [1; 2]%nat 1 1) with 2%nat in V2. rewrite V1, V2. clear.
  unfold covariance, average_of, coordinate, numbers, values, Q2R. cbn -[Rplus Rmult Rminus Rdiv Rinv IZR pow]. split; field.
Qed.
(** The names name the parameters, not the rows of the matrix. *)
Theorem C70_names_refuted : exists params w m, posterior_cov (j70 params w) None = Ok (Matrix m, map fst params) /\ length m <> length (map fst params).
Proof.
  exists p70, [1%Q; 1%Q]. assert (T : TwoPositive (map Q2R [1%Q; 1%Q])) by (cbn [map]; rewrite q1; exact (repeat_two 1 2 Rlt_0_1 (le_n 2))).
  destruct (C70_value nat nat nat nat (j70 p70 [1%Q; 1%Q]) None p70 [1%Q; 1%Q] [1; 2]%nat (holds70 _ _) columns70 ltac:(cbn; lia) T) as (a & A & E & HA & _).
  destruct a as [x| |m]; [destruct HA as [X _]; discriminate|destruct HA|]. exists m. split; [exact E|]. destruct HA as [L _]. rewrite L. discriminate.
Qed.
Print Assumptions C70_names_refuted.
Example C70_one_weight_case : OnlyPositive (map Q2R [1%Q; 0%Q]) 0.
Proof. cbn [map]. rewrite q1. assert (Z : Q2R 0 = 0) by (unfold Q2R; cbn; lra). rewrite Z. split; [cbn; lia|]. split; [cbn; lra|]. intros [|[|i]] H; [congruence|reflexivity|destruct i; reflexivity]. Qed.
Example C70_refused_case : posterior_cov (j70 p70 [1%Q; 1%Q; 1%Q]) None = Err RuntimeError /\ posterior_cov (j70 p70 [(-1)%Q; 1%Q]) None = Err ValueError.
Proof.
  split; [apply (proj1 (C70_refused _ _ _ _ _ _ p70 [1%Q; 1%Q; 1%Q] 2 [1; 2]%nat (holds70 _ _) columns70 ltac:(lia) ltac:(cbn; lia))); cbn; lia|].
  apply (proj1 (proj2 (C70_refused _ _ _ _ _ _ p70 [(-1)%Q; 1%Q] 2 [1; 2]%nat (holds70 _ _) columns70 ltac:(lia) ltac:(cbn; lia)))); [reflexivity|]. exists (-1)%Q. split; [left; reflexivity|unfold Q2R; cbn; lra].
Qed.
Example C70_numbers_case : posterior_cov (j70 [(3%nat, [[KS 1%Q]; [KS 2%Q]]); (4%nat, [[KS 1%Q]; [KS 5%Q]])] [1%Q; 1%Q]) None = Err RuntimeError.
Proof.
  apply (C70_numbers_refuted _ _ _ _ _ _ _ _ (holds70 _ _)); [|cbn; lia|cbn; lia]. repeat (constructor; [split; [reflexivity|repeat (constructor; [eexists; reflexivity|]); constructor]|]). constructor.
Qed.
