(** Properties C12-C15: the journal of results. *)
From Verif Require Import M_Base M_Journal S_Journal L_Journal L_Journal2 L_Journal3.
From Coq Require Import Permutation.

(** C12.  For every history of add calls: each getter, for every iteration argument, returns what the history says and
    nothing recorded under another kind interferes.  [pick t l it] is position [it] of the items a type-[t] journal keeps
    ([kept]), or the last recorded one when no iteration is given.  A named column is the last one recorded under that name. *)
Theorem C12_history :
  forall (Name E S C D : Type) (neqb : Name -> Name -> bool), (forall a b, reflect (a = b) (neqb a b)) ->
  forall t (j : journal Name E S C D) os, new t = Ok j ->
  let j' := adds neqb j os in
  (t = 0 \/ t = 1) /\ forall it,
     get_accepted_parameters j' it = or_index (pick t (accs os) it)
  /\ get_weights j' it = or_index (pick t (wts os) it)
  /\ get_distances j' it = or_index (pick t (dsts os) it)
  /\ get_ESS_estimates j' it = or_index (pick t (esss os) it)
  /\ get_accepted_simulations j' it = match it with None => Ok (latest (sims os)) | Some i => match at_pos (kept t (sims os)) i with Some x => Ok (Some x) | None => Err IndexError end end
  /\ get_accepted_cov_mats j' it = match it with None => Ok (latest (covs os)) | Some i => match at_pos (kept t (covs os)) i with Some x => Ok (Some x) | None => Err IndexError end end
  /\ match pick t (users os) it with
     | None => get_parameters j' it = Err IndexError
     | Some pairs => exists d, get_parameters j' it = Ok d /\ forall name, dget neqb d name = last_value neqb pairs name
     end.
Proof. exact journal_gets. Qed.
Print Assumptions C12_history.

Theorem C12_bad_type : forall (Name E S C D : Type) t, t <> 0 -> t <> 1 -> @new Name E S C D t = Err ValueError.
Proof. exact new_bad. Qed.
Print Assumptions C12_bad_type.

Definition ops12 : list (addop nat Q nat nat nat) :=
  [AddAcc [[1%Q]]; AddW (Col [1%Q]); AddAcc [[2%Q]; [3%Q]]; AddUser [(7, [[2%Q]; [3%Q]])]; AddW (Col [1%Q; 2%Q]); AddAcc [[4%Q]]].
Example C12_case : exists j1 j0 : journal nat Q nat nat nat, new 1 = Ok j1 /\ new 0 = Ok j0
  /\ get_accepted_parameters (adds Nat.eqb j1 ops12) (Some 1%Z) = Ok [[2%Q]; [3%Q]]
  /\ get_accepted_parameters (adds Nat.eqb j1 ops12) (Some (-2)%Z) = Ok [[2%Q]; [3%Q]]
  /\ get_accepted_parameters (adds Nat.eqb j0 ops12) (Some 1%Z) = Err IndexError
  /\ get_accepted_parameters (adds Nat.eqb j0 ops12) None = Ok [[4%Q]]
  /\ get_distances (adds Nat.eqb j0 ops12) None = Err IndexError
  /\ get_accepted_simulations (adds Nat.eqb j0 ops12) None = Ok None.
Proof. eexists. eexists. split; [reflexivity|]. split; [reflexivity|]. vm_compute. auto 10. Qed.

(** C13.  Non-negative weights, not all zero, in the (n, 1) shape every scheme records. *)
Theorem C13_ess : forall l, Forall (fun x => 0 <= x)%Q l -> (exists x, In x l /\ 0 < x)%Q ->
  exists v, ess_of (Col l) = Ok (Some v)
  /\ (1 <= v <= inject_Z (Z.of_nat (length l)))%Q
  /\ (v == inject_Z (Z.of_nat (length l)) <-> forall x y, In x l -> In y l -> x == y)%Q
  /\ (v == 1 <-> length (filter (fun x => negb (Qeq_bool x 0)) l) = 1%nat)%Q
  /\ (forall c, ~ c == 0 -> exists v', ess_of (Col (map (fun x => c * x) l)) = Ok (Some v') /\ v' == v)%Q.
Proof.
  intros l Hn Hp. destruct (ess_defined l Hn Hp) as [v H]. exists v. split; [exact H|]. split; [exact (ess_range l v Hn H)|].
  split; [exact (ess_max l v H)|]. split; [rewrite <- count_pos_filter; exact (ess_min l v Hn H)|].
  intros c Hc. destruct (ess_rescale_defined c l v Hc H) as [v' H']. exists v'. split; [exact H' | exact (ess_rescale c l v v' Hc H H')].
Qed.
Print Assumptions C13_ess.
Example C13_case : exists v, ess_of (Col [1; 3]%Q) = Ok (Some v) /\ (v == 8 # 5)%Q.
Proof. eexists. split; vm_compute; reflexivity. Qed.
(** A flat vector of weights, the shape the docstring allows, is a TypeError. *)
Theorem C13_flat_refuted : exists l, Forall (fun x => 0 <= x)%Q l /\ (exists x, In x l /\ 0 < x)%Q /\ ess_of (Flat l) = Err TypeError.
Proof. exists [1%Q]. split; [repeat constructor; discriminate|]. split; [exists 1%Q; split; [left; reflexivity | reflexivity] | reflexivity]. Qed.
Print Assumptions C13_flat_refuted.

(** C14.  At least two samples; [iter_of j it] is the iteration asked for, or the last one. *)
Theorem C14_convex :
  forall (Name S C D : Type) (j : journal Name Q S C D) it params w n,
  pyget (j_names j) (iter_of j it) = Ok params -> pyget (j_weights j) (iter_of j it) = Ok w ->
  (2 <= n)%nat -> Forall (fun kc => exists d, (1 <= d)%nat /\ regular (snd kc) n d) params ->
  length (wvals w) = n -> Forall (fun x => 0 <= x)%Q (wvals w) -> ~ (qsum (wvals w) == 0)%Q ->
  exists r, posterior_mean j it = Ok r /\ map fst r = map fst params
  /\ forall m name rows a, nth_error params m = Some (name, rows) -> nth_error r m = Some (name, a) ->
       forall k, (k < length (hd [] rows))%nat -> exists x, coord a k = Some x
       /\ (x == weighted_total (combine (wvals w) (map (fun row => nth k row 0) rows)) / total (wvals w))%Q
       /\ forall lo hi, (forall row, In row rows -> between lo hi (nth k row 0%Q)) -> between lo hi x.
Proof. exact pm_convex. Qed.
Print Assumptions C14_convex.

Theorem C14_rescale :
  forall (Name S C D : Type) (j j' : journal Name Q S C D) it c params w w' r, ~ (c == 0)%Q ->
  pyget (j_names j) (iter_of j it) = Ok params -> pyget (j_weights j) (iter_of j it) = Ok w ->
  pyget (j_names j') (iter_of j' it) = Ok params -> pyget (j_weights j') (iter_of j' it) = Ok w' ->
  wvals w' = map (fun x => c * x)%Q (wvals w) ->
  posterior_mean j it = Ok r ->
  exists r', posterior_mean j' it = Ok r' /\ Forall2 (fun p q => fst p = fst q /\ same_avg (snd p) (snd q)) r r'.
Proof. exact pm_rescale. Qed.
Print Assumptions C14_rescale.

Theorem C14_permute :
  forall (Name S C D : Type) (j j' : journal Name Q S C D) it perm params w w' n, Permutation perm (seq 0 n) ->
  pyget (j_names j) (iter_of j it) = Ok params -> pyget (j_weights j) (iter_of j it) = Ok w ->
  pyget (j_names j') (iter_of j' it) = Ok (map (fun kc => (fst kc, map (fun i => nth i (snd kc) []) perm)) params) ->
  pyget (j_weights j') (iter_of j' it) = Ok w' -> wvals w' = map (fun i => nth i (wvals w) 0%Q) perm ->
  (2 <= n)%nat -> Forall (fun kc => exists d, (1 <= d)%nat /\ regular (snd kc) n d) params ->
  length (wvals w) = n -> ~ (qsum (wvals w) == 0)%Q ->
  exists r r', posterior_mean j it = Ok r /\ posterior_mean j' it = Ok r'
  /\ Forall2 (fun p q => fst p = fst q /\ same_avg (snd p) (snd q)) r r'.
Proof. exact pm_permute. Qed.
Print Assumptions C14_permute.

(** iteration i of a type-1 journal is averaged with the i-th recorded weights, whatever else was recorded *)
Theorem C14_same_iteration :
  forall (Name S C D : Type) (neqb : Name -> Name -> bool), (forall a b, reflect (a = b) (neqb a b)) ->
  forall (j : journal Name Q S C D) os i pairs w, new 1 = Ok j ->
  nth_error (users os) i = Some pairs -> nth_error (wts os) i = Some w -> NoDup (map fst pairs) ->
  posterior_mean (adds neqb j os) (Some (Z.of_nat i)) = posterior_mean (@mkj Name Q S C D 1 [] [pairs] [] [] [w] [] [] [] None false) (Some 0%Z).
Proof. exact same_iteration. Qed.
Print Assumptions C14_same_iteration.

Definition j14 (rows : list (list Q)) (w : list Q) : journal nat Q nat nat nat := mkj 0 [] [[(3, rows)]] [] [] [Col w] [] [] [] None false.
Example C14_case1 : exists x, posterior_mean (j14 [[1]; [3]]%Q [1; 3]%Q) None = Ok [(3, V0 x)] /\ (x == 5 # 2)%Q.
Proof. eexists. split; vm_compute; reflexivity. Qed.
Example C14_case2 : exists x y, posterior_mean (j14 [[1; 10]; [3; 20]]%Q [1; 1]%Q) (Some (-1)%Z) = Ok [(3, V1 [x; y])] /\ (x == 2 /\ y == 15)%Q.
Proof. eexists. eexists. split; vm_compute; auto. Qed.
Example C14_hyps : Forall (fun kc : nat * list (list Q) => exists d, (1 <= d)%nat /\ regular (snd kc) 2 d) [(3, [[1; 10]; [3; 20]]%Q)].
Proof. constructor; [|constructor]. exists 2. split; [lia|]. split; [reflexivity | repeat constructor]. Qed.

(** With one stored sample the squeeze removes the sample axis: no mean is computed at all. *)
Theorem C14_one_sample_refuted : exists j j' : journal nat Q nat nat nat,
  j = j14 [[5]]%Q [1]%Q /\ j' = j14 [[5; 6]]%Q [1]%Q
  /\ (exists e, posterior_mean j None = Err e) /\ (exists e, posterior_mean j' None = Err e).
Proof. eexists. eexists. split; [reflexivity|]. split; [reflexivity|]. split; eexists; vm_compute; reflexivity. Qed.
Print Assumptions C14_one_sample_refuted.

(** C15.  [fits j rows nd n]: the last iteration has n samples [rows], named columns [nd] with distinct names, and each row is
    the concatenation of its entries in the columns.  [draw] is what rng.choice returned. *)
Theorem C15_resample :
  forall (Name E S C D : Type) (neqb : Name -> Name -> bool), (forall a b, reflect (a = b) (neqb a b)) ->
  forall (j : journal Name E S C D) rows nd n_old n_samples replace draw,
  fits j rows nd n_old ->
  let n := match n_samples with Some n => n | None => n_old end in
  (replace = false -> n <= n_old) ->
  length draw = n -> (forall i, In i draw -> i < n_old) ->
  exists j', resample neqb j n_samples replace draw = Ok j'
  /\ j_acc j' = [map (fun i => nth i rows []) draw]
  /\ j_names j' = [map (fun kc => (fst kc, map (fun i => nth i (snd kc) []) draw)) nd]
  /\ j_weights j' = [Col (repeat 1%Q n)] /\ j_nsamples j' = Some n /\ jtype j' = 0
  /\ exists v, j_ess j' = [v] /\ ess_of (Col (repeat 1%Q n)) = Ok v.
Proof. exact resample_ok. Qed.
Print Assumptions C15_resample.

Theorem C15_refuses :
  forall (Name E S C D : Type) (neqb : Name -> Name -> bool) (j : journal Name E S C D) rows nd n_old n draw,
  fits j rows nd n_old -> n_old < n -> resample neqb j (Some n) false draw = Err RuntimeError.
Proof. exact resample_refuses. Qed.
Print Assumptions C15_refuses.

Definition j15 : journal nat nat nat nat nat :=
  mkj 1 [[[11; 21; 22]; [12; 23; 24]]] [[(1, [[11]; [12]]); (2, [[21; 22]; [23; 24]])]] [] [] [Col [1; 2]%Q] [] [] [] (Some 2) true.
Example C15_hyps : fits j15 [[11; 21; 22]; [12; 23; 24]] [(1, [[11]; [12]]); (2, [[21; 22]; [23; 24]])] 2.
Proof.
  unfold fits. split; [reflexivity|]. split; [reflexivity|]. split; [eexists; split; reflexivity|]. split; [reflexivity|]. split; [reflexivity|]. split; [lia|].
  split; [reflexivity|]. split; [repeat constructor; cbn; intuition lia|]. split.
  - intros kc [<-|[<-|[]]]; (split; [reflexivity|]); eexists; repeat constructor.
  - intros [|[|i]] Hi; try reflexivity. lia.
Qed.
Example C15_case : exists j', resample Nat.eqb j15 (Some 3) true [1; 0; 1] = Ok j'
  /\ j_acc j' = [[[12; 23; 24]; [11; 21; 22]; [12; 23; 24]]]
  /\ j_names j' = [[(1, [[12]; [11]; [12]]); (2, [[23; 24]; [21; 22]; [23; 24]])]].
Proof. eexists. vm_compute. auto. Qed.

(** Two parameters that share a name (models created without a name all do): the journal keeps one column per name, the last
    one, and resampling cuts the first column out of the samples and files it under that name. *)
Theorem C15_shared_name_refuted :
  exists (j j' : journal nat nat nat nat nat) os old new_col,
  new 0 = Ok j /\ os = [AddAcc [[11; 21]; [12; 22]]; AddUser [(0, [[11]; [12]]); (0, [[21]; [22]])]; AddW (Col [1; 1]%Q)]
  /\ let jj := adds Nat.eqb j os in
     get_parameters jj None = Ok [(0, old)]
     /\ resample Nat.eqb (mkj (jtype jj) (j_acc jj) (j_names jj) (j_sims jj) (j_covs jj) (j_weights jj) (j_ess jj) (j_dists jj) (j_nsim jj) (Some 2) true)
          None true [0; 1] = Ok j'
     /\ get_parameters j' None = Ok [(0, new_col)] /\ old = [[21]; [22]] /\ new_col = [[11]; [12]].
Proof. do 5 eexists. split; [reflexivity|]. split; [reflexivity|]. vm_compute. auto. Qed.
Print Assumptions C15_shared_name_refuted.
