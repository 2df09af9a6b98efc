(** Proofs about the accepted-parameters manager. *)
From Verif Require Import M_Base M_Graph S_Graph L_Graph L_Graph2 L_Graph3 L_Graph4 M_Journal S_Journal L_Journal L_Journal2 M_APM.

Section A.
Variable A : Type.
(** the stored table of a population: one row per sample, one entry per parameter of the order o *)
Definition table (pop : list (nat -> A)) (o : list nat) : list (list A) := map (fun f => map f o) pop.

Lemma append_column_ok (pop : list (nat -> A)) o i m (L : (nat -> A) -> list A) : nth_error o i = Some m ->
  append_column (table pop o) i (map L pop) = Ok (map (fun f => L f ++ [f m]) pop).
Proof.
  intros H. induction pop as [|f pop IH]; [reflexivity|]. cbn [table map append_column]. rewrite pyget_spec. unfold at_pos.
  destruct (Z.leb_spec 0 (Z.of_nat i)); [|lia]. rewrite Nat2Z.id, nth_error_map, H. cbn [option_map or_index]. unfold table in IH. rewrite IH. reflexivity.
Qed.
Lemma columns_of_model_ok (pop : list (nat -> A)) o1 o2 m L : NoDup (o1 ++ o2) ->
  columns_of_model (table pop (o1 ++ o2)) m (pairs o2 (length o1)) (map L pop)
  = Ok (map (fun f => L f ++ if memb m o2 then [f m] else []) pop).
Proof.
  revert o1 L. induction o2 as [|x o2 IH]; intros o1 L Hn; cbn.
  - f_equal. apply map_ext. intros f. symmetry. apply app_nil_r.
  - assert (Hnth : nth_error (o1 ++ x :: o2) (length o1) = Some x) by (rewrite nth_error_app2, Nat.sub_diag; [reflexivity | lia]).
    assert (E : o1 ++ x :: o2 = (o1 ++ [x]) ++ o2) by (rewrite <- app_assoc; reflexivity).
    specialize (IH (o1 ++ [x])). rewrite <- E in IH. rewrite app_length in IH. cbn [length] in IH. rewrite Nat.add_1_r in IH. fold (pairs o2 (Datatypes.S (length o1))).
    destruct (Nat.eqb_spec m x) as [->|Hm].
    + rewrite (append_column_ok pop _ _ x L Hnth). rewrite IH by exact Hn. cbn [orb]. f_equal. apply map_ext. intros f.
      assert (Hx : memb x o2 = false).
      { destruct (memb x o2) eqn:Em; [|reflexivity]. apply memb_In in Em. apply NoDup_remove_2 in Hn. exfalso. apply Hn. apply in_or_app. right. exact Em. }
      rewrite Hx. apply app_nil_r.
    + rewrite IH by exact Hn. reflexivity.
Qed.
Lemma columns_of_models_ok (pop : list (nat -> A)) o models L : NoDup o ->
  columns_of_models (table pop o) models (pairs o 0) (map L pop)
  = Ok (map (fun f => L f ++ map f (filter (fun m => memb m o) models)) pop).
Proof.
  intros Hn. revert L. induction models as [|m models IH]; intros L; cbn [columns_of_models filter].
  - f_equal. apply map_ext. intros f. symmetry. apply app_nil_r.
  - pose proof (columns_of_model_ok pop [] o m L Hn) as H. cbn [app length] in H. rewrite H, IH. f_equal. apply map_ext. intros f.
    rewrite <- app_assoc. f_equal. destruct (memb m o); reflexivity.
Qed.

Variable g : graph.
Hypothesis Hwf : wf g.
Lemma bds_values_ok roots s pop o models : indep g roots -> (forall r, In r roots -> is_hyper g r = false) -> clean g roots s ->
  ParamOrder g roots o ->
  exists s', get_accepted_parameters_bds_values g roots (table pop o) models s
             = (s', Ok (map (fun f => map f (filter (fun m => memb m o) models)) pop)) /\ clean g roots s' /\ val s' = val s.
Proof.
  intros Hi Hh Hc Ho. apply (ParamOrder_order g Hwf) in Ho. subst o.
  destruct (apm_get_mapping_spec g Hwf roots s Hi Hh Hc) as (s' & E & Hc' & Hv & _). exists s'. unfold get_accepted_parameters_bds_values, bind. rewrite E. cbn [fst].
  assert (El : map (fun _ : list A => @nil A) (table pop (order g roots)) = map (fun _ => []) pop) by (unfold table; rewrite map_map; reflexivity).
  rewrite El. rewrite (columns_of_models_ok pop _ models (fun _ => [])) by apply order_NoDup. split; [reflexivity|]. split; [exact Hc' | congruence].
Qed.
Lemma names_and_parameters_ok {Name} (name : nat -> Name) roots s pop o : indep g roots -> (forall r, In r roots -> is_hyper g r = false) -> clean g roots s ->
  ParamOrder g roots o ->
  exists s', get_names_and_parameters g roots name (table pop o) s
             = (s', Ok (map (fun m => (name m, map (fun f => [f m]) pop)) o)) /\ clean g roots s' /\ val s' = val s.
Proof.
  intros Hi Hh Hc Ho. assert (Ho' := Ho). apply (ParamOrder_order g Hwf) in Ho'.
  destruct (get_mapping_spec g Hwf roots s Hi Hc) as (s1 & E & (Hc1 & _) & Hv1). unfold get_names_and_parameters, bind. rewrite E. cbn [fst]. clear E.
  assert (Hgen : forall l k, incl l o -> forall s1, clean g roots s1 ->
     exists s', forM (fun mi => bind (get_accepted_parameters_bds_values g roots (table pop o) [fst mi]) (fun v => ret (name (fst mi), v))) (pairs l k) s1
             = (s', Ok (map (fun m => (name m, map (fun f => [f m]) pop)) l)) /\ clean g roots s' /\ val s' = val s1).
  { induction l as [|m l IH]; intros k Hin s2 Hc2; cbn [pairs length seq combine forM].
    - exists s2. split; [reflexivity | auto].
    - destruct (bds_values_ok roots s2 pop o [m] Hi Hh Hc2 Ho) as (s3 & E3 & Hc3 & Hv3).
      destruct (IH (Datatypes.S k) (fun x Hx => Hin x (or_intror Hx)) s3 Hc3) as (s4 & E4 & Hc4 & Hv4).
      exists s4. unfold bind in *. cbn [fst]. rewrite E3. unfold ret at 1. unfold pairs in E4. rewrite E4. split; [|split; [exact Hc4 | congruence]].
      unfold ret. cbn [map]. assert (Hm : memb m o = true) by (apply memb_In; apply Hin; left; reflexivity). cbn [filter]. rewrite Hm. reflexivity. }
  destruct (Hgen (order g roots) 0 ltac:(rewrite Ho'; apply incl_refl) s1 Hc1) as (s' & E' & Hc' & Hv'). exists s'. split; [|split; [exact Hc' | congruence]].
  unfold bind in E'. rewrite E'. rewrite Ho'. reflexivity.
Qed.

(** what an inference scheme records at the end of an iteration fits together (see resample) when names are distinct *)
Lemma recorded_fits {Name S C D} (neqb : Name -> Name -> bool) (Hneq : forall a b, reflect (a = b) (neqb a b)) (name : nat -> Name) o (pop : list (nat -> A)) w t (j : journal Name A S C D) :
  NoDup (map name o) -> pop <> [] -> length (wvals w) = length pop -> new t = Ok j ->
  let j' := adds neqb j [AddAcc (table pop o); AddUser (map (fun m => (name m, map (fun f => [f m]) pop)) o); AddW w] in
  fits (mkj (jtype j') (j_acc j') (j_names j') (j_sims j') (j_covs j') (j_weights j') (j_ess j') (j_dists j') (j_nsim j') (Some (length pop)) true)
       (table pop o) (map (fun m => (name m, map (fun f => [f m]) pop)) o) (length pop).
Proof.
  intros Hn Hp Hw Hj j'.
  match type of j' with _ => pose (os := [AddAcc (table pop o); AddUser (map (fun m => (name m, map (fun f => [f m]) pop)) o); AddW w] : list (addop Name A S C D)) end.
  destruct (history Name A S C D neqb t j os Hj) as (_ & I1 & I2 & _ & _ & I5 & _). change (adds neqb j os) with j' in I1, I2, I5.
  unfold fits. cbn [j_acc j_names j_weights j_nsamples j_hasmodel]. rewrite I1, I2, I5.
  rewrite !latest_kept. split; [reflexivity|]. split.
  { subst os. cbn. rewrite dict_nodup; [reflexivity | exact Hneq | rewrite map_map; exact Hn]. }
  split; [exists w; split; [reflexivity | exact Hw]|]. split; [reflexivity|]. split; [reflexivity|].
  split; [destruct pop; [congruence | cbn; lia]|]. split; [unfold table; apply map_length|]. split; [rewrite map_map; exact Hn|].
  split.
  - intros kc Hin. apply in_map_iff in Hin. destruct Hin as (m & <- & _). cbn [snd]. split; [apply map_length|]. exists 1. apply Forall_forall. intros e He. apply in_map_iff in He. destruct He as (f & <- & _). reflexivity.
  - intros i Hi. unfold table. rewrite map_map. cbn [snd]. destruct pop as [|f0 pop']; [cbn in Hi; lia|]. set (p := f0 :: pop') in *.
    rewrite (nth_indep _ [] ((fun f => map f o) f0)) by (rewrite map_length; exact Hi). rewrite (map_nth (fun f => map f o)).
    rewrite (map_ext_in _ (fun m => [nth i p f0 m])).
    + induction o as [|m o' IHo]; cbn; [reflexivity|]. f_equal. clear. induction o' as [|m' o'' IHo']; cbn; [reflexivity|]. f_equal. exact IHo'.
    + intros m _. rewrite (nth_indep _ [] ((fun f => [f m]) f0)) by (rewrite map_length; exact Hi). rewrite (map_nth (fun f => [f m])). reflexivity.
Qed.
End A.
