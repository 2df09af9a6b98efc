(** Property C50: the accepted-parameters manager. *)
From Verif Require Import M_Base M_Graph S_Graph M_GraphEx L_Graph L_Graph4 M_Journal S_Journal M_APM L_APM.

(** C50.  A population stores, per sample f, the values f of the parameters in the parameter order o of the graph
    ([table pop o]).  Asking for models returns, per sample, the values of exactly those of them that are parameters, in the
    requested order; marks are down again and no model changes its value. *)
Theorem C50_columns :
  forall (A : Type) g, wf g -> forall roots s (pop : list (nat -> A)) o models,
  indep g roots -> (forall r, In r roots -> is_hyper g r = false) -> clean g roots s -> ParamOrder g roots o ->
  exists s', get_accepted_parameters_bds_values g roots (map (fun f => map f o) pop) models s
             = (s', Ok (map (fun f => map f (filter (fun m => memb m o) models)) pop))
             /\ clean g roots s' /\ val s' = val s.
Proof. exact bds_values_ok. Qed.
Print Assumptions C50_columns.

(** The named columns recorded in the journal are, in the parameter order, the columns of the models with those names. *)
Theorem C50_named_columns :
  forall (A : Type) g, wf g -> forall (Name : Type) (name : nat -> Name) roots s (pop : list (nat -> A)) o,
  indep g roots -> (forall r, In r roots -> is_hyper g r = false) -> clean g roots s -> ParamOrder g roots o ->
  exists s', get_names_and_parameters g roots name (map (fun f => map f o) pop) s
             = (s', Ok (map (fun m => (name m, map (fun f => [f m]) pop)) o))
             /\ clean g roots s' /\ val s' = val s.
Proof. exact names_and_parameters_ok. Qed.
Print Assumptions C50_named_columns.

(** update_broadcast replaces exactly the fields that were passed. *)
Theorem C50_update :
  forall (O P W C K : Type) (a : apm O P W C K) p w c,
  let a' := update_broadcast a p w c in
  (forall x, p = Some x -> a_par a' = Some x) /\ (p = None -> a_par a' = a_par a)
  /\ (forall x, w = Some x -> a_w a' = Some x) /\ (w = None -> a_w a' = a_w a)
  /\ (forall x, c = Some x -> a_cov a' = Some x) /\ (c = None -> a_cov a' = a_cov a)
  /\ a_obs a' = a_obs a /\ a_kern a' = a_kern a.
Proof. intros O P W C K a [p|] [w|] [c|]; cbn; intuition congruence. Qed.
Print Assumptions C50_update.

(** What a scheme records at the end of an iteration (samples, named columns, weights) meets the hypotheses of C15 whenever the
    parameter names are distinct. *)
Theorem C50_recorded_fits :
  forall (A Name S C D : Type) (neqb : Name -> Name -> bool), (forall a b, reflect (a = b) (neqb a b)) ->
  forall (name : nat -> Name) o (pop : list (nat -> A)) w t (j : journal Name A S C D),
  NoDup (map name o) -> pop <> [] -> length (wvals w) = length pop -> new t = Ok j ->
  let j' := adds neqb j [AddAcc (map (fun f => map f o) pop); AddUser (map (fun m => (name m, map (fun f => [f m]) pop)) o); AddW w] in
  fits (mkj (jtype j') (j_acc j') (j_names j') (j_sims j') (j_covs j') (j_weights j') (j_ess j') (j_dists j') (j_nsim j') (Some (length pop)) true)
       (map (fun f => map f o) pop) (map (fun m => (name m, map (fun f => [f m]) pop)) o) (length pop).
Proof. exact recorded_fits. Qed.
Print Assumptions C50_recorded_fits.

(** model 3 is parameter 0 and model 2 parameter 1 of g1 *)
Example C50_case : snd (get_accepted_parameters_bds_values g1 [5] [[30; 20]; [31; 21]; [32; 22]] [2; 5; 3] s1) = Ok [[20; 30]; [21; 31]; [22; 32]]
  /\ snd (get_names_and_parameters g1 [5] (fun n => n * 100) [[30; 20]; [31; 21]] s1) = Ok [(300, [[30]; [31]]); (200, [[20]; [21]])].
Proof. vm_compute. split; reflexivity. Qed.
Example C50_order : ParamOrder g1 [5] [3; 2].
Proof. apply (ParamOrder_order g1); [apply mkgraph_wf; reflexivity | reflexivity]. Qed.

(** The calls by which a scheme fills its manager, and the value a slot was given last. *)
Inductive filling (O P W C K : Type) :=
| Observations (o : O)
| KernelValues (k : K)
| Population (p : option P) (w : option W) (c : option C).
Arguments Observations {O P W C K} o.
Arguments KernelValues {O P W C K} k.
Arguments Population {O P W C K} p w c.

Definition call {O P W C K} (a : apm O P W C K) (f : filling O P W C K) : apm O P W C K :=
  match f with
  | Observations o => apm_broadcast a o
  | KernelValues k => update_kernel_values a k
  | Population p w c => update_broadcast a p w c
  end.

(** [given slot calls x]: some call gave the slot x and no later one gave it anything. *)
Definition given {F X : Type} (slot : F -> option X) (calls : list F) (x : X) : Prop :=
  exists before f after, calls = before ++ f :: after /\ slot f = Some x /\ forall g, In g after -> slot g = None.

Definition obs_of {O P W C K} (f : filling O P W C K) := match f with Observations o => Some o | _ => None end.
Definition kern_of {O P W C K} (f : filling O P W C K) := match f with KernelValues k => Some k | _ => None end.
Definition par_of {O P W C K} (f : filling O P W C K) := match f with Population p _ _ => p | _ => None end.
Definition w_of {O P W C K} (f : filling O P W C K) := match f with Population _ w _ => w | _ => None end.
Definition cov_of {O P W C K} (f : filling O P W C K) := match f with Population _ _ c => c | _ => None end.

Lemma given_slot : forall (F X S : Type) (step : S -> F -> S) (init : S) (slot : F -> option X) (fld : S -> option X),
  fld init = None -> (forall s f, fld (step s f) = match slot f with Some x => Some x | None => fld s end) ->
  forall calls x, fld (fold_left step calls init) = Some x <-> given slot calls x.
Proof.
  intros F X S step init slot fld Hi Hs calls. induction calls as [|f calls IH] using rev_ind; intros x.
  - cbn [fold_left]. rewrite Hi. split; [discriminate|]. intros [b [f [a [E _]]]]. destruct b; discriminate E.
  - rewrite fold_left_app. cbn [fold_left]. rewrite Hs. destruct (slot f) as [y|] eqn:Ef; split.
    + intros H. injection H as <-. exists calls, f, []. split; [reflexivity|]. split; [exact Ef|]. intros g [].
    + intros [b [f' [a [E [E1 E2]]]]]. destruct a as [|g a] using rev_ind.
      * apply app_inj_tail in E. destruct E as [_ ->]. congruence.
      * replace (b ++ f' :: a ++ [g]) with ((b ++ f' :: a) ++ [g]) in E by (rewrite <- app_assoc; reflexivity).
        apply app_inj_tail in E. destruct E as [_ ->]. rewrite (E2 g) in Ef; [discriminate|]. apply in_or_app. right. left. reflexivity.
    + intros H. apply IH in H. destruct H as [b [f' [a [-> [E1 E2]]]]]. exists b, f', (a ++ [f]).
      split; [rewrite <- app_assoc; reflexivity|]. split; [exact E1|]. intros g Hg. apply in_app_or in Hg.
      destruct Hg as [Hg | [<- | []]]; [exact (E2 g Hg) | exact Ef].
    + intros [b [f' [a [E [E1 E2]]]]]. apply IH. destruct a as [|g a] using rev_ind.
      * apply app_inj_tail in E. destruct E as [_ ->]. congruence.
      * clear IHa. replace (b ++ f' :: a ++ [g]) with ((b ++ f' :: a) ++ [g]) in E by (rewrite <- app_assoc; reflexivity).
        apply app_inj_tail in E. destruct E as [-> ->]. exists b, f', a. split; [reflexivity|]. split; [exact E1|].
        intros h Hh. apply E2. apply in_or_app. left. exact Hh.
Qed.

(** What a worker reads from the manager of a scheme, after any sequence of calls on a new manager: each slot holds the value it
    was given last, and nothing if it was never given one.  No call disturbs the slots it does not name. *)
Theorem C50_history :
  forall (O P W C K : Type) (calls : list (filling O P W C K)),
  let a := fold_left call calls apm_new in
  (forall o, a_obs a = Some o <-> given obs_of calls o)
  /\ (forall p, a_par a = Some p <-> given par_of calls p)
  /\ (forall w, a_w a = Some w <-> given w_of calls w)
  /\ (forall c, a_cov a = Some c <-> given cov_of calls c)
  /\ (forall k, a_kern a = Some k <-> given kern_of calls k).
Proof.
  intros O P W C K calls a. unfold a.
  split; [|split; [|split; [|split]]]; apply given_slot; try reflexivity; intros s [o | k | [p|] [w|] [c|]]; reflexivity.
Qed.
Print Assumptions C50_history.

Example C50_history_case :
  fold_left call [Observations 1; Population (Some 2) (Some 3) None; KernelValues 4; Population (Some 5) None (Some 6)] apm_new
  = mkapm (O := nat) (P := nat) (W := nat) (C := nat) (K := nat) (Some 1) (Some 5) (Some 3) (Some 6) (Some 4)
  /\ given (w_of (O := nat) (P := nat) (C := nat) (K := nat))
       [Observations 1; Population (Some 2) (Some 3) None; KernelValues 4; Population (Some 5) None (Some 6)] 3.
Proof.
  split; [reflexivity|]. exists [Observations 1], (Population (Some 2) (Some 3) None), [KernelValues 4; Population (Some 5) None (Some 6)].
  split; [reflexivity|]. split; [reflexivity|]. intros g [<- | [<- | []]]; reflexivity.
Qed.
