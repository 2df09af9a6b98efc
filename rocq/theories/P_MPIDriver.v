(** C85: drivers give the same results on the MPI backend as on the sequential one, for every number of processes and every schedule. *)
From Verif Require Import M_Base M_Num M_Journal M_Rejection M_Spark S_Backend L_Spark P_Spark M_MPI S_MPI M_MPIDriver L_MPIDriver.

Section Drivers.
Variables X St : Type.
Variable dumps : St -> res St.
Variable N : nat.
Hypothesis HN : 0 < N.
Notation drun := (drun X St).
Notation rsteps := (rsteps (X := X) (St := St) dumps N).
Notation rstep := (rstep (X := X) (St := St) dumps N).
Notation quiet := (quiet (X := X) (St := St) dumps N).
Notation play := (play (X := X) (St := St) dumps).
Notation srun1 := (srun X St dumps (single X)).

Lemma start_rel ls self : rel X St none (start_v ls self) (start_s ls self) a0.
Proof. constructor; cbn [start_v start_s v_var v_self v_bds v_pds s_var s_self s_bds s_pds]; try reflexivity; try discriminate. Qed.
Lemma canonical ls self l : S_Backend.safe X St none none l -> exists p, good X St a0 (play (start_v ls self) (program X St l)) (fun r => match srun1 (start_s ls self) (program X St l) with
    | Ok s' => exists v', r = Finished v' /\ (forall o, v_var v' o = s_var s' o) /\ v_self v' = s_self s'
    | Err _ => exists e, r = Failed e end) p.
Proof. intros Hs. exact (canon X St dumps l none none _ _ _ Hs (start_rel ls self)). Qed.
Lemma single_all (l : list X) : concat (single X l) = l.
Proof. unfold single. induction l as [|x l IH]; [reflexivity|]. cbn [map concat app]. rewrite IH. reflexivity. Qed.

(** C85 (agreement): let a safe driver have tasks that do not depend on what other tasks leave in self.  When no process can go on, the driver has ended with the same
    lists in its variables as on the sequential backend, or, if it fails there, with an exception *)
Theorem C85_agree : forall sim : St -> St -> Prop, (forall s, sim s s) -> (forall s s', sim s s' -> sim s' s) -> (forall s s' s'', sim s s' -> sim s' s'' -> sim s s'') ->
  (forall s, exists c, dumps s = Ok c /\ sim s c) ->
  forall ls self l c, S_Backend.safe X St none none l -> Forall (steady_step X St sim) l ->
  rsteps (start_v ls self) (program X St l) (init []) c -> quiet (start_v ls self) (program X St l) c ->
  match drun (start_d ls self) (program X St l) with
  | Ok d => exists v, play (start_v ls self) (program X St l) (outs c) = Finished v /\ (forall o, v_var v o = d_list d o) /\ sim (d_self d) (v_self v)
  | Err _ => exists e, play (start_v ls self) (program X St l) (outs c) = Failed e end.
Proof.
  intros sim R1 R2 R3 Hd ls self l c Hs Hst Hr Hq. destruct (canonical ls self l Hs) as [p G]. pose proof (quiet_end X St dumps N HN _ _ _ p G c Hr Hq) as E. cbn beta in E.
  pose proof (C82_agree X St dumps (single X) single_all sim R1 R2 R3 Hd ls self l Hs Hst) as A.
  destruct (drun (start_d ls self) (program X St l)) as [d|], (srun1 (start_s ls self) (program X St l)) as [s|]; try contradiction; [|exact E].
  destruct E as (v & E1 & E2 & E3). destruct A as [A1 A2]. exists v. split; [exact E1|]. split; [intros o; rewrite E2; symmetry; apply A1|]. rewrite E3. exact A2.
Qed.
(** C85 (end): a safe driver, whatever its tasks do, meets no infinite execution and no deadlock: from every state reached, a state is reached in which the driver has ended,
    and no process has died *)
Theorem C85_ends : forall ls self l, S_Backend.safe X St none none l ->
  Acc (fun y x => rstep (start_v ls self) (program X St l) x y) (init []) /\
  forall c, rsteps (start_v ls self) (program X St l) (init []) c ->
    sph c <> SDead /\ (forall i, i < N -> lp c i <> LDead) /\ (exists c', rsteps (start_v ls self) (program X St l) c c' /\ quiet (start_v ls self) (program X St l) c') /\
    (quiet (start_v ls self) (program X St l) c -> (exists v, play (start_v ls self) (program X St l) (outs c) = Finished v) \/ (exists e, play (start_v ls self) (program X St l) (outs c) = Failed e)).
Proof.
  intros ls self l Hs. destruct (canonical ls self l Hs) as [p G]. split; [exact (no_infinite X St dumps N HN _ _ _ p G)|]. intros c Hc.
  destruct (alive_all X St dumps N HN _ _ _ p G c Hc) as [A1 A2]. split; [exact A1|]. split; [exact A2|]. split; [exact (can_end X St dumps N HN _ _ _ p G c Hc)|].
  intros Hq. pose proof (quiet_end X St dumps N HN _ _ _ p G c Hc Hq) as E. cbn beta in E. destruct (srun1 _ _); [destruct E as (v & E & _); left; exists v; exact E|right; exact E].
Qed.
(** C85 (self): the object of the driver is what the driver itself made of it *)
Theorem C85_self : forall ls self l c v, S_Backend.safe X St none none l ->
  rsteps (start_v ls self) (program X St l) (init []) c -> quiet (start_v ls self) (program X St l) c -> play (start_v ls self) (program X St l) (outs c) = Finished v ->
  v_self v = updates X St (program X St l) self.
Proof.
  intros ls self l c v Hs Hr Hq Hv. destruct (canonical ls self l Hs) as [p G]. pose proof (quiet_end X St dumps N HN _ _ _ p G c Hr Hq) as E. cbn beta in E. rewrite Hv in E.
  destruct (srun1 (start_s ls self) (program X St l)) as [s|] eqn:Es; [|destruct E as (? & ?); discriminate]. destruct E as (v' & [= <-] & _ & E3). rewrite E3. exact (C82_self X St dumps (single X) _ _ _ Es).
Qed.
Lemma mapR_single (f : task X St) e c : forall l, match mapR (fun l0 => snd (forM (pipeline X St [f] e) l0 c)) (single X l) with
  | Ok ys => Forall2 (fun x y => snd (f e x c) = Ok y) l (concat ys)
  | Err _ => exists x er, In x l /\ snd (f e x c) = Err er end.
Proof.
  unfold single. induction l as [|x l IH]; [constructor|]. cbn [map mapR forM]. unfold bind, ret. rewrite pipeline_one. destruct (f e x c) as [s1 [y|er]] eqn:Ef; cbn [snd].
  - destruct (mapR _ _) as [ys|]; [cbn [concat app]; constructor; [rewrite Ef; reflexivity|exact IH]|]. destruct IH as (x' & er & H1 & H2). exists x', er. split; [right; exact H1|exact H2].
  - exists x, er. split; [left; reflexivity|rewrite Ef; reflexivity].
Qed.
Definition map_driver (f : task X St) : list (S_Backend.step X St) := [SPar 0 0; SRun f 0 1 1].
(** C85 (items): without any condition on the tasks, every item is computed from a copy of self as it was when map was called: what tasks leave in self is lost between
    two items, on every schedule *)
Theorem C85_items : forall (f : task X St) l self copy c, (forall e e' x s, (forall b, e b = e' b) -> f e x s = f e' x s) -> dumps self = Ok copy ->
  rsteps (start_v [l] self) (program X St (map_driver f)) (init []) c -> quiet (start_v [l] self) (program X St (map_driver f)) c ->
  match play (start_v [l] self) (program X St (map_driver f)) (outs c) with
  | Finished v => exists ys, v_var v 1 = Some ys /\ Forall2 (fun x y => snd (f (fun _ => None) x copy) = Ok y) l ys
  | Failed _ => exists x e, In x l /\ snd (f (fun _ => None) x copy) = Err e
  | _ => False end.
Proof.
  intros f l self copy c Hf Hd Hr Hq.
  assert (Hs : S_Backend.safe X St none none (map_driver f)) by (cbn [S_Backend.safe map_driver]; split; [reflexivity|]; split; [intros e e' He x s; apply Hf; intros b; apply He; reflexivity|exact I]).
  destruct (canonical [l] self _ Hs) as [p G]. pose proof (quiet_end X St dumps N HN _ _ _ p G c Hr Hq) as E. cbn beta in E. revert E.
  cbn [program map_driver map concat cmds app M_Spark.srun sstep start_s s_var s_pds s_bds s_self nth_error]. rewrite !upd_same. cbn [M_Spark.srun sstep s_var s_pds s_bds s_self r_packed r_funcs r_data app]. rewrite !upd_same. cbn [r_packed r_funcs r_data]. rewrite Hd.
  unfold job. cbn [r_funcs r_data]. pose proof (mapR_single f (fun _ => None) copy l) as M. destruct (mapR _ (single X l)) as [ys|].
  - cbn [M_Spark.srun]. intros (v & -> & E2 & _). exists (concat ys). split; [rewrite E2; cbn [s_var]; apply upd_same|exact M].
  - intros (? & ->). exact M.
Qed.
End Drivers.
Print Assumptions C85_agree.
Print Assumptions C85_ends.
Print Assumptions C85_self.
Print Assumptions C85_items.

(** C85 (rejection sampling): over MPI the samples of RejectionABC are those of the model of C16, in the order of the seeds *)
Theorem C85_rejection : forall Rng Y E St prior sim mkrng dist dist_max eps fuel (left : St -> Z -> St) dumps copy N, 0 < N ->
  let f := @rejection_task Rng Y E St prior sim mkrng dist dist_max eps fuel left in
  let driver := program _ St (map_driver _ St f) in
  forall seeds self c, dumps self = Ok copy -> rsteps dumps N (start_v [map inl seeds] self) driver (init []) c -> quiet dumps N (start_v [map inl seeds] self) driver c ->
  match play dumps (start_v [map inl seeds] self) driver (outs c) with
  | Finished v => exists rs, mapR (fun seed => sample_parameter Rng Y E prior sim dist dist_max eps fuel (mkrng seed)) seeds = Ok rs /\ v_var v 1 = Some (map inr rs)
  | Failed _ => exists e, mapR (fun seed => sample_parameter Rng Y E prior sim dist dist_max eps fuel (mkrng seed)) seeds = Err e
  | _ => False end.
Proof.
  intros Rng Y E St prior sim mkrng dist dist_max eps fuel left dumps copy N HN f driver seeds self c Hd Hr Hq. set (sp := fun seed => sample_parameter Rng Y E prior sim dist dist_max eps fuel (mkrng seed)).
  pose proof (C85_items _ St dumps N HN f (map inl seeds) self copy c ltac:(intros; reflexivity) Hd Hr Hq) as R. fold driver in R.
  destruct (play dumps (start_v [map inl seeds] self) driver (outs c)) as [k|v|e0|]; try contradiction.
  - destruct R as (ys & Ey & F). rewrite Ey. clear Ey Hr Hq. assert (G : exists rs, mapR sp seeds = Ok rs /\ ys = map inr rs).
    { revert ys F. induction seeds as [|a seeds IH]; intros ys F; inversion F as [|x y l' ys' H1 H2]; subst; [exists []; split; reflexivity|]. destruct (IH _ H2) as (rs & E1 & ->). cbn [mapR]. rewrite E1. unfold f, rejection_task in H1. cbn [snd] in H1. fold (sp a) in H1.
      destruct (sp a) as [r|]; [|discriminate]. injection H1 as <-. exists (r :: rs). split; reflexivity. }
    destruct G as (rs & E1 & ->). exists rs. split; [exact E1|reflexivity].
  - destruct R as (x & er & Hx & E1). clear Hr Hq. apply in_map_iff in Hx. destruct Hx as (a & <- & Ha). unfold f, rejection_task in E1. cbn [snd] in E1. fold (sp a) in E1. destruct (sp a) as [r|e9] eqn:Ea; [discriminate|]. clear E1.
    induction seeds as [|b seeds IH]; [destruct Ha|]. cbn [mapR]. destruct (sp b) as [rb|eb] eqn:Eb; [|exists eb; reflexivity]. destruct Ha as [->|Ha]; [congruence|]. destruct (IH Ha) as (e' & ->). exists e'. reflexivity.
Qed.
Print Assumptions C85_rejection.

Lemma maps_safe {X} (g : nat -> X) : S_Backend.safe X nat none none [SPar 0 0; SRun (draw g) 0 1 1; SRun (draw g) 0 2 2].
Proof. cbn [S_Backend.safe]. split; [reflexivity|]. split; [intros; reflexivity|]. split; [reflexivity|]. split; [intros; reflexivity|exact I]. Qed.
(** C85 (generators): with a generator in self (Distance objects hold one), every item of every map gets the same first number over MPI; on the sequential backend they get
    the numbers 0, 1, ... one after the other *)
Theorem C85_generator_refuted : forall X (g : nat -> X) N, 0 < N -> forall l c,
  rsteps (fun s => Ok s) N (start_v [l] 0) (maps g) (init []) c -> quiet (fun s => Ok s) N (start_v [l] 0) (maps g) c ->
  exists d v, drun X nat (start_d [l] 0) (maps g) = Ok d /\ play (fun s => Ok s) (start_v [l] 0) (maps g) (outs c) = Finished v /\
  d_list d 1 = Some (map g (seq 0 (length l))) /\ d_list d 2 = Some (map g (seq (length l) (length l))) /\
  v_var v 1 = Some (repeat (g 0) (length l)) /\ v_var v 2 = Some (repeat (g 0) (length l)).
Proof.
  intros X g N HN l c Hr Hq. destruct (C82_generator_refuted X g (single X) (single_all X) l) as (d & s & D1 & S1 & D2 & D3 & S2 & S3).
  destruct (canonical X nat (fun s => Ok s) [l] 0 _ (maps_safe g)) as [p G]. pose proof (quiet_end X nat (fun s => Ok s) N HN _ _ _ p G c Hr Hq) as E. cbn beta in E.
  change (program X nat [SPar 0 0; SRun (draw g) 0 1 1; SRun (draw g) 0 2 2]) with (maps g) in E. rewrite S1 in E. destruct E as (v & E1 & E2 & _). exists d, v. split; [exact D1|]. split; [exact E1|]. split; [exact D2|]. split; [exact D3|].
  assert (R : concat (map (fun part => map g (seq 0 (length part))) (single X l)) = repeat (g 0) (length l)) by (unfold single; clear; induction l as [|x l IH]; [reflexivity|]; cbn [map concat seq length app repeat]; rewrite IH; reflexivity).
  split; [rewrite E2, S2, R; reflexivity|]. rewrite E2, S3, S2, R. reflexivity.
Qed.
Print Assumptions C85_generator_refuted.
(** C85 (pickling): GenerateFromJournal keeps its backend (no __getstate__); a backend that cannot be pickled makes generate fail before anything is sent to the processes *)
Theorem C85_generate_refuted : forall (B St X : Type) (ok : B -> bool) b (a : St) (f : task X (obj B St)) l, ok b = false ->
  play (dumps_obj ok) (start_v [l] (mkobj false (Some b) a)) [Parallelize 0 0; Map f 0 1; Collect 1 1] [OPds 1] = Failed RuntimeError.
Proof. intros B St X ok b a f l H. cbn [play start_v v_var v_pds v_self nth_error rebind]. rewrite upd_same. unfold dumps_obj. cbn [o_getstate o_backend]. rewrite H. reflexivity. Qed.
Print Assumptions C85_generate_refuted.

(** Cases: the driver of C82 with three leaders; a failing task *)
Example C85_case : exists c v, rsteps (fun s => Ok s) 3 (start_v [[1; 2; 3]] 0) (program nat nat driver) (init []) c /\ quiet (fun s => Ok s) 3 (start_v [[1; 2; 3]] 0) (program nat nat driver) c
  /\ play (fun s => Ok s) (start_v [[1; 2; 3]] 0) (program nat nat driver) (outs c) = Finished v /\ v_var v 2 = Some [49; 21; 28] /\ v_self v = 0.
Proof.
  destruct driver_safe as [H1 H2]. destruct (C85_ends nat nat (fun s => Ok s) 3 ltac:(lia) [[1; 2; 3]] 0 driver H1) as [_ E]. destruct (E _ (rs_refl _ _ _ _ _ _ _)) as (_ & _ & (c & R & Qc) & _).
  pose proof (C85_agree nat nat (fun s => Ok s) 3 ltac:(lia) (fun _ _ => True) (fun _ => I) (fun _ _ _ => I) (fun _ _ _ _ _ => I) (fun s => ex_intro _ s (conj eq_refl I)) [[1; 2; 3]] 0 driver c H1 H2 R Qc) as A.
  destruct (drun nat nat (start_d [[1; 2; 3]] 0) (program nat nat driver)) as [d|] eqn:Ed; [|vm_compute in Ed; discriminate Ed]. destruct A as (v & A1 & A2 & _). exists c, v. split; [exact R|]. split; [exact Qc|]. split; [exact A1|].
  split; [rewrite A2; vm_compute in Ed; injection Ed as <-; reflexivity|]. exact (C85_self nat nat (fun s => Ok s) 3 ltac:(lia) _ _ _ c v H1 R Qc A1).
Qed.
Definition odd_fails : task nat nat := fun _ x s => (s, if Nat.odd x then Err ValueError else Ok (x + s)).
Example C85_fails_case : forall c, rsteps (fun s => Ok s) 2 (start_v [[2; 3; 4]] 5) (program nat nat (map_driver nat nat odd_fails)) (init []) c ->
  quiet (fun s => Ok s) 2 (start_v [[2; 3; 4]] 5) (program nat nat (map_driver nat nat odd_fails)) c ->
  exists e, play (fun s => Ok s) (start_v [[2; 3; 4]] 5) (program nat nat (map_driver nat nat odd_fails)) (outs c) = Failed e.
Proof.
  intros c R Qc. pose proof (C85_items nat nat (fun s => Ok s) 2 ltac:(lia) odd_fails [2; 3; 4] 5 5 c ltac:(intros; reflexivity) eq_refl R Qc) as A.
  destruct (play _ _ _ (outs c)) as [k|v|e|]; try contradiction; [|exists e; reflexivity]. destruct A as (ys & _ & F). inversion F as [|? ? ? ? _ F2]; subst. inversion F2 as [|? ? ? ? H _]; subst. discriminate H.
Qed.
