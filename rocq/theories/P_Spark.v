(** C82: drivers give the same results on Spark as on the sequential backend. *)
From Verif Require Import M_Base M_Num M_Journal M_Rejection M_Spark S_Backend L_Spark.

(** a driver with lists in the variables 0, 1, ... and no data sets *)
Definition start_d {X St} (ls : list (list X)) (self : St) : dstate X St :=
  mkd (fun a => nth a ls []) (length ls) (fun o => if o <? length ls then Some o else None) (fun _ => None) (fun _ => None) self.
Definition start_s {X St} (ls : list (list X)) (self : St) : sstate X St := mks (fun o => nth_error ls o) (fun _ => None) (fun _ => None) self.
Definition none : track := mktr (fun _ => None) (fun _ => false).

Section Spark.
Variables X St : Type.
Variable dumps : St -> res St.
Variable slices : list X -> list (list X).
Hypothesis slices_all : forall l, concat (slices l) = l.
Notation drun := (drun X St).
Notation srun := (srun X St dumps slices).

Lemma start_agree (sim : St -> St -> Prop) ls self : sim self self -> agree X St sim none none (start_d ls self) (start_s ls self).
Proof.
  intros H. constructor; cbn [start_d start_s d_var d_heap d_next d_pds d_bds s_pds s_bds s_var d_self s_self none k_of k_stale]; try discriminate; auto.
  - intros o. unfold d_list. cbn [start_d d_var d_heap]. destruct (o <? length ls) eqn:E; cbn [option_map].
    + apply Nat.ltb_lt in E. symmetry. apply nth_error_nth', E.
    + apply Nat.ltb_ge in E. symmetry. apply nth_error_None, E.
  - intros o o' a. destruct (o <? length ls), (o' <? length ls); congruence.
  - intros o a. destruct (o <? length ls) eqn:E; [|discriminate]. intros [= <-]. apply Nat.ltb_lt, E.
Qed.
(** C82 (agreement): a safe driver whose tasks do not depend on what other tasks leave in self has the same lists in its variables on both backends, for every
    number of slices, and fails on both or on none *)
Theorem C82_agree : forall sim : St -> St -> Prop, (forall s, sim s s) -> (forall s s', sim s s' -> sim s' s) -> (forall s s' s'', sim s s' -> sim s' s'' -> sim s s'') ->
  (forall s, exists c, dumps s = Ok c /\ sim s c) ->
  forall ls self l, safe X St none none l -> Forall (steady_step X St sim) l ->
  match drun (start_d ls self) (program X St l), srun (start_s ls self) (program X St l) with
  | Ok d, Ok s => (forall o, d_list d o = s_var s o) /\ sim (d_self d) (s_self s)
  | Err _, Err _ => True | _, _ => False end.
Proof. intros sim R1 R2 R3 Hd ls self l Hs Hst. apply agree_run with (tp := none) (tb := none); try assumption. apply start_agree, R1. Qed.

Lemma forM_all (sim : St -> St -> Prop) (R1 : forall s, sim s s) (R2 : forall s s', sim s s' -> sim s' s) (R3 : forall s s' s'', sim s s' -> sim s' s'' -> sim s s'') (f : task X St) e (Hf : steady X St sim f) self :
  forall l s, sim self s -> match snd (forM (f e) l s) with
  | Ok ys => Forall2 (fun x y => snd (f e x self) = Ok y) l ys
  | Err _ => exists x er, In x l /\ snd (f e x self) = Err er end.
Proof.
  induction l as [|x l IH]; intros s H; [constructor|]. cbn [forM]. unfold bind, ret. destruct (Hf e x self s H) as [_ H2]. destruct (Hf e x s s (R1 s)) as [H3 _].
  destruct (f e x s) as [s1 [y|er]]; cbn [fst snd] in *.
  - specialize (IH s1 (R3 _ _ _ H H3)). destruct (f e x self) as [? [y'|]] eqn:Ef; cbn [snd] in H2; [|contradiction]. subst y'. destruct (forM (f e) l s1) as [s2 [ys|]]; cbn [snd] in *.
    + constructor; [rewrite Ef; reflexivity|exact IH].
    + destruct IH as (z & er & Hz & E). exists z, er. split; [right; exact Hz|exact E].
  - destruct (f e x self) as [? [y'|er']] eqn:Ef; cbn [snd] in H2; [contradiction|]. exists x, er'. split; [left; reflexivity|rewrite Ef; reflexivity].
Qed.
(** C82 (results): the i-th collected element is the result of the task for the i-th element; if one task fails, collect raises an exception *)
Theorem C82_results : forall sim : St -> St -> Prop, (forall s, sim s s) -> (forall s s', sim s s' -> sim s' s) -> (forall s s' s'', sim s s' -> sim s' s'' -> sim s s'') ->
  (forall s, exists c, dumps s = Ok c /\ sim s c) ->
  forall (f : task X St) l self, steady X St sim f ->
  match srun (start_s [l] self) [Parallelize 0 0; Map f 0 1; Collect 1 1] with
  | Ok s => exists ys, s_var s 1 = Some ys /\ Forall2 (fun x y => snd (f (fun _ => None) x self) = Ok y) l ys
  | Err _ => exists x er, In x l /\ snd (f (fun _ => None) x self) = Err er end.
Proof.
  intros sim R1 R2 R3 Hd f l self Hf. cbn [M_Spark.srun sstep start_s s_var s_pds s_bds s_self nth_error]. rewrite !upd_same. cbn [M_Spark.srun sstep s_var s_pds s_bds s_self r_packed r_funcs r_data app]. rewrite !upd_same. cbn [r_packed r_funcs r_data].
  destruct (Hd self) as (c & Ec & Hc). rewrite Ec. pose proof (parts_same X St sim R1 R2 R3 f (fun _ => None) Hf (slices l) self c Hc) as PS. rewrite slices_all in PS.
  unfold job. cbn [r_funcs r_data]. rewrite (mapR_ext _ (fun l => snd (forM (f (fun _ => None)) l c))) by (intros l'; f_equal; apply forM_ext; intros x s; apply pipeline_one).
  pose proof (forM_all sim R1 R2 R3 f (fun _ => None) Hf self l self (R1 self)) as FA.
  destruct (mapR _ (slices l)) as [ys|]; destruct (snd (forM (f (fun _ => None)) l self)) as [zs|]; cbn [same] in PS; try contradiction; [|exact FA].
  cbn [s_var]. rewrite upd_same. exists (concat ys). split; [reflexivity|]. rewrite <- PS. exact FA.
Qed.
(** C82 (maps of maps): mapping g over the data set that map gave for f, and collecting, applies f first and g to its results *)
Theorem C82_chain : forall sim : St -> St -> Prop, (forall s, sim s s) -> (forall s s', sim s s' -> sim s' s) -> (forall s s' s'', sim s s' -> sim s' s'' -> sim s s'') ->
  (forall s, exists c, dumps s = Ok c /\ sim s c) ->
  forall (f g : task X St) l self, steady X St sim f -> steady X St sim g ->
  match srun (start_s [l] self) [Parallelize 0 0; Map f 0 1; Map g 1 2; Collect 2 1] with
  | Ok s => exists zs, s_var s 1 = Some zs /\ Forall2 (fun x z => exists y, snd (f (fun _ => None) x self) = Ok y /\ snd (g (fun _ => None) y self) = Ok z) l zs
  | Err _ => exists x, In x l /\ ((exists er, snd (f (fun _ => None) x self) = Err er) \/ exists y er, snd (f (fun _ => None) x self) = Ok y /\ snd (g (fun _ => None) y self) = Err er) end.
Proof.
  intros sim R1 R2 R3 Hd f g l self Hf Hg. set (h := (fun e x => bind (f e x) (g e)) : task X St).
  assert (Hh : steady X St sim h).
  { intros e x s s' H. unfold h, bind. destruct (Hf e x s s' H) as [H1 H2]. destruct (Hf e x s' s' (R1 s')) as [H3 _]. destruct (f e x s) as [s1 [y|er]], (f e x s') as [s2 [y'|er']]; cbn [fst snd] in *; try contradiction; [|split; [exact H1|exact I]].
    subst y'. destruct (Hg e y s1 s2 (R3 _ _ _ (R2 _ _ H1) (R3 _ _ _ H H3))) as [H4 H5]. split; [exact (R3 _ _ _ H1 H4)|exact H5]. }
  assert (Hv : forall x, match snd (h (fun _ => None) x self) with
     | Ok z => exists y, snd (f (fun _ => None) x self) = Ok y /\ snd (g (fun _ => None) y self) = Ok z
     | Err _ => (exists er, snd (f (fun _ => None) x self) = Err er) \/ exists y er, snd (f (fun _ => None) x self) = Ok y /\ snd (g (fun _ => None) y self) = Err er end).
  { intros x. unfold h, bind. destruct (Hf (fun _ => None) x self self (R1 self)) as [H1 _]. destruct (f (fun _ => None) x self) as [s1 [y|er]]; cbn [fst snd] in *; [|left; exists er; reflexivity].
    destruct (Hg (fun _ => None) y self s1 H1) as [_ H5]. destruct (snd (g (fun _ => None) y s1)) as [z|] eqn:E1, (snd (g (fun _ => None) y self)) as [z'|] eqn:E2; try contradiction.
    - subst z'. exists y. split; [reflexivity|exact E2].
    - right. eexists y, _. split; [reflexivity|exact E2]. }
  cbn [M_Spark.srun sstep start_s s_var s_pds s_bds s_self nth_error]. rewrite !upd_same. cbn [M_Spark.srun sstep s_var s_pds s_bds s_self r_packed r_funcs r_data app]. rewrite !upd_same. cbn [M_Spark.srun sstep s_var s_pds s_bds s_self r_packed r_funcs r_data app]. rewrite !upd_same. cbn [r_packed r_funcs r_data].
  destruct (Hd self) as (c & Ec & Hc). rewrite Ec. pose proof (parts_same X St sim R1 R2 R3 h (fun _ => None) Hh (slices l) self c Hc) as PS. rewrite slices_all in PS.
  unfold job. cbn [r_funcs r_data]. rewrite (mapR_ext _ (fun l => snd (forM (h (fun _ => None)) l c))).
  2:{ intros l'. f_equal. apply forM_ext. intros x s. cbn [pipeline]. unfold h, bind, ret. destruct (f (fun _ => None) x s) as [s1 [y|]]; [|reflexivity]. destruct (g (fun _ => None) y s1) as [s2 [z|]]; reflexivity. }
  pose proof (forM_all sim R1 R2 R3 h (fun _ => None) Hh self l self (R1 self)) as FA.
  destruct (mapR _ (slices l)) as [ys|]; destruct (snd (forM (h (fun _ => None)) l self)) as [zs|]; cbn [same] in PS; try contradiction.
  - cbn [s_var]. rewrite upd_same. exists (concat ys). split; [reflexivity|]. rewrite <- PS. clear - FA Hv. induction FA as [|x z l zs H1 H2 IH]; constructor; [|exact IH]. specialize (Hv x). rewrite H1 in Hv. exact Hv.
  - destruct FA as (x & er & Hx & Ex). exists x. split; [exact Hx|]. specialize (Hv x). rewrite Ex in Hv. exact Hv.
Qed.
(** C82 (assignments): o[k] = x replaces element k and no other, on both backends; there is an IndexError exactly if there is no such element *)
Theorem C82_put : forall (l : list X) self k x,
  match srun (start_s [l] self) [Put 0 k x] with Ok s => k < length l /\ s_var s 0 = Some (firstn k l ++ x :: skipn (Datatypes.S k) l) | Err e => length l <= k /\ e = IndexError end /\
  match drun (start_d [l] self) [Put 0 k x] with Ok d => k < length l /\ d_list d 0 = Some (firstn k l ++ x :: skipn (Datatypes.S k) l) | Err e => length l <= k /\ e = IndexError end.
Proof.
  assert (P : forall (l : list X) k x, match set_nth X k x l with Some l' => k < length l /\ l' = firstn k l ++ x :: skipn (Datatypes.S k) l | None => length l <= k end).
  { induction l as [|y l IH]; intros k x; [destruct k; cbn [set_nth length]; lia|]. destruct k as [|k]; cbn [set_nth]; [split; [cbn [length]; lia|reflexivity]|]. pose proof (IH k x) as IHk; clear IH; rename IHk into IH. destruct (set_nth X k x l) as [l'|]; [|cbn [length]; lia].
    destruct IH as [H ->]. split; [cbn [length]; lia|reflexivity]. }
  intros l self k x. specialize (P l k x). cbn [M_Spark.srun sstep M_Spark.drun dstep start_s start_d s_var d_var d_heap nth_error length Nat.ltb Nat.leb nth].
  destruct (set_nth X k x l) as [l'|]; [|split; (split; [exact P|reflexivity])]. destruct P as [H ->]. unfold d_list. cbn [s_var d_var d_heap option_map Nat.ltb Nat.leb length]. rewrite !upd_same. split; (split; [exact H|reflexivity]).
Qed.
(** the changes of self by the driver itself *)
Definition updates (l : list (cmd X St)) (s : St) : St := fold_left (fun s c => match c with Update u => u s | _ => s end) l s.
(** C82 (self): on Spark, what tasks do to self is lost: after any commands, self is what the driver made of it *)
Theorem C82_self : forall l s s', srun s l = Ok s' -> s_self s' = updates l (s_self s).
Proof.
  induction l as [|c l IH]; intros s s' H; cbn [M_Spark.srun] in H; [injection H as <-; reflexivity|].
  destruct (sstep X St dumps slices s c) as [s1|] eqn:E; [|discriminate]. rewrite (IH s1 s' H). unfold updates. cbn [fold_left]. f_equal. clear - E.
  destruct c; cbn [sstep] in E.
  - destruct (s_var s o); [injection E as <-; reflexivity|discriminate].
  - destruct (s_pds s p); [injection E as <-; reflexivity|discriminate].
  - destruct (s_pds s p) as [r|]; [|discriminate]. destruct (match r_packed r, r_funcs r with Some se, _ => _ | None, [] => _ | None, _ => _ end) as [[c e]|]; [|discriminate]. destruct (job X St slices r c e); [injection E as <-; reflexivity|discriminate].
  - destruct (s_var s o); [injection E as <-; reflexivity|discriminate].
  - destruct (s_var s o); [|discriminate]. destruct (set_nth X k x l); [injection E as <-; reflexivity|discriminate].
  - injection E as <-. reflexivity.
Qed.
(** commands that do not assign data set p *)
Definition keeps (p : nat) (c : cmd X St) : Prop := match c with Parallelize _ p' => p' <> p | Map _ _ t => t <> p | _ => True end.
Lemma packed_kept p r : forall l s s', Forall (keeps p) l -> s_pds s p = Some r -> r_packed r <> None -> srun s l = Ok s' -> s_pds s' p = Some r.
Proof.
  induction l as [|c l IH]; intros s s' Hk Hp Hr H; cbn [M_Spark.srun] in H; [injection H as <-; exact Hp|]. inversion Hk as [|? ? K1 K2]; subst.
  destruct (sstep X St dumps slices s c) as [s1|] eqn:E; [|discriminate]. apply (IH s1 s' K2); try assumption. clear IH H K2 Hk.
  destruct c; cbn [sstep keeps] in *.
  - destruct (s_var s o); [injection E as <-|discriminate]. cbn [s_pds]. rewrite upd_other; congruence.
  - destruct (s_pds s p0); [injection E as <-|discriminate]. cbn [s_pds]. rewrite upd_other; congruence.
  - destruct (s_pds s p0) as [r0|] eqn:E0; [|discriminate]. destruct (Nat.eq_dec p0 p) as [->|N].
    + rewrite Hp in E0. injection E0 as <-. destruct (r_packed r) as [[c e]|] eqn:Er; [|congruence]. destruct (job X St slices r c e); [injection E as <-|discriminate]. cbn [s_pds]. rewrite upd_same. f_equal. destruct r; cbn in *; congruence.
    + destruct (match r_packed r0, r_funcs r0 with Some se, _ => _ | None, [] => _ | None, _ => _ end) as [[c e]|]; [|discriminate]. destruct (job X St slices r0 c e); [injection E as <-|discriminate]. cbn [s_pds]. rewrite upd_other; congruence.
  - destruct (s_var s o); [injection E as <-|discriminate]. exact Hp.
  - destruct (s_var s o); [|discriminate]. destruct (set_nth X k x l0); [injection E as <-|discriminate]. exact Hp.
  - injection E as <-. exact Hp.
Qed.
(** C82 (collecting again): on Spark a data set is computed again by each collect, with the functions and the self of the first one: the result is the same, whatever
    the driver did in between *)
Theorem C82_again : forall s p o s1 l s2 o', sstep X St dumps slices s (Collect p o) = Ok s1 -> Forall (keeps p) l -> srun s1 l = Ok s2 ->
  exists s3, sstep X St dumps slices s2 (Collect p o') = Ok s3 /\ s_var s3 o' = s_var s1 o.
Proof.
  intros s p o s1 l s2 o' H Hk Hl. cbn [sstep] in *. destruct (s_pds s p) as [r|]; [|discriminate].
  destruct (match r_packed r, r_funcs r with Some se, _ => _ | None, [] => _ | None, _ => _ end) as [[c e]|]; [|discriminate]. destruct (job X St slices r c e) as [ys|] eqn:Ej; [|discriminate]. injection H as <-.
  assert (K : s_pds s2 p = Some (mkrdd (r_data r) (r_funcs r) (Some (c, e)))) by (refine (packed_kept p _ l _ s2 Hk _ _ Hl); [cbn [s_pds]; apply upd_same|discriminate]). rewrite K. cbn [r_packed]. change (job X St slices (mkrdd (r_data r) (r_funcs r) (Some (c, e))) c e) with (job X St slices r c e). rewrite Ej.
  eexists. split; [reflexivity|]. cbn [s_var]. rewrite !upd_same. reflexivity.
Qed.
End Spark.
Print Assumptions C82_agree.
Print Assumptions C82_results.
Print Assumptions C82_chain.
Print Assumptions C82_put.
Print Assumptions C82_self.
Print Assumptions C82_again.

(** RejectionABC._sample_parameter as a task; it leaves something in self, whose graph it assigns anew *)
Definition rejection_task {Rng Y E St} (prior : Rng -> Rng * list E) (sim : list E -> Rng -> Rng * option Y) (mkrng : Z -> Rng) (dist : Y -> num) (dist_max eps : num) (fuel : nat) (left : St -> Z -> St)
    : task (Z + list E * num * nat) St :=
  fun _ x s => match x with
               | inl seed => (left s seed, match sample_parameter Rng Y E prior sim dist dist_max eps fuel (mkrng seed) with Ok r => Ok (inr r) | Err e => Err e end)
               | inr _ => (s, Err TypeError) end.
(** C82 (rejection sampling): on Spark the samples of RejectionABC are those of the model of C16 *)
Theorem C82_rejection : forall Rng Y E St prior sim mkrng dist dist_max eps fuel (left : St -> Z -> St) dumps slices, (forall l, concat (slices l) = l) -> (forall s, exists c, dumps s = Ok c) ->
  forall seeds self,
  match srun _ St dumps slices (start_s [map inl seeds] self) [Parallelize 0 0; Map (@rejection_task Rng Y E St prior sim mkrng dist dist_max eps fuel left) 0 1; Collect 1 1] with
  | Ok s => exists rs, mapR (fun seed => sample_parameter Rng Y E prior sim dist dist_max eps fuel (mkrng seed)) seeds = Ok rs /\ s_var s 1 = Some (map inr rs)
  | Err _ => exists e, mapR (fun seed => sample_parameter Rng Y E prior sim dist dist_max eps fuel (mkrng seed)) seeds = Err e end.
Proof.
  intros Rng Y E St prior sim mkrng dist dist_max eps fuel left dumps slices Hs Hd seeds self. set (sp := fun seed => sample_parameter Rng Y E prior sim dist dist_max eps fuel (mkrng seed)).
  pose proof (C82_results _ St dumps slices Hs (fun _ _ => True) (fun _ => I) (fun _ _ _ => I) (fun _ _ _ _ _ => I) (fun s => match Hd s with ex_intro _ c Ec => ex_intro _ c (conj Ec I) end)
    (rejection_task prior sim mkrng dist dist_max eps fuel left) (map inl seeds) self) as R.
  specialize (R ltac:(intros e x s s' _; split; [exact I|]; unfold rejection_task; destruct x as [seed|]; cbn [snd]; [destruct (sample_parameter _ _ _ _ _ _ _ _ _ _); auto|exact I])).
  destruct (srun _ _ _ _ _ _) as [s|].
  - destruct R as (ys & Ey & F). rewrite Ey. clear Ey. assert (G : exists rs, mapR sp seeds = Ok rs /\ ys = map inr rs).
    { revert ys F. induction seeds as [|a seeds IH]; intros ys F; inversion F as [|x y l' ys' H1 H2]; subst; [exists []; split; reflexivity|]. destruct (IH _ H2) as (rs & E1 & ->). cbn [mapR]. rewrite E1. unfold rejection_task in H1. cbn [snd] in H1. fold (sp a) in H1.
      destruct (sp a) as [r|]; [|discriminate]. injection H1 as <-. exists (r :: rs). split; reflexivity. }
    destruct G as (rs & E1 & ->). exists rs. split; [exact E1|reflexivity].
  - destruct R as (x & er & Hx & E1). apply in_map_iff in Hx. destruct Hx as (a & <- & Ha). unfold rejection_task in E1. cbn [snd] in E1. fold (sp a) in E1. destruct (sp a) as [r|e9] eqn:Ea; [discriminate|]. clear E1.
    induction seeds as [|b seeds IH]; [destruct Ha|]. cbn [mapR]. destruct (sp b) as [rb|eb] eqn:Eb; [|exists eb; reflexivity]. destruct Ha as [->|Ha]; [congruence|]. destruct (IH Ha) as (e' & ->). exists e'. reflexivity.
Qed.
Print Assumptions C82_rejection.
(** A generator in self (Distance objects hold one: distances.py 308, 441): the k-th number it gives is g k. *)
Definition draw {X} (g : nat -> X) : task X nat := fun _ _ k => (S k, Ok (g k)).
Definition maps {X} (g : nat -> X) : list (cmd X nat) := [Parallelize 0 0; Map (draw g) 0 1; Collect 1 1; Map (draw g) 0 2; Collect 2 2].
Lemma draws {X} (g : nat -> X) e : forall l k, forM (draw g e) l k = (k + length l, Ok (map g (seq k (length l)))).
Proof. induction l as [|x l IH]; intros k; cbn [forM]; unfold bind, ret; [rewrite Nat.add_0_r; reflexivity|]. unfold draw at 1. rewrite IH. cbn [length seq map]. f_equal. lia. Qed.
(** C82 (generators): on the sequential backend the tasks of two maps use the numbers 0, 1, ..., one after the other; on Spark every slice of every map starts with
    number 0 again *)
Theorem C82_generator_refuted : forall X (g : nat -> X) slices, (forall l, concat (slices l) = l) -> forall l, exists d s,
  drun X nat (start_d [l] 0) (maps g) = Ok d /\ srun X nat (fun s => Ok s) slices (start_s [l] 0) (maps g) = Ok s /\
  d_list d 1 = Some (map g (seq 0 (length l))) /\ d_list d 2 = Some (map g (seq (length l) (length l))) /\
  s_var s 1 = Some (concat (map (fun part => map g (seq 0 (length part))) (slices l))) /\ s_var s 2 = s_var s 1.
Proof.
  intros X g slices Hs l. eexists _, _. unfold maps. cbn [drun dstep start_d d_var d_heap d_pds d_bds d_self d_next length Nat.ltb Nat.leb nth].
  split. { rewrite upd_same. cbn [d_heap d_pds d_self d_next d_var d_bds]. rewrite draws. cbn [drun dstep d_heap d_pds d_self d_next d_var d_bds]. rewrite !upd_same. cbn [drun dstep d_heap d_pds d_self d_next d_var d_bds]. rewrite upd_other by discriminate. rewrite upd_same. rewrite upd_other by discriminate. cbn [nth]. rewrite draws. cbn [drun dstep d_heap d_pds d_self d_next d_var d_bds]. rewrite upd_same. reflexivity. }
  assert (J : forall ls, mapR (fun part => snd (forM (pipeline X nat [draw g] (fun _ => None)) part 0)) ls = Ok (map (fun part => map g (seq 0 (length part))) ls)).
  { induction ls as [|a ls IH]; [reflexivity|]. cbn [mapR map]. rewrite (forM_ext _ _ (draw g (fun _ => None))) by (intros; apply pipeline_one). rewrite draws. cbn [snd]. rewrite IH. reflexivity. }
  split.
  { cbn [srun sstep start_s s_var s_pds s_bds s_self nth_error]. rewrite !upd_same. cbn [srun sstep s_var s_pds s_bds s_self r_packed r_funcs r_data app]. rewrite !upd_same. unfold job. cbn [r_packed r_funcs r_data]. rewrite J.
    cbn [srun sstep s_var s_pds s_bds s_self]. rewrite !(upd_other _ 1 0) by discriminate. rewrite upd_same. cbn [r_packed r_funcs r_data app srun sstep s_var s_pds s_bds s_self]. rewrite upd_same. unfold job. cbn [r_packed r_funcs r_data]. rewrite J. reflexivity. }
  unfold d_list. cbn [d_var d_heap s_var]. split; [reflexivity|]. split; [reflexivity|]. split; reflexivity.
Qed.
Print Assumptions C82_generator_refuted.
(** C82 (timing): attributes of self set between map and collect; a broadcast list changed before it is used; a collected list changed before it is collected again *)
Definition add_self : task nat nat := fun _ x s => (s, Ok (x + s)).
Definition add_bds : task nat nat := fun e x s => (s, match e 0 with Some (y :: _) => Ok (x + y) | _ => Err TypeError end).
Definition both (ls : list (list nat)) (l : list (cmd nat nat)) (o : nat) : option (list nat) * option (list nat) :=
  (match drun nat nat (start_d ls 0) l with Ok d => d_list d o | Err _ => None end, match srun nat nat (fun s => Ok s) (fun l => [l]) (start_s ls 0) l with Ok s => s_var s o | Err _ => None end).
Theorem C82_timing_refuted :
  both [[1; 2]] [Parallelize 0 0; Map add_self 0 1; Update (fun _ => 10); Collect 1 1] 1 = (Some [1; 2], Some [11; 12]) /\
  both [[1; 2]; [10]] [Broadcast 1 0; Put 1 0 20; Parallelize 0 0; Map add_bds 0 1; Collect 1 2] 2 = (Some [21; 22], Some [11; 12]) /\
  both [[1; 2]] [Parallelize 0 0; Put 0 0 5; Map add_self 0 1; Collect 1 1] 1 = (Some [5; 2], Some [1; 2]) /\
  both [[1; 2]] [Parallelize 0 0; Map add_self 0 1; Collect 1 1; Put 1 0 9; Collect 1 2] 2 = (Some [9; 2], Some [1; 2]).
Proof. split; [reflexivity|]. split; [reflexivity|]. split; reflexivity. Qed.
Print Assumptions C82_timing_refuted.
(** C82 (pickling): objects whose class deletes the backend from what is pickled arrive without it, and cannot be pickled again; GenerateFromJournal keeps its backend and
    cannot be sent by a backend that cannot be pickled: generate raises an exception for all journals *)
Theorem C82_pickled : forall (B St : Type) (ok : B -> bool) b (a : St),
  dumps_obj ok (mkobj true (Some b) a) = Ok (mkobj true None a) /\ dumps_obj ok (mkobj true None a) = Err KeyError.
Proof. intros. split; reflexivity. Qed.
Theorem C82_generate_refuted : forall (B St X : Type) (ok : B -> bool) b (a : St) slices (f : task X (obj B St)) l, ok b = false ->
  srun X (obj B St) (dumps_obj ok) slices (start_s [l] (mkobj false (Some b) a)) [Parallelize 0 0; Map f 0 1; Collect 1 1] = Err RuntimeError.
Proof. intros B St X ok b a slices f l H. cbn [srun sstep start_s s_var s_pds s_bds s_self nth_error]. rewrite !upd_same. cbn [srun sstep s_var s_pds s_bds s_self r_packed r_funcs r_data app]. rewrite !upd_same. cbn [r_packed r_funcs]. unfold dumps_obj. cbn [o_getstate o_backend]. rewrite H. reflexivity. Qed.
Print Assumptions C82_pickled.
Print Assumptions C82_generate_refuted.

(** Cases: a driver with two maps; the second one uses the broadcast results of the first; tasks leave their element in self (an attribute that each task overwrites). *)
Definition leave : task nat nat := fun e x _ => (x, match e 0 with Some (y :: _) => Ok (x * y) | _ => Ok (x + 1) end).
Definition driver : list (step nat nat) := [SPar 0 0; SRun leave 0 1 1; SPut 1 0 7; SBcast 1 0; SPar 1 2; SRun leave 2 3 2].
Example driver_safe : safe nat nat none none driver /\ Forall (steady_step nat nat (fun _ _ => True)) driver.
Proof.
  assert (E : forall tb : track, k_stale tb 0 = false -> forall e e' : env nat, (forall b, k_stale tb b = false -> e b = e' b) -> forall x s, leave e x s = leave e' x s) by (intros tb H e e' He x s; unfold leave; rewrite (He 0 H); reflexivity).
  split.
  - cbn [safe driver]. split; [reflexivity|]. split; [apply E; reflexivity|]. split; [reflexivity|]. split; [apply E; reflexivity|exact I].
  - assert (L : steady nat nat (fun _ _ => True) leave) by (intros e x s s' _; unfold leave; cbn [fst snd]; destruct (e 0) as [[|]|]; auto). apply Forall_forall. intros c Hc. unfold driver in Hc. cbn in Hc. decompose [or] Hc; subst; try contradiction; first [exact I|exact L].
Qed.
Example driver_case : both [[1; 2; 3]] (program nat nat driver) 1 = (Some [7; 3; 4], Some [7; 3; 4]) /\ both [[1; 2; 3]] (program nat nat driver) 2 = (Some [49; 21; 28], Some [49; 21; 28]).
Proof. split; reflexivity. Qed.
Example slices_case : forall X (l : list X), concat [firstn 2 l; skipn 2 l] = l.
Proof. intros. cbn [concat]. rewrite app_nil_r. apply firstn_skipn. Qed.
Example chain_case : both [[1; 2; 3]] [Parallelize 0 0; Map add_self 0 1; Map (fun _ x s => (s, Ok (x * x + 1))) 1 2; Update (fun _ => 4); Collect 2 1] 1 = (Some [2; 5; 10], Some [26; 37; 50]).
Proof. reflexivity. Qed.
