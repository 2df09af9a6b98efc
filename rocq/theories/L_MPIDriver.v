(** Proofs for C85. *)
From Verif Require Import M_Base M_Journal M_Spark S_Backend L_Spark M_MPI S_MPI L_MPI L_MPI2 P_MPI M_MPIDriver.

Section Driver.
Variables X St : Type.
Variable dumps : St -> res St.
Notation pyv := (pyv X).
Notation mcmd := (M_MPI.cmd pyv).
Notation out := (M_MPI.out pyv).
Notation does := (does X St).
Notation drv := (drv X St).
Notation astate := (S_MPI.astate pyv).
Notation allowed := (allowed (V := pyv) isexc).
Notation acmd := (acmd (V := pyv) rewrap).
Notation arun := (arun (V := pyv) rewrap).
Notation play := (play (X := X) (St := St) dumps).

(** ** Scripts: a driver whose calls are correct uses, whatever the allowed answers *)
Inductive good : astate -> (list out -> does) -> (does -> Prop) -> list mcmd -> Prop :=
| g_end a (P : list out -> does) (Q : does -> Prop) : Q (P []) -> (forall k, ~ Q (Calls k)) -> good a P Q []
| g_call a P Q k a1 e p : P [] = Calls k -> acmd k a = Some (a1, e) -> (forall o, allowed e o -> good a1 (fun ans => P (o :: ans)) Q p) -> good a P Q (k :: p).

Lemma allowed_some (e : exp pyv) : exists o, allowed e o.
Proof.
  destruct e as [id|id|rs|]; [exists (OPds id); reflexivity|exists (OBds id); reflexivity| |exists ODone; reflexivity].
  induction rs as [|r rs IH]; [exists (OList []); left; split; [constructor|reflexivity]|]. destruct (isexc r) eqn:Er.
  - exists (ORaise r). right. exists r. split; [left; reflexivity|]. split; [exact Er|reflexivity].
  - destruct IH as [o [[H ->]|(r' & H1 & H2 & ->)]].
    + exists (OList (r :: rs)). left. split; [constructor; assumption|reflexivity].
    + exists (ORaise r'). right. exists r'. split; [right; exact H1|]. split; [exact H2|reflexivity].
Qed.
Lemma good_run a P Q p : good a P Q p -> exists a' es, arun p a = Some (a', es) /\ length es = length p /\
  (forall es1 e es2 as1, es = es1 ++ e :: es2 -> Forall2 allowed es1 as1 -> exists k, nth_error p (length es1) = Some k /\ P as1 = Calls k) /\
  (forall ans, Forall2 allowed es ans -> Q (P ans)) /\ (forall k, ~ Q (Calls k)).
Proof.
  induction 1 as [a P Q H1 H2|a P Q k a1 e p Hk Ha H IH].
  - exists a, []. split; [reflexivity|]. split; [reflexivity|]. split; [intros [|? ?] ? ? ? E; discriminate E|]. split; [intros ans F; inversion F; subst; exact H1|exact H2].
  - destruct (allowed_some e) as [o Ho]. destruct (IH o Ho) as (a' & es & E1 & E2 & _ & _ & E5). exists a', (e :: es). cbn [S_MPI.arun]. rewrite Ha, E1. split; [reflexivity|]. split; [cbn [length]; rewrite E2; reflexivity|]. split; [|split; [|exact E5]].
    + intros es1 e' es2 as1 E F. destruct es1 as [|e1 es1]; cbn [app] in E.
      * inversion F; subst. exists k. split; [reflexivity|exact Hk].
      * injection E as <- E. inversion F as [|? o1 ? as1' Ho1 F']; subst. destruct (IH o1 Ho1) as (a2 & es' & X1 & _ & X3 & _ & _). rewrite E1 in X1. injection X1 as <- <-.
        destruct (X3 es1 e' es2 as1' eq_refl F') as (k' & K1 & K2). exists k'. split; [exact K1|exact K2].
    + intros ans F. inversion F as [|? o1 ? as1' Ho1 F']; subst. destruct (IH o1 Ho1) as (a2 & es' & X1 & _ & _ & X4 & _). rewrite E1 in X1. injection X1 as <- <-. exact (X4 as1' F').
Qed.

(** ** The driver's calls *)
Definition single (l : list X) : list (list X) := map (fun x => [x]) l.
Notation srun := (srun X St dumps single).
Definition outcome (f : task X St) (e : env X) (c : St) (x : X) : pyv := match snd (f e x c) with Ok y => Elem y | Err er => Exc er end.
Lemma results_remote f e c l : results rewrap (remote f e c) (map Elem l) = Some (map (outcome f e c) l).
Proof.
  induction l as [|x l IH]; [reflexivity|]. cbn [map results]. rewrite IH. unfold run_function, remote, outcome. destruct (snd (f e x c)); reflexivity.
Qed.
Lemma job_single f e c l : match job X St single (mkrdd l [f] None) c e with
  | Ok ys => map (outcome f e c) l = map Elem ys
  | Err _ => exists er, In (Exc er) (map (outcome f e c) l) end.
Proof.
  unfold job. cbn [r_funcs r_data]. unfold single. enough (E : match mapR (fun l0 => snd (forM (pipeline X St [f] e) l0 c)) (map (fun x => [x]) l) with
    | Ok ys => map (outcome f e c) l = map Elem (concat ys) | Err _ => exists er, In (Exc er) (map (outcome f e c) l) end) by (destruct (mapR _ _); exact E).
  induction l as [|x l IH]; [reflexivity|]. cbn [map mapR forM]. unfold bind, ret. rewrite pipeline_one. unfold outcome at 1 3. destruct (f e x c) as [s1 [y|er]]; cbn [snd].
  - destruct (mapR _ _) as [ys|]; [cbn [concat app map]; rewrite IH; reflexivity|]. destruct IH as (er & H). exists er. right. exact H.
  - exists er. left. reflexivity.
Qed.
Lemma elems_Elem (l : list X) : elems (map Elem l) = Some l.
Proof. induction l as [|x l IH]; [reflexivity|]. cbn [map elems]. rewrite IH. reflexivity. Qed.
Lemma no_exc (l : list X) : Forall (fun r : pyv => isexc r = false) (map Elem l).
Proof. induction l; constructor; [reflexivity|assumption]. Qed.

Record rel (tp : track) (v : drv) (s : sstate X St) (a : astate) : Prop := mkrel {
  r_var : forall o, v_var v o = s_var s o;
  r_self : v_self v = s_self s;
  r_bds : forall b, v_env v b = s_bds s b;
  r_src : forall p, k_stale tp p = false -> match v_pds v p, s_pds s p with Some id, Some r => r_funcs r = [] /\ apds a id = Some (PRaw (map Elem (r_data r))) | None, None => True | _, _ => False end;
  r_alive : forall p id, v_pds v p = Some id -> alive a id = true /\ id <= anp a;
  r_inj : forall p p' id, v_pds v p = Some id -> v_pds v p' = Some id -> p = p';
  r_bval : forall b id l, v_bds v b = Some (id, l) -> abds a id = Some (Lst l) /\ id <= anb a;
  r_binj : forall b b' id l l', v_bds v b = Some (id, l) -> v_bds v b' = Some (id, l') -> b = b' }.

Lemma good_pds a old (del : nat -> mcmd) go Q p : del = CDelP -> (forall id, old = Some id -> alive a id = true) ->
  (forall a', a' = (match old with None => a | Some id => mkast (anp a) (anb a) (apds a) (upd (alive a) id false) (abds a) end) -> good a' go Q p) ->
  exists p', good a (fun ans => rebind old del ans go) Q p'.
Proof.
  intros -> Hal Hg. destruct old as [id|].
  - exists (CDelP id :: p). eapply g_call; [reflexivity| |].
    + cbn [S_MPI.acmd]. rewrite (Hal id eq_refl). reflexivity.
    + intros o H. cbn in H. subst o. cbn [rebind]. apply Hg. reflexivity.
  - exists p. cbn [rebind]. apply (Hg a). reflexivity.
Qed.
Lemma good_bds a old (del : nat -> mcmd) go Q p : del = CDelB -> (forall id, old = Some id -> exists x, abds a id = Some x) ->
  (forall a', a' = (match old with None => a | Some id => mkast (anp a) (anb a) (apds a) (alive a) (upd (abds a) id None) end) -> good a' go Q p) ->
  exists p', good a (fun ans => rebind old del ans go) Q p'.
Proof.
  intros -> Hal Hg. destruct old as [id|].
  - exists (CDelB id :: p). destruct (Hal id eq_refl) as [x Hx]. eapply g_call; [reflexivity| |].
    + cbn [S_MPI.acmd]. rewrite Hx. reflexivity.
    + intros o H. cbn in H. subst o. cbn [rebind]. apply Hg. reflexivity.
  - exists p. cbn [rebind]. apply (Hg a). reflexivity.
Qed.

(** the relation after binding a name of a data set to a new identifier *)
Definition born (a : astate) (i : pinfo pyv) : astate := mkast (S (anp a)) (anb a) (upd (apds a) (S (anp a)) (Some i)) (upd (alive a) (S (anp a)) true) (abds a).
Definition buried (a : astate) (old : option nat) : astate := match old with None => a | Some id => mkast (anp a) (anb a) (apds a) (upd (alive a) id false) (abds a) end.
Lemma rel_new tp tp' v s s' a p i : rel tp v s a -> (forall o, s_var s' o = s_var s o) -> s_self s' = s_self s -> (forall b, s_bds s' b = s_bds s b) -> (forall q, q <> p -> s_pds s' q = s_pds s q) ->
  (forall q, q <> p -> k_stale tp' q = false -> k_stale tp q = false) ->
  (k_stale tp' p = false -> exists r, s_pds s' p = Some r /\ r_funcs r = [] /\ i = PRaw (map Elem (r_data r))) ->
  rel tp' (mkv (v_var v) (upd (v_pds v) p (Some (S (anp a)))) (v_bds v) (v_self v)) s' (buried (born a i) (v_pds v p)).
Proof.
  intros [A1 A2 A3 A4 A5 A6 A7 A8] Hv Hself Hb Hp Hk Hi.
  assert (B : forall id, apds (buried (born a i) (v_pds v p)) id = upd (apds a) (S (anp a)) (Some i) id) by (intros id; destruct (v_pds v p); reflexivity).
  assert (B2 : forall id, abds (buried (born a i) (v_pds v p)) id = abds a id) by (intros id; destruct (v_pds v p); reflexivity).
  assert (B3 : anp (buried (born a i) (v_pds v p)) = S (anp a)) by (destruct (v_pds v p); reflexivity).
  assert (B4 : anb (buried (born a i) (v_pds v p)) = anb a) by (destruct (v_pds v p); reflexivity).
  assert (B5 : forall id, alive (buried (born a i) (v_pds v p)) id = match v_pds v p with Some old => upd (upd (alive a) (S (anp a)) true) old false id | None => upd (alive a) (S (anp a)) true id end) by (intros id; destruct (v_pds v p); reflexivity).
  constructor; cbn [v_var v_pds v_bds v_self]; unfold v_env; cbn [v_bds].
  - intros o. rewrite Hv. apply A1.
  - rewrite Hself. exact A2.
  - intros b. rewrite Hb. apply A3.
  - intros q Hq. destruct (Nat.eq_dec q p) as [->|Nq].
    + destruct (Hi Hq) as (r & E1 & E2 & E3). rewrite upd_same, E1. split; [exact E2|]. rewrite B, upd_same, E3. reflexivity.
    + rewrite (upd_other _ _ _ _ Nq), (Hp q Nq). specialize (A4 q (Hk q Nq Hq)). destruct (v_pds v q) as [id|] eqn:E, (s_pds s q) as [r|]; try contradiction; [|exact I]. destruct A4 as [F1 F2]. split; [exact F1|]. rewrite B, upd_other; [exact F2|]. destruct (A5 q id E). lia.
  - intros q id H. rewrite B3, B5. destruct (Nat.eq_dec q p) as [->|Nq].
    + rewrite upd_same in H. injection H as <-. split; [|lia]. destruct (v_pds v p) as [old|] eqn:E; [|apply upd_same]. destruct (A5 p old E). rewrite upd_other by lia. apply upd_same.
    + rewrite (upd_other _ _ _ _ Nq) in H. destruct (A5 q id H) as [F1 F2]. split; [|lia]. destruct (v_pds v p) as [old|] eqn:E.
      * rewrite upd_other; [rewrite upd_other by lia; exact F1|]. intros ->. apply Nq, (A6 q p old H E).
      * rewrite upd_other by lia. exact F1.
  - intros q q' id H H'. destruct (Nat.eq_dec q p) as [->|Nq], (Nat.eq_dec q' p) as [->|Nq']; rewrite ?upd_same, ?(upd_other _ _ _ _ Nq), ?(upd_other _ _ _ _ Nq') in *.
    + reflexivity.
    + injection H as <-. destruct (A5 q' _ H'). lia.
    + injection H' as <-. destruct (A5 q _ H). lia.
    + exact (A6 q q' id H H').
  - intros b id l H. rewrite B2, B4. exact (A7 b id l H).
  - exact A8.
Qed.

Lemma canon : forall l tp tb v s a, S_Backend.safe X St tp tb l -> rel tp v s a -> exists p,
  good a (play v (program X St l)) (fun r => match srun s (program X St l) with
    | Ok s' => exists v', r = Finished v' /\ (forall o, v_var v' o = s_var s' o) /\ v_self v' = s_self s'
    | Err _ => exists e, r = Failed e end) p.
Proof.
  induction l as [|c l IH]; intros tp tb v s a Hs R.
  - exists []. apply g_end; [|intros k (v' & E & _); discriminate E]. cbn. exists v. split; [reflexivity|]. split; [apply (r_var _ _ _ _ R)|apply (r_self _ _ _ _ R)].
  - pose proof R as [A1 A2 A3 A4 A5 A6 A7 A8]. unfold program. cbn [map concat]. destruct c as [o p|f p t o|o b|o k x|u]; cbn [cmds app M_Spark.srun sstep M_MPIDriver.play]; fold (program X St l).
    + rewrite <- A1. destruct (v_var v o) as [lst|] eqn:Eo.
      2:{ exists []. apply g_end; [exists NameError; reflexivity|intros k (e & E); discriminate E]. }
      cbn [S_Backend.safe] in Hs.
      destruct (IH _ _ (mkv (v_var v) (upd (v_pds v) p (Some (S (anp a)))) (v_bds v) (v_self v)) (mks (s_var s) (upd (s_pds s) p (Some (mkrdd lst [] None))) (s_bds s) (s_self s)) (buried (born a (PRaw (map Elem lst))) (v_pds v p)) Hs) as [p1 G1].
      { apply (rel_new tp _ v s _ a p _ R); cbn [s_var s_self s_bds s_pds]; try reflexivity.
        - intros q Nq. apply upd_other, Nq.
        - intros q Nq. unfold taken. cbn [k_stale]. rewrite (upd_other _ _ _ _ Nq). exact (fun x => x).
        - intros _. exists (mkrdd lst [] None). rewrite upd_same. split; [reflexivity|]. split; reflexivity. }
      match type of G1 with good _ ?go ?Q _ => destruct (good_pds (born a (PRaw (map Elem lst))) (v_pds v p) CDelP go Q p1 eq_refl) as [p2 G2] end.
      * intros id Hid. cbn [born alive]. destruct (A5 p id Hid). rewrite upd_other by lia. assumption.
      * intros a' ->. exact G1.
      * exists (CPar (map Elem lst) :: p2). eapply g_call; [reflexivity|reflexivity|]. intros o' H. cbn in H. subst o'. exact G2.
    + cbn [S_Backend.safe] in Hs. destruct Hs as (Hp & Hf & Hs). specialize (A4 p Hp). destruct (v_pds v p) as [src|] eqn:Ep, (s_pds s p) as [r|] eqn:Er; try contradiction.
      2:{ exists []. apply g_end; [exists NameError; reflexivity|intros k (e & E); discriminate E]. }
      destruct A4 as [Rf Ra]. rewrite Rf. cbn [app]. cbn [s_pds s_self s_bds s_var]. rewrite upd_same. cbn [r_packed r_funcs]. rewrite <- A2. destruct (dumps (v_self v)) as [c|er] eqn:Ed.
      2:{ exists []. apply g_end; [exists er; reflexivity|intros k (e & E); discriminate E]. }
      set (e := v_env v). assert (Ej : job X St single (mkrdd (r_data r) [f] None) c (s_bds s) = job X St single (mkrdd (r_data r) [f] None) c e).
      { unfold job. cbn [r_funcs r_data]. erewrite mapR_ext; [reflexivity|]. intros l0. cbn beta. f_equal. apply forM_ext. intros x s0. rewrite !pipeline_one. apply Hf. intros b _. symmetry. apply A3. }
      rewrite Ej. pose proof (job_single f e c (r_data r)) as J.
      set (i := PRes (map (outcome f e c) (r_data r)) : pinfo pyv).
      set (v1 := mkv (v_var v) (upd (v_pds v) t (Some (S (anp a)))) (v_bds v) (v_self v)).
      assert (R1 : rel (mktr (k_of tp) (upd (k_stale tp) t true)) v1 (mks (s_var s) (upd (s_pds s) t (Some (mkrdd (r_data r) [f] None))) (s_bds s) (s_self s)) (buried (born a i) (v_pds v t))).
      { apply (rel_new tp _ v s _ a t _ R); cbn [s_var s_self s_bds s_pds k_stale]; try reflexivity.
        - intros q Nq. apply upd_other, Nq.
        - intros q Nq. rewrite (upd_other _ _ _ _ Nq). exact (fun x => x).
        - intros E. rewrite upd_same in E. discriminate E. }
      assert (G : forall Q : does -> Prop, (exists p1, good (buried (born a i) (v_pds v t)) (play v1 (Collect t o :: program X St l)) Q p1) -> exists p0, good a (fun ans => match ans with
          | [] => Calls (CMap (remote f (v_env v) c) src)
          | OPds id :: ans' => rebind (v_pds v t) CDelP ans' (play (mkv (v_var v) (upd (v_pds v) t (Some id)) (v_bds v) (v_self v)) (Collect t o :: program X St l))
          | _ => Broken end) Q p0).
      { intros Q [p1 G1]. destruct (good_pds (born a i) (v_pds v t) CDelP (play v1 (Collect t o :: program X St l)) Q p1 eq_refl) as [p2 G2].
        - intros id Hid. cbn [born alive]. destruct (A5 t id Hid). rewrite upd_other by lia. assumption.
        - intros a' ->. exact G1.
        - exists (CMap (remote f e c) src :: p2). eapply g_call; [reflexivity| |].
          + cbn [S_MPI.acmd]. rewrite Ra, results_remote. reflexivity.
          + intros o' H. cbn in H. subst o'. exact G2. }
      apply G. clear G.
      assert (Hid : apds (buried (born a i) (v_pds v t)) (S (anp a)) = Some i /\ alive (buried (born a i) (v_pds v t)) (S (anp a)) = true).
      { split; [destruct (v_pds v t); apply upd_same|]. apply (r_alive _ _ _ _ R1 t). apply upd_same. }
      destruct Hid as [Hi1 Hi2].
      destruct (job X St single (mkrdd (r_data r) [f] None) c e) as [ys|er].
      * edestruct (IH _ _ (mkv (upd (v_var v) o (Some ys)) (v_pds v1) (v_bds v) (v_self v))
          (mks (upd (s_var s) o (Some ys)) (upd (upd (s_pds s) t (Some (mkrdd (r_data r) [f] None))) t (Some (mkrdd (r_data r) [f] (Some (c, s_bds s))))) (s_bds s) (v_self v)) (buried (born a i) (v_pds v t)) Hs) as [p1 G1].
        { destruct R1 as [D1 D2 D3 D4 D5 D6 D7 D8]. constructor; cbn [v_var v_self v_bds v_pds s_var s_self s_bds s_pds]; try assumption; try reflexivity.
          - intros o'. destruct (Nat.eq_dec o' o) as [->|No]; [rewrite !upd_same; reflexivity|]. rewrite !(upd_other _ _ _ _ No). apply A1.
          - intros q Hq. cbn [k_stale reassigned] in Hq. destruct (Nat.eq_dec q t) as [->|Nq]; [rewrite upd_same in Hq; discriminate|]. rewrite (upd_other _ _ _ _ Nq) in Hq. rewrite (upd_other _ _ _ _ Nq). apply (D4 q). cbn [k_stale]. rewrite (upd_other _ _ _ _ Nq). exact Hq. }
        exists (CCollect (S (anp a)) :: p1). eapply g_call.
        { cbn [M_MPIDriver.play v_pds v1]. rewrite upd_same. reflexivity. }
        { cbn [S_MPI.acmd]. rewrite Hi1, Hi2. reflexivity. }
        intros o' H. cbn [S_MPI.allowed] in H. rewrite J in H. destruct H as [[_ ->]|(r0 & Hin & He & _)].
        -- cbn [M_MPIDriver.play v_pds v1]. rewrite upd_same. rewrite elems_Elem. exact G1.
        -- pose proof (no_exc ys) as F. rewrite Forall_forall in F. rewrite (F r0 Hin) in He. discriminate He.
      * exists [CCollect (S (anp a))]. eapply g_call.
        { cbn [M_MPIDriver.play v_pds v1]. rewrite upd_same. reflexivity. }
        { cbn [S_MPI.acmd]. rewrite Hi1, Hi2. reflexivity. }
        intros o' H. cbn [S_MPI.allowed] in H. apply g_end; [|intros k (e0 & E); discriminate E]. cbn [M_MPIDriver.play v_pds v1]. rewrite upd_same.
        destruct H as [[F ->]|(r0 & Hin & He & ->)].
        -- exfalso. destruct J as (er' & J). rewrite Forall_forall in F. specialize (F _ J). discriminate F.
        -- destruct r0 as [x0|l0|e0]; try discriminate He. exists e0. reflexivity.
    + rewrite <- A1. destruct (v_var v o) as [lst|] eqn:Eo.
      2:{ exists []. apply g_end; [exists NameError; reflexivity|intros k (e & E); discriminate E]. }
      cbn [S_Backend.safe] in Hs.
      set (a1 := mkast (anp a) (S (anb a)) (apds a) (alive a) (upd (abds a) (S (anb a)) (Some (Lst lst)))).
      set (a2 := match option_map fst (v_bds v b) with None => a1 | Some id => mkast (anp a1) (anb a1) (apds a1) (alive a1) (upd (abds a1) id None) end).
      assert (B1 : apds a2 = apds a /\ alive a2 = alive a /\ anp a2 = anp a /\ anb a2 = S (anb a)) by (unfold a2; destruct (option_map fst (v_bds v b)); cbn; auto).
      destruct B1 as (B1 & B2 & B3 & B4).
      destruct (IH _ _ (mkv (v_var v) (v_pds v) (upd (v_bds v) b (Some (S (anb a), lst))) (v_self v)) (mks (s_var s) (s_pds s) (upd (s_bds s) b (Some lst)) (s_self s)) a2 Hs) as [p1 G1].
      { constructor; cbn [v_var v_self v_bds v_pds s_var s_self s_bds s_pds]; rewrite ?B1, ?B2, ?B3, ?B4; try assumption.
        - intros b'. unfold v_env. cbn [v_bds]. destruct (Nat.eq_dec b' b) as [->|Nb]; [rewrite !upd_same; reflexivity|]. rewrite !(upd_other _ _ _ _ Nb). apply A3.
        - intros b' id l0 H. destruct (Nat.eq_dec b' b) as [->|Nb].
          + rewrite upd_same in H. injection H as <- <-. split; [|lia]. unfold a2. destruct (v_bds v b) as [[old lo]|] eqn:E; cbn [option_map fst a1 abds]; [|apply upd_same]. destruct (A7 b old lo E). rewrite upd_other by lia. apply upd_same.
          + rewrite (upd_other _ _ _ _ Nb) in H. destruct (A7 b' id l0 H) as [F1 F2]. split; [|lia]. unfold a2. destruct (v_bds v b) as [[old lo]|] eqn:E; cbn [option_map fst a1 abds].
            * rewrite upd_other; [rewrite upd_other by lia; exact F1|]. intros ->. apply Nb. exact (A8 b' b old l0 lo H E).
            * rewrite upd_other by lia. exact F1.
        - intros b1 b2 id l1 l2 H1 H2. destruct (Nat.eq_dec b1 b) as [->|N1], (Nat.eq_dec b2 b) as [->|N2]; rewrite ?upd_same, ?(upd_other _ _ _ _ N1), ?(upd_other _ _ _ _ N2) in *.
          + reflexivity.
          + injection H1 as <- <-. destruct (A7 b2 _ _ H2). lia.
          + injection H2 as <- <-. destruct (A7 b1 _ _ H1). lia.
          + exact (A8 b1 b2 id l1 l2 H1 H2). }
      match type of G1 with good _ ?go ?Q _ => destruct (good_bds a1 (option_map fst (v_bds v b)) CDelB go Q p1 eq_refl) as [p2 G2] end.
      * intros id Hid. destruct (v_bds v b) as [[old lo]|] eqn:E; [|discriminate]. cbn [option_map fst] in Hid. injection Hid as <-. destruct (A7 b old lo E) as [F1 F2]. exists (Lst lo). cbn [a1 abds]. rewrite upd_other by lia. exact F1.
      * intros a' ->. exact G1.
      * exists (CBcast (Lst lst) :: p2). eapply g_call; [reflexivity|reflexivity|]. intros o' H. cbn in H. subst o'. exact G2.
    + rewrite <- A1. destruct (v_var v o) as [lst|] eqn:Eo.
      2:{ exists []. apply g_end; [exists NameError; reflexivity|intros k0 (e & E); discriminate E]. }
      destruct (set_nth X k x lst) as [lst'|] eqn:El.
      2:{ exists []. apply g_end; [exists IndexError; reflexivity|intros k0 (e & E); discriminate E]. }
      cbn [S_Backend.safe] in Hs. apply (IH _ _ _ _ a Hs). constructor; cbn [v_var v_self v_bds v_pds s_var s_self s_bds s_pds]; try assumption.
      * intros o'. destruct (Nat.eq_dec o' o) as [->|No]; [rewrite !upd_same; reflexivity|]. rewrite !(upd_other _ _ _ _ No). apply A1.
      * intros q Hq. apply A4. cbn [changed k_stale] in Hq. apply orb_false_iff in Hq. exact (proj1 Hq).
    + cbn [S_Backend.safe] in Hs. apply (IH _ _ _ _ a Hs). constructor; cbn [v_var v_self v_bds v_pds s_var s_self s_bds s_pds]; try assumption. rewrite A2. reflexivity.
Qed.

(** ** The driver that reacts to answers against the program of all its calls *)
Variable N : nat.
Hypothesis HN : 0 < N.
Notation cfg := (M_MPI.cfg pyv).
Notation step := (M_MPI.step (V := pyv) isexc rewrap N).
Notation steps := (M_MPI.steps (V := pyv) isexc rewrap N).
Notation over := (S_MPI.over (V := pyv) isexc rewrap N).
Notation rstep := (rstep (X := X) (St := St) dumps N).
Notation rsteps := (rsteps (X := X) (St := St) dumps N).

Lemma wp_id (c : cfg) : with_prog c (prog c) = c.
Proof. destruct c; reflexivity. Qed.
Lemma wp_wp (c : cfg) (p q : list mcmd) : with_prog (with_prog c p) q = with_prog c q.
Proof. reflexivity. Qed.
(** all steps but the next call of the program *)
Definition inner (c c' : cfg) : Prop :=
  (exists a b r pid, rq c = a ++ (r, pid) :: b /\ serve c r pid (a ++ b) = Some c') \/ map_end N c = Some c' \/ gather_end isexc N c = Some c'
  \/ (exists i, i < N /\ (ltake c i = Some c' \/ lask c i = Some c' \/ lrecv rewrap c i = Some c')).
Lemma step_cases c c' : step c c' <-> issue c = Some c' \/ inner c c'.
Proof.
  split.
  - intros H. inversion H; subst.
    + left. assumption.
    + right. left. eexists _, _, _, _. split; eassumption.
    + right. right. left. assumption.
    + right. right. right. left. assumption.
    + right. right. right. right. exists i. split; [assumption|]. left. assumption.
    + right. right. right. right. exists i. split; [assumption|]. right. left. assumption.
    + right. right. right. right. exists i. split; [assumption|]. right. right. assumption.
  - intros [H|[(a & b & r & pid & H1 & H2)|[H|[H|(i & Hi & [H|[H|H]])]]]].
    + apply M_MPI.st_issue, H.
    + exact (M_MPI.st_serve _ _ _ _ _ _ _ _ _ _ H1 H2).
    + apply M_MPI.st_map_end, H.
    + apply M_MPI.st_gather, H.
    + exact (M_MPI.st_take _ _ _ _ _ _ i Hi H).
    + exact (M_MPI.st_ask _ _ _ _ _ _ i Hi H).
    + exact (M_MPI.st_recv _ _ _ _ _ _ i Hi H).
Qed.
Lemma inner_prog (c : cfg) c' q : inner c c' -> inner (with_prog c q) (with_prog c' q) /\ prog c' = prog c.
Proof.
  intros [(a & b & r & pid & H1 & H2)|[H|[H|(i & Hi & [H|[H|H]])]]].
  - split.
    + left. exists a, b, r, pid. split; [exact H1|]. unfold serve in *. cbn [with_prog sph]. destruct (sph c); try discriminate. destruct (pid =? src); [destruct (rev pend)|]; injection H2 as <-; reflexivity.
    + unfold serve in H2. destruct (sph c); try discriminate. destruct (pid =? src); [destruct (rev pend)|]; injection H2 as <-; reflexivity.
  - split.
    + right. left. unfold map_end in *. cbn [with_prog sph]. destruct (sph c); try discriminate. destruct (forallb done (seq 0 N)); [injection H as <-; reflexivity|discriminate].
    + unfold map_end in H. destruct (sph c); try discriminate. destruct (forallb done (seq 0 N)); [injection H as <-; reflexivity|discriminate].
  - split.
    + right. right. left. unfold gather_end in *. cbn [with_prog sph gq]. destruct (sph c); try discriminate. destruct (forallb _ (seq 0 N)); [injection H as <-; reflexivity|discriminate].
    + unfold gather_end in H. destruct (sph c); try discriminate. destruct (forallb _ (seq 0 N)); [injection H as <-; reflexivity|discriminate].
  - split.
    + right. right. right. exists i. split; [exact Hi|]. left. unfold ltake in *. cbn [with_prog lp cq lpds lbds]. destruct (lp c i); try discriminate. destruct (cq c i) as [|m q0]; [discriminate|]. injection H as <-. f_equal. destruct m; try reflexivity.
      * destruct (lpds c i id) as [[d|]|]; reflexivity.
      * destruct (lpds c i id); reflexivity.
      * destruct (lbds c i id); reflexivity.
    + unfold ltake in H. destruct (lp c i); try discriminate. destruct (cq c i) as [|m q0]; [discriminate|]. injection H as <-. destruct m; try reflexivity.
      * destruct (lpds c i id) as [[d|]|]; reflexivity.
      * destruct (lpds c i id); reflexivity.
      * destruct (lbds c i id); reflexivity.
  - split.
    + right. right. right. exists i. split; [exact Hi|]. right. left. unfold lask in *. cbn [with_prog lp]. destruct (lp c i); try discriminate. injection H as <-. reflexivity.
    + unfold lask in H. destruct (lp c i); try discriminate. injection H as <-. reflexivity.
  - split.
    + right. right. right. exists i. split; [exact Hi|]. right. right. unfold lrecv in *. cbn [with_prog lp dq]. destruct (lp c i); try discriminate. destruct (dq c i) as [|[[tag x]|] d]; try discriminate; injection H as <-; reflexivity.
    + unfold lrecv in H. destruct (lp c i); try discriminate. destruct (dq c i) as [|[[tag x]|] d]; try discriminate; injection H as <-; reflexivity.
Qed.
Lemma issue_prog (c : cfg) k p c' : issue (with_prog c [k]) = Some c' -> issue (with_prog c (k :: p)) = Some (with_prog c' p) /\ prog c' = [].
Proof.
  unfold issue. cbn [with_prog sph prog spds sbds npds nbds]. destruct (sph c); try discriminate. destruct k as [l|f src|id|v|id|id].
  - intros [= <-]. split; reflexivity.
  - destruct (spds c src); intros [= <-]; split; reflexivity.
  - intros [= <-]. split; reflexivity.
  - intros [= <-]. split; reflexivity.
  - intros [= <-]. split; reflexivity.
  - destruct (sbds c id); intros [= <-]; split; reflexivity.
Qed.
Lemma issue_back (c : cfg) k p x : issue (with_prog c (k :: p)) = Some x -> sph c = SNext /\ issue (with_prog c [k]) = Some (with_prog x []) /\ prog x = p.
Proof.
  unfold issue. cbn [with_prog sph prog spds sbds npds nbds]. destruct (sph c); try discriminate. destruct k as [l|f src|id|v|id|id].
  - intros [= <-]. split; [reflexivity|]. split; reflexivity.
  - destruct (spds c src); intros [= <-]; (split; [reflexivity|]; split; reflexivity).
  - intros [= <-]. split; [reflexivity|]. split; reflexivity.
  - intros [= <-]. split; [reflexivity|]. split; reflexivity.
  - intros [= <-]. split; [reflexivity|]. split; reflexivity.
  - destruct (sbds c id); intros [= <-]; (split; [reflexivity|]; split; reflexivity).
Qed.
(** every call is answered before the next one *)
Definition pending (c : cfg) : nat := match sph c with SNext => 0 | _ => 1 end.
Lemma counted p c : steps (init p) c -> length (outs c) + length (prog c) + pending c = length p.
Proof.
  remember (init p) as c0 eqn:E0. induction 1 as [c|c c1 c2 H1 IH H2]; [subst; cbn; lia|]. specialize (IH E0). rewrite <- IH. clear IH H1 E0. apply step_cases in H2. unfold pending.
  destruct H2 as [H|[(a & b & r & pid & H1 & H)|[H|[H|(i & Hi & [H|[H|H]])]]]].
  - unfold issue in H. destruct (sph c1); try discriminate. destruct (prog c1) as [|k p1] eqn:Ep; [discriminate|]. destruct k as [l|f src|id|v|id|id].
    + injection H as <-. cbn [outs prog sph length]. rewrite app_length. cbn [length]. lia.
    + destruct (spds c1 src); injection H as <-; cbn [outs prog sph length]; lia.
    + injection H as <-. cbn [outs prog sph length]. lia.
    + injection H as <-. cbn [outs prog sph length]. rewrite app_length. cbn [length]. lia.
    + injection H as <-. cbn [outs prog sph length]. rewrite app_length. cbn [length]. lia.
    + destruct (sbds c1 id); injection H as <-; cbn [outs prog sph length]; rewrite ?app_length; cbn [length]; lia.
  - unfold serve in H. destruct (sph c1) eqn:E; try discriminate. destruct (pid =? src); [destruct (rev pend)|]; injection H as <-; cbn [outs prog sph]; rewrite ?E; lia.
  - unfold map_end in H. destruct (sph c1) eqn:E; try discriminate. destruct (forallb done (seq 0 N)); [injection H as <-|discriminate]. cbn [outs prog sph]. rewrite app_length. cbn [length]. lia.
  - unfold gather_end in H. destruct (sph c1) eqn:E; try discriminate. destruct (forallb _ (seq 0 N)); [injection H as <-|discriminate]. cbn [outs prog sph]. rewrite app_length. cbn [length]. lia.
  - unfold ltake in H. destruct (lp c1 i); try discriminate. destruct (cq c1 i) as [|m q0]; [discriminate|]. injection H as <-. destruct m; try reflexivity.
    + destruct (lpds c1 i id) as [[d|]|]; reflexivity.
    + destruct (lpds c1 i id); reflexivity.
    + destruct (lbds c1 i id); reflexivity.
  - unfold lask in H. destruct (lp c1 i); try discriminate. injection H as <-. reflexivity.
  - unfold lrecv in H. destruct (lp c1 i); try discriminate. destruct (dq c1 i) as [|[[tag x]|] d]; try discriminate; injection H as <-; reflexivity.
Qed.

Section Play.
Variable v : drv.
Variable l : list (M_Spark.cmd X St).
Variable Q : does -> Prop.
Variable p : list mcmd.
Hypothesis G : good a0 (play v l) Q p.

Definition tracks (c : cfg) (rest : list mcmd) : Prop := prog c = [] /\ steps (init p) (with_prog c rest) /\ exists pre, p = pre ++ rest.
Lemma tracks_init : tracks (init []) p.
Proof. split; [reflexivity|]. split; [apply M_MPI.steps_refl|]. exists []. reflexivity. Qed.
(** between two calls, the driver makes the next call of the program, or there is none *)
Lemma next_call c rest : tracks c rest -> sph c = SNext -> match rest with [] => Q (play v l (outs c)) /\ forall k, play v l (outs c) <> Calls k | k :: _ => play v l (outs c) = Calls k end.
Proof.
  intros (Hp & Hs & (pre & Ep)) Hn. destruct (good_run _ _ _ _ G) as (a' & es & Ea & El & Epre & EQ & EC).
  destruct (C09_refinement pyv isexc rewrap N HN p a' es _ Ea Hs) as ((es1 & es2 & Ees & F) & _). cbn [with_prog outs] in F.
  pose proof (counted p _ Hs) as Ct. unfold pending in Ct. cbn [with_prog outs prog sph] in Ct. rewrite Hn in Ct.
  assert (L1 : length es1 = length (outs c)) by (clear - F; induction F; cbn [length]; congruence).
  assert (L2 : length es = length es1 + length es2) by (rewrite Ees, app_length; reflexivity).
  destruct rest as [|k rest].
  - destruct es2 as [|e es2]; [|cbn [length] in *; lia]. rewrite app_nil_r in Ees. subst es1. pose proof (EQ _ F) as HQ. split; [exact HQ|]. intros k Ek. rewrite Ek in HQ. exact (EC k HQ).
  - destruct es2 as [|e es2]; [cbn [length] in *; lia|]. destruct (Epre es1 e es2 (outs c) Ees F) as (k' & K1 & K2). rewrite K2. f_equal.
    rewrite Ep in K1. rewrite nth_error_app2 in K1; [|rewrite Ep, app_length in Ct; cbn [length] in *; lia]. replace (length es1 - length pre) with 0 in K1 by (rewrite Ep, app_length in Ct; cbn [length] in *; lia). cbn in K1. congruence.
Qed.
Lemma steps_one c c' : steps (init p) c -> step c c' -> steps (init p) c'.
Proof. intros H1 H2. exact (M_MPI.steps_step _ _ _ _ _ _ _ H1 H2). Qed.
Lemma forward c c' rest : tracks c rest -> rstep v l c c' -> exists rest', tracks c' rest' /\ step (with_prog c rest) (with_prog c' rest').
Proof.
  intros T H. pose proof T as (Hp & Hs & (pre & Ep)). destruct H as [c k c' Hn Hk Hi|c c' H].
  - pose proof (next_call c rest T Hn) as Nx. destruct rest as [|k' rest]; [exfalso; exact (proj2 Nx k Hk)|]. rewrite Nx in Hk. injection Hk as ->.
    destruct (issue_prog c k rest c' Hi) as [I1 I2]. assert (St1 : step (with_prog c (k :: rest)) (with_prog c' rest)) by (apply step_cases; left; exact I1).
    exists rest. split; [|exact St1]. split; [exact I2|]. split; [exact (steps_one _ _ Hs St1)|]. exists (pre ++ [k]). rewrite <- app_assoc. exact Ep.
  - apply step_cases in H. destruct H as [H|H].
    + unfold issue in H. rewrite Hp in H. destruct (sph c); discriminate.
    + destruct (inner_prog c c' rest H) as [I1 I2]. assert (St1 : step (with_prog c rest) (with_prog c' rest)) by (apply step_cases; right; exact I1).
      exists rest. split; [|exact St1]. split; [congruence|]. split; [exact (steps_one _ _ Hs St1)|]. exists pre. exact Ep.
Qed.
Lemma backward c x rest : tracks c rest -> step (with_prog c rest) x -> exists rest', rstep v l c (with_prog x []) /\ x = with_prog (with_prog x []) rest' /\ tracks (with_prog x []) rest'.
Proof.
  intros T H. pose proof T as (Hp & Hs & (pre & Ep)). pose proof (steps_one _ _ Hs H) as Hs'. apply step_cases in H. destruct H as [H|H].
  - destruct rest as [|k rest]; [unfold issue in H; cbn [with_prog sph prog] in H; destruct (sph c); discriminate|].
    destruct (issue_back c k rest x H) as (I1 & I2 & I3). pose proof (next_call c _ T I1) as Nx. cbn beta iota in Nx. exists rest.
    assert (Ex : x = with_prog (with_prog x []) rest) by (rewrite wp_wp, <- I3; symmetry; apply wp_id).
    split; [exact (r_call _ _ _ _ _ _ _ k _ I1 Nx I2)|]. split; [exact Ex|]. split; [reflexivity|]. split; [rewrite <- Ex; exact Hs'|]. exists (pre ++ [k]). rewrite <- app_assoc. exact Ep.
  - destruct (inner_prog _ _ [] H) as [I1 I2]. rewrite wp_wp in I1. cbn [with_prog prog] in I2. assert (E1 : with_prog c [] = c) by (rewrite <- Hp; apply wp_id). rewrite E1 in I1.
    assert (Ex : x = with_prog (with_prog x []) rest) by (rewrite wp_wp, <- I2; symmetry; apply wp_id).
    exists rest. split; [apply r_other, step_cases; right; exact I1|]. split; [exact Ex|]. split; [reflexivity|]. split; [rewrite <- Ex; exact Hs'|]. exists pre. exact Ep.
Qed.
Lemma reach c : rsteps v l (init []) c -> exists rest, tracks c rest.
Proof.
  remember (init []) as c0 eqn:E0. induction 1 as [c|c c1 c2 H1 IH H2]; [subst; exists p; apply tracks_init|]. destruct (IH E0) as (rest & T). destruct (forward _ _ _ T H2) as (rest' & T' & _). exists rest'. exact T'.
Qed.
Lemma quiet_end c : rsteps v l (init []) c -> quiet dumps N v l c -> Q (play v l (outs c)).
Proof.
  intros H Hq. destruct (reach c H) as (rest & T). pose proof T as (Hp & Hs & _).
  assert (Ho : over (with_prog c rest)). { intros x Hx. destruct (backward c x rest T Hx) as (rest' & R' & _ & _). exact (Hq _ R'). }
  destruct (good_run _ _ _ _ G) as (a' & es & Ea & El & Epre & EQ & EC). destruct (C09_refinement pyv isexc rewrap N HN p a' es _ Ea Hs) as (_ & _ & _ & _ & Hend). destruct (Hend Ho) as (_ & _ & F & _). exact (EQ _ F).
Qed.
Lemma alive_all c : rsteps v l (init []) c -> sph c <> SDead /\ forall i, i < N -> lp c i <> LDead.
Proof.
  intros H. destruct (reach c H) as (rest & T). destruct T as (Hp & Hs & _). destruct (good_run _ _ _ _ G) as (a' & es & Ea & _). destruct (C09_refinement pyv isexc rewrap N HN p a' es _ Ea Hs) as (_ & _ & H3 & H4 & _). split; [exact H3|exact H4].
Qed.
Lemma no_infinite : Acc (fun y x => rstep v l x y) (init []).
Proof.
  destruct (good_run _ _ _ _ G) as (a' & es & Ea & _). destruct (C09_terminates pyv isexc rewrap N HN p a' es Ea) as [A _].
  enough (K : forall x, Acc (fun y x => step x y) x -> forall c rest, x = with_prog c rest -> tracks c rest -> Acc (fun y x => rstep v l x y) c) by (apply (K (init p) A (init []) p); [reflexivity|apply tracks_init]).
  clear A. induction 1 as [x _ IH]. intros c rest -> T. constructor. intros c' Hc. destruct (forward c c' rest T Hc) as (rest' & T' & Hst). exact (IH _ Hst c' rest' eq_refl T').
Qed.
Lemma rtrans c c1 c2 : rsteps v l c c1 -> rsteps v l c1 c2 -> rsteps v l c c2.
Proof. intros H1 H2. induction H2 as [c2|c1 c2 c3 H2 IH H3]; [exact H1|]. apply (rs_step _ _ _ _ _ _ _ c2); [exact (IH H1)|exact H3]. Qed.
Lemma can_end c : rsteps v l (init []) c -> exists c', rsteps v l c c' /\ quiet dumps N v l c'.
Proof.
  intros H. destruct (reach c H) as (rest & T). pose proof T as (Hp & Hs & _). destruct (good_run _ _ _ _ G) as (a' & es & Ea & _). destruct (C09_terminates pyv isexc rewrap N HN p a' es Ea) as [_ E]. destruct (E _ Hs) as (x & Hx & Ho).
  assert (K : forall y z, steps y z -> forall c0 rest0, y = with_prog c0 rest0 -> tracks c0 rest0 -> exists c1 rest1, z = with_prog c1 rest1 /\ tracks c1 rest1 /\ rsteps v l c0 c1).
  { clear - HN G. induction 1 as [y|y z w Hyz IH Hzw]; intros c0 rest0 E0 T0; [exists c0, rest0; split; [exact E0|]; split; [exact T0|apply rs_refl]|].
    destruct (IH c0 rest0 E0 T0) as (c1 & rest1 & -> & T1 & R1). destruct (backward c1 w rest1 T1 Hzw) as (rest2 & R2 & E2 & T2). exists (with_prog w []), rest2. split; [exact E2|]. split; [exact T2|]. exact (rs_step _ _ _ _ _ _ _ _ _ R1 R2). }
  destruct (K _ _ Hx c rest eq_refl T) as (c1 & rest1 & -> & T1 & R1). exists c1. split; [exact R1|]. intros c2 Hc2. destruct (forward c1 c2 rest1 T1 Hc2) as (rest2 & _ & Hst). exact (Ho _ Hst).
Qed.
End Play.
End Driver.
