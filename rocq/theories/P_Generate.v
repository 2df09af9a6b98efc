(** C44: simulations generated from a journal; C59: a simulation uses the parameters just set. *)
From Coq Require Import Permutation.
From Verif Require Import M_Base M_Num M_Graph S_Graph L_Graph L_Graph2 L_Graph4 M_GraphEx M_Journal L_Journal2 M_Infer M_Generate.
Open Scope nat_scope.

(** What the observed models, none of which is an arithmetic node, simulate when the nodes hold the values v and the generator is in state c: one entry per model, each from its
    own inputs; nothing if a model refuses its inputs. *)
Fixpoint simulated (g : graph) (v : nat -> option (list Q)) (k : nat) (rs : list nat) (c : nat) : option (list (option (list (list Q)))) :=
  match rs with
  | [] => Some []
  | r :: rs' => if gchk_in g r (inputs_at g v r)
                then match simulated g v k rs' (S c) with Some l => Some (gsim g r (inputs_at g v r) k c :: l) | None => None end
                else None
  end.
(** no arithmetic node among the observed models and their inputs *)
Definition plain (g : graph) (roots : list nat) : Prop := forall r, In r roots -> is_free g r = true /\ forall p, In p (gpar g r) -> is_oper g p = false.
Definition same_fixed (g : graph) (v v' : nat -> option (list Q)) : Prop := forall n, is_hyper g n = true -> v n = v' n.

Lemma simulated_ext g v v' k rs : (forall r p, In r rs -> In p (gpar g r) -> v p = v' p) -> forall c, simulated g v k rs c = simulated g v' k rs c.
Proof.
  induction rs as [|r rs IH]; intros H c; [reflexivity|]. cbn [simulated]. rewrite (inputs_at_ext g v v' r) by (intros p Hp; apply (H r p); [now left | exact Hp]). rewrite IH by (intros r' p Hr; apply H; now right). reflexivity.
Qed.
Lemma simulate_spec g (Hwf : wf g) fuel rs k s : vals_ok g s -> (forall r, In r rs -> is_free g r = true) ->
  exists s', simulate g (S fuel) rs k s = (s', Ok (simulated g (val s) k rs (ctr s))) /\ val s' = val s /\ vis s' = vis s.
Proof.
  revert s. induction rs as [|r rs IH]; intros s Hok Hf; [exists s; split; [reflexivity | split; reflexivity]|].
  cbn [simulate simulated]. unfold bind at 1. rewrite (input_values_ok g Hwf s r Hok). destruct (gchk_in g r (inputs_at g (val s) r)); [|exists s; split; [reflexivity | split; reflexivity]].
  pose proof (Hf r (or_introl eq_refl)) as Hr. unfold is_free, is_hyper, is_oper in Hr.
  set (s1 := mkst (vis s) (val s) (cpdf s) (S (ctr s)) (tr s)).
  assert (E : fsim g (S fuel) r k s = (s1, Ok (gsim g r (inputs_at g (val s) r) k (ctr s)))).
  { cbn [fsim]. destruct (gkind g r); try discriminate; unfold bind; rewrite (input_values_ok g Hwf s r Hok); reflexivity. }
  unfold bind. rewrite E. destruct (IH s1) as (s' & E' & Hv & Hs); [exact Hok | intros r' Hr'; apply Hf; now right|]. rewrite E'. change (val s1) with (val s). change (ctr s1) with (S (ctr s)).
  exists s'. split; [destruct (simulated g (val s) k rs (S (ctr s))); reflexivity|]. split; assumption.
Qed.
Lemma assign_same o : forall params v v' m, In m o -> length o <= length params -> assign o params v m = assign o params v' m.
Proof.
  induction o as [|n o IH]; intros params v v' m H Hl; [destruct H|]. destruct params as [|x params]; cbn in Hl; [lia|]. cbn [assign]. destruct (in_dec Nat.eq_dec m o) as [Hm|Hm].
  - apply IH; [exact Hm | lia].
  - rewrite !assign_notin by exact Hm. destruct H as [->|H]; [|contradiction]. unfold upd. now rewrite Nat.eqb_refl.
Qed.
Lemma after_set g roots params v v' : wf g -> plain g roots -> same_fixed g v v' -> length (order g roots) <= length params -> (forall n, In n (order g roots) <-> is_free g n = true /\ exists r, In r roots /\ Anc g n r) ->
  forall r p, In r roots -> In p (gpar g r) -> assign (order g roots) params v p = assign (order g roots) params v' p.
Proof.
  intros Hwf Hpl Hs Hl Ho r p Hr Hp. destruct (is_hyper g p) eqn:Eh.
  - rewrite !assign_notin; [now apply Hs| |]; intros H; apply Ho in H; destruct H as (H & _); unfold is_free in H; rewrite Eh in H; discriminate.
  - apply assign_same; [|exact Hl]. apply Ho. split; [unfold is_free; rewrite Eh; now rewrite (proj2 (Hpl r Hr) p Hp)|]. exists r. split; [exact Hr | now apply anc_par].
Qed.

(** C59.  With no arithmetic node among the inputs of the observed models, two graphs with the same fixed numbers that accept the same parameters simulate the same data
    from the same generator, whatever they held before. *)
Theorem C59_simulation_of_parameters :
  forall g, wf g -> forall roots params c k s1 s2 t1 t2 n1 n2,
  indep g roots -> plain g roots -> (forall r, In r roots -> is_hyper g r = false) ->
  clean g roots s1 -> clean g roots s2 -> vals_ok g s1 -> vals_ok g s2 -> same_fixed g (val s1) (val s2) ->
  set_parameters g roots params s1 = (t1, Ok (true, n1)) -> set_parameters g roots params s2 = (t2, Ok (true, n2)) ->
  snd (bind (set_ctr c) (fun _ => simulate g (depth roots) roots k) t1) = snd (bind (set_ctr c) (fun _ => simulate g (depth roots) roots k) t2).
Proof.
  intros g Hwf roots params c k s1 s2 t1 t2 n1 n2 Hi Hpl Hh Hc1 Hc2 Ho1 Ho2 Hs H1 H2.
  destruct (order_agreement g Hwf roots s1 Hi Hh Hc1) as (o & Ou & _ & Om & _). assert (Eo : order g roots = o) by (apply Ou; apply (ParamOrder_order g Hwf); reflexivity). subst o.
  destruct (set_parameters_true g Hwf roots params s1 t1 n1 Hi Hc1 H1) as (A1 & B1 & V1 & _ & _ & O1). destruct (set_parameters_true g Hwf roots params s2 t2 n2 Hi Hc2 H2) as (A2 & B2 & V2 & _ & _ & O2).
  unfold bind, set_ctr, depth. set (u1 := mkst (vis t1) (val t1) (cpdf t1) c (tr t1)). set (u2 := mkst (vis t2) (val t2) (cpdf t2) c (tr t2)).
  destruct (simulate_spec g Hwf (list_max roots) roots k u1 (O1 Ho1) (fun r Hr => proj1 (Hpl r Hr))) as (x1 & E1 & _). destruct (simulate_spec g Hwf (list_max roots) roots k u2 (O2 Ho2) (fun r Hr => proj1 (Hpl r Hr))) as (x2 & E2 & _).
  rewrite E1, E2. cbn [snd]. f_equal. change (val u1) with (val t1). change (val u2) with (val t2). change (ctr u1) with c. change (ctr u2) with c.
  apply simulated_ext. intros r p Hr Hp. rewrite V1, V2. refine (after_set g roots params (val s1) (val s2) Hwf Hpl Hs _ Om r p Hr Hp). lia.
Qed.
Print Assumptions C59_simulation_of_parameters.
(** An arithmetic node keeps the value it had: after X = 2 and Y = 6 are set, the model whose inputs are Y and X + Y is simulated at 6 and 12. *)
Theorem C59_operation_stale_refuted :
  exists g roots params s t n, wf g /\ indep g roots /\ clean g roots s /\ vals_ok g s
    /\ set_parameters g roots params s = (t, Ok (true, n))
    /\ gkind g 4 = Oper /\ gop g 4 = OSum /\ gpar g 4 = [2; 3] /\ In 4 (gpar g 5) /\ roots = [5]
    /\ val t 2 = Some [2%Q] /\ val t 3 = Some [6%Q] /\ val t 4 = Some [12%Q]
    /\ forall k c, snd (bind (set_ctr c) (fun _ => simulate g (depth roots) roots k) t) = Ok (Some [gsim g 5 [Some 6; Some 12]%Q k c]).
Proof.
  exists g1, [5], [[6]; [2]]%Q, s1. eexists _, _.
  split; [apply mkgraph_wf; reflexivity|]. split; [apply indep_single, mkgraph_wf; reflexivity|]. split; [apply st0_clean|]. split; [apply st0_vals_ok; reflexivity|].
  split; [vm_compute; reflexivity|]. do 3 (split; [reflexivity|]). split; [vm_compute; auto|]. do 4 (split; [reflexivity|]). intros k c. reflexivity.
Qed.
Print Assumptions C59_operation_stale_refuted.
(** Two children of the numbers 0 and 10 without arithmetic: hypotheses of C59 met. *)
Definition g6 : graph := mkgraph [hy; hy; un 0 1; un 0 1; un 2 3].
Definition s6 : st := st0 [Some [0]; Some [10]; Some [1]; Some [2]; None]%Q.
Lemma plain6 : plain g6 [4].
Proof. intros r [<-|[]]. split; [reflexivity|]. intros p [<-|[<-|[]]]; reflexivity. Qed.
Example C59_case : wf g6 /\ indep g6 [4] /\ plain g6 [4] /\ clean g6 [4] s6 /\ vals_ok g6 s6
  /\ (exists t, set_parameters g6 [4] [[3]; [7]]%Q s6 = (t, Ok (true, 2)) /\ snd (bind (set_ctr 9) (fun _ => simulate g6 (depth [4]) [4] 1) t) = Ok (Some [gsim g6 4 [Some 3; Some 7]%Q 1 9])).
Proof.
  split; [apply mkgraph_wf; reflexivity|]. split; [apply indep_single, mkgraph_wf; reflexivity|]. split; [apply plain6|]. split; [apply st0_clean|]. split; [apply st0_vals_ok; reflexivity|].
  eexists. split; [vm_compute; reflexivity | reflexivity].
Qed.

(** ** C44 *)
(** every graph with these fixed numbers accepts the parameters, whatever else it holds *)
Definition acceptable (g : graph) (roots : list nat) (base : nat -> option (list Q)) (theta : list (list Q)) : Prop :=
  forall s, clean g roots s -> vals_ok g s -> same_fixed g (val s) base -> exists t k, set_parameters g roots theta s = (t, Ok (true, k)).
(** Sufficient: right shape, and each value is accepted by its model whatever the free nodes hold. *)
Theorem C44_acceptable :
  forall g, wf g -> forall roots base theta o, indep g roots -> ParamOrder g roots o ->
  Forall2 (fun n v => length v = gdim g n /\ forall held, same_fixed g held base -> gchk_out g n (inputs_at g held n) v = true) o theta -> acceptable g roots base theta.
Proof.
  intros g Hwf roots base theta o Hi Ho HF s Hc Hok Hs.
  destruct (set_outcome g Hwf roots theta s o Hi Hc Hok Ho) as (b & j & s' & E & _ & _ & Hj & _ & Hn' & Hb).
  { revert HF. clear. intros H. induction H as [|n v o th (A & _) _ IH]; constructor; assumption. }
  destruct b; [exists s', j; exact E|]. exfalso. destruct Hb as (n & v & Hn & Hv & Hchk).
  assert (G : forall i n v, nth_error o i = Some n -> nth_error theta i = Some v -> forall held, same_fixed g held base -> gchk_out g n (inputs_at g held n) v = true).
  { revert HF. clear. intros H. induction H as [|n v o th (_ & B) _ IH]; intros [|i] n' v' H1 H2; try discriminate; [|now apply (IH i)]. cbn in H1, H2. injection H1 as <-. injection H2 as <-. exact B. }
  rewrite (G j n v Hn Hv) in Hchk; [discriminate|]. intros m Hm. rewrite Hn'; [now apply Hs|]. intros H. apply (ParamOrder_order g Hwf) in Ho. subst o. apply (order_In g Hwf) in H. destruct H as (H & _). unfold is_free in H. rewrite Hm in H. discriminate.
Qed.
Print Assumptions C44_acceptable.

Definition good (g : graph) (roots : list nat) (base : nat -> option (list Q)) (s : st) : Prop := clean g roots s /\ vals_ok g s /\ same_fixed g (val s) base.
Lemma find_In {A} (l : list (nat * res A)) i : NoDup (map fst l) -> forall r, In (i, r) l -> find_result l i = r.
Proof.
  induction l as [|[j q] l IH]; intros Hnd r Hin; [destruct Hin|]. cbn [map fst] in Hnd. inversion Hnd as [|? ? Hj Hnd']; subst. cbn [find_result]. destruct Hin as [Hin|Hin].
  - inversion Hin; subst. now rewrite Nat.eqb_refl.
  - destruct (Nat.eqb_spec j i) as [->|_]; [exfalso; apply Hj; apply (in_map fst) in Hin; exact Hin | now apply IH].
Qed.
Lemma execute_fst {A} (task : nat -> M st A) sched : forall ws, map fst (execute task sched ws) = map snd sched.
Proof. induction sched as [|[w i] sched IH]; intros ws; [reflexivity|]. cbn [execute]. destruct (task i (ws w)) as [s' r]. cbn [map fst snd]. now rewrite IH. Qed.
Lemma execute_In {A} (task : nat -> M st A) (P : st -> Prop) (Q : nat -> res A -> Prop) sched :
  (forall i s, In i (map snd sched) -> P s -> P (fst (task i s)) /\ Q i (snd (task i s))) ->
  forall ws, (forall w, P (ws w)) -> forall i, In i (map snd sched) -> exists r, In (i, r) (execute task sched ws) /\ Q i r.
Proof.
  induction sched as [|[w j] sched IH]; intros H ws Hws i Hi; [destruct Hi|]. cbn [execute]. destruct (H j (ws w) (or_introl eq_refl) (Hws w)) as (HP & HQ). destruct (task j (ws w)) as [s' r] eqn:E. cbn [fst snd] in *. cbn [map snd] in Hi. destruct Hi as [<-|Hi].
  - exists r. split; [now left | exact HQ].
  - destruct (IH (fun i' s Hi' => H i' s (or_intror Hi')) (upd ws w s')) with (i := i) as (r' & A1 & A2); [|exact Hi|exists r'; split; [now right | exact A2]].
    intros w'. unfold upd. destruct (w' =? w); [exact HP | apply Hws].
Qed.
Lemma sample_parameter_spec g roots big k discard acc c i theta base s : wf g -> indep g roots -> plain g roots -> (forall r, In r roots -> is_hyper g r = false) ->
  good g roots base s -> nth_error acc i = Some theta -> acceptable g roots base theta ->
  good g roots base (fst (sample_parameter g roots big k discard acc c i s))
  /\ snd (sample_parameter g roots big k discard acc c i s) =
     let y := simulated g (assign (order g roots) theta base) k roots c in if discard && big y then Err AttributeError else Ok y.
Proof.
  intros Hwf Hi Hpl Hh (Hc & Hok & Hs) Ht Ha. unfold sample_parameter. rewrite Ht. destruct (Ha s Hc Hok Hs) as (t & n & E). unfold bind at 1 4. rewrite E.
  destruct (set_parameters_true g Hwf roots theta s t n Hi Hc E) as (A & B & V & C & _ & O). unfold bind at 1 3, set_ctr. set (u := mkst (vis t) (val t) (cpdf t) c (tr t)).
  destruct (simulate_spec g Hwf (list_max roots) roots k u (O Hok) (fun r Hr => proj1 (Hpl r Hr))) as (x & Ex & Vx & Sx). unfold bind, depth. rewrite Ex.
  destruct (order_agreement g Hwf roots s Hi Hh Hc) as (o & Ou & _ & Om & _). assert (Eo : order g roots = o) by (apply Ou; apply (ParamOrder_order g Hwf); reflexivity). subst o.
  assert (Es : simulated g (val u) k roots (ctr u) = simulated g (assign (order g roots) theta base) k roots c).
  { change (ctr u) with c. apply simulated_ext. intros r p Hr Hp. change (val u) with (val t). rewrite V. refine (after_set g roots theta (val s) base Hwf Hpl Hs _ Om r p Hr Hp). lia. }
  assert (G : good g roots base x).
  { split; [intros r m Hr Hm; rewrite Sx; change (vis u) with (vis t); now apply (C r m)|]. split; [intros m v; rewrite Vx; apply (O Hok)|].
    intros m Hm. rewrite Vx. change (val u) with (val t). rewrite V, assign_notin; [now apply Hs|]. intros H. apply Om in H. destruct H as (H & _). unfold is_free in H. rewrite Hm in H. discriminate. }
  rewrite Es. cbv zeta. destruct (discard && big (simulated g (assign (order g roots) theta base) k roots c)); split; auto.
Qed.
Lemma F2_seq {A} (R : nat -> A -> Prop) l : forall a n, Forall2 R (seq a n) l -> forall i y, nth_error l i = Some y -> R (a + i) y.
Proof.
  induction l as [|x l IH]; intros a n H [|i] y E; try discriminate; (destruct n; [inversion H|]); cbn [seq] in H; inversion H; subst.
  - injection E as <-. now rewrite Nat.add_0_r.
  - replace (a + S i) with (S a + i) by lia. now apply (IH (S a) n).
Qed.
Lemma F2_len' {A B} (R : A -> B -> Prop) l l' : Forall2 R l l' -> length l = length l'. Proof. intros H. induction H; cbn; congruence. Qed.

(** For every journal, schedule and assignment of tasks to workers: position i holds the i-th stored parameters, data simulated with the graph set to them from the
    generator of task i, and the i-th weight divided by the sum of the weights. *)
Theorem C44_aligned :
  forall g, wf g -> forall r big, let roots := [r] in
  indep g roots -> plain g roots -> forall o, ParamOrder g roots o ->
  forall Name (Cl : Type) S C D (cleqb : Cl -> Cl -> bool) tm names (j : journal Name (list Q) S C D) it k discard start sched ws base ps sims wn acc w,
  (forall x, good g roots base (ws x)) -> get_accepted_parameters j it = Ok acc -> get_weights j it = Ok w ->
  Permutation (map snd sched) (seq 0 (length (wvals w))) ->
  (forall theta, In theta acc -> acceptable g roots base theta) ->
  generate g roots big cleqb tm names j it k discard start sched ws = Ok (ps, sims, wn) ->
  length sims = length (wvals w) /\ length wn = length (wvals w) /\ ps = map (@concat Q) acc /\ length (wvals w) <= length acc
  /\ forall i, i < length (wvals w) -> exists theta x rows,
       nth_error acc i = Some theta /\ nth_error ps i = Some (concat theta) /\ (forall v, In v theta -> length v = 1)
       /\ nth_error (wvals w) i = Some x /\ nth_error wn i = Some (ndiv (Fin x) (Fin (qsum (wvals w))))
       /\ gsim g r (inputs_at g (assign o theta base) r) k (start i) = Some rows /\ nth_error sims i = Some rows.
Proof.
  intros g Hwf r big roots Hi Hpl o Ho Name Cl Sx C D cleqb tm names j it k discard start sched ws base ps sims wn acc w Hws Ha Hw Hp Hacc E.
  assert (Hh : forall r, In r roots -> is_hyper g r = false). { intros r' Hr. pose proof (proj1 (Hpl r' Hr)) as H. unfold is_free in H. destruct (is_hyper g r'); [discriminate | reflexivity]. }
  apply (ParamOrder_order g Hwf) in Ho. subst o.
  unfold generate in E. destruct tm as [tm|]; [|discriminate]. destruct (negb (cleqb tm names)); [discriminate|]. rewrite Ha, Hw in E. cbv zeta in E. rewrite map_length in E.
  set (task := fun i => sample_parameter g roots big k discard acc (start i) i) in *.
  destruct (collect (execute task sched ws) (length (wvals w))) as [ys|e] eqn:Ey; [|discriminate]. destruct (params_array acc) as [ps'|e] eqn:Ep; [|discriminate]. destruct (sims_array ys) as [sims'|e] eqn:Es; [|discriminate]. injection E as -> -> <-.
  unfold collect in Ey. apply mapR_Ok in Ey. pose proof (F2_len' _ _ _ Ey) as Ly. rewrite seq_length in Ly.
  assert (Hys : forall i y, nth_error ys i = Some y -> exists theta, nth_error acc i = Some theta /\ y = simulated g (assign (order g roots) theta base) k roots (start i)).
  { intros i y Hy. pose proof (F2_seq _ _ 0 _ Ey i y Hy) as Hf. cbn [Nat.add] in Hf.
    assert (Hin : In i (map snd sched)). { apply (Permutation_in _ (Permutation_sym Hp)). apply in_seq. assert (i < length ys) by (apply nth_error_Some; congruence). lia. }
    destruct (execute_In task (good g roots base) (fun i r => forall y, r = Ok y -> exists theta, nth_error acc i = Some theta /\ y = simulated g (assign (order g roots) theta base) k roots (start i)) sched) with (ws := ws) (i := i) as (q & Hq & HQ); [|exact Hws|exact Hin|].
    - intros i' s _ Hg. unfold task. destruct (nth_error acc i') as [theta|] eqn:Et.
      + destruct (sample_parameter_spec g roots big k discard acc (start i') i' theta base s Hwf Hi Hpl Hh Hg Et (Hacc theta (nth_error_In _ _ Et))) as (G1 & G2). split; [exact G1|]. intros y' Hy'. exists theta. split; [reflexivity|]. rewrite G2 in Hy'. cbv zeta in Hy'. destruct (discard && big _); congruence.
      + unfold sample_parameter. rewrite Et. split; [exact Hg|]. cbn. discriminate.
    - rewrite (find_In (execute task sched ws) i) with (r := q) in Hf; [now apply HQ | | exact Hq]. rewrite execute_fst. apply (Permutation_NoDup (Permutation_sym Hp)), seq_NoDup. }
  unfold params_array in Ep. assert (Ea : ps = map (@concat Q) acc /\ forall row, In row acc -> forall v, In v row -> length v = 1).
  { destruct acc as [|row0 acc']; [discriminate|]. destruct (forallb _ (row0 :: acc')) eqn:Ef; [|discriminate]. split; [congruence|]. intros row Hrow v Hv. rewrite forallb_forall in Ef. specialize (Ef row Hrow). apply andb_true_iff in Ef. destruct Ef as (_ & Ef). rewrite forallb_forall in Ef. apply Nat.eqb_eq, (Ef v Hv). }
  destruct Ea as (Ea & Hone).
  unfold sims_array in Es. destruct (mapR one_model ys) as [l|e] eqn:El; [|discriminate]. assert (Esl : sims = l) by (destruct l; [discriminate|]; destruct (forallb _ (l :: l0)); congruence). subst l.
  apply mapR_Ok in El. pose proof (F2_len' _ _ _ El) as Ll.
  assert (Hle : length (wvals w) <= length acc).
  { destruct (Nat.le_gt_cases (length (wvals w)) (length acc)) as [H|H]; [exact H|]. exfalso. destruct (nth_error ys (length acc)) as [y|] eqn:Ey'; [|apply nth_error_None in Ey'; lia]. destruct (Hys _ _ Ey') as (theta & Ht & _). assert (length acc < length acc) by (apply nth_error_Some; congruence). lia. }
  split; [lia|]. split; [now rewrite map_length|]. split; [exact Ea|]. split; [exact Hle|].
  intros i Hi'. destruct (nth_error ys i) as [y|] eqn:Ey'; [|apply nth_error_None in Ey'; lia]. destruct (Hys i y Ey') as (theta & Ht & Hy). destruct (nth_error (wvals w) i) as [x|] eqn:Ex; [|apply nth_error_None in Ex; lia].
  destruct (nth_error sims i) as [rows|] eqn:Er; [|apply nth_error_None in Er; lia].
  assert (Hom : one_model y = Ok rows). { clear -El Ey' Er. revert i Ey' Er. induction El as [|a b l l' H _ IH]; intros [|i] E1 E2; try discriminate; [cbn in *; congruence | now apply (IH i)]. }
  exists theta, x, rows. split; [exact Ht|]. split; [rewrite Ea, nth_error_map, Ht; reflexivity|]. split; [apply Hone, (nth_error_In _ _ Ht)|]. split; [reflexivity|]. split; [rewrite nth_error_map, Ex; reflexivity|].
  split; [|reflexivity]. subst y. unfold roots in Hom. cbn [simulated] in Hom. destruct (gchk_in g r _); [|discriminate]. cbn [one_model] in Hom. destruct (gsim g r _ k (start i)); [congruence | discriminate].
Qed.
Print Assumptions C44_aligned.
(** Journals of other model types are refused, as are journals without this entry; nothing is simulated. *)
Theorem C44_refused :
  forall g roots big Name (Cl : Type) S C D (cleqb : Cl -> Cl -> bool) tm names (j : journal Name (list Q) S C D) it k discard start sched ws,
  generate g roots big cleqb None names j it k discard start sched ws = Err KeyError
  /\ (cleqb tm names = false -> generate g roots big cleqb (Some tm) names j it k discard start sched ws = Err RuntimeError).
Proof. intros. split; [reflexivity|]. intros H. unfold generate. rewrite H. reflexivity. Qed.
Print Assumptions C44_refused.
(** Parameters a graph refuses are used all the same: the simulation mixes them with those of the task that ran before on the same worker.
    Y ~ U(X, 10); stored (Y, X) = (3, 1) and (8, 6) ; the second is accepted, the first is then refused because 3 < 6. *)
Definition g7 : graph := mkgraph [hy; hy; un 0 1; un 2 1; un 3 1].
Definition s7 : st := st0 [Some [0]; Some [10]; Some [0]; Some [2]; None]%Q.
Theorem C44_refused_parameters_refuted :
  exists g roots big s acc k start w1 w2,
  wf g /\ indep g roots /\ plain g roots /\ clean g roots s /\ vals_ok g s
  /\ acc = [[[3]; [1]]; [[8]; [6]]]%Q
  /\ collect (execute (fun i => sample_parameter g roots big k false acc (start i) i) w1 (fun _ => s)) 2 = Ok [Some [gsim g 4 [Some 3; Some 10]%Q k (start 0)]; Some [gsim g 4 [Some 8; Some 10]%Q k (start 1)]]
  /\ w1 = [(0, 0); (0, 1)] /\ w2 = [(0, 1); (0, 0)]
  /\ collect (execute (fun i => sample_parameter g roots big k false acc (start i) i) w2 (fun _ => s)) 2 = Ok [Some [gsim g 4 [Some 8; Some 10]%Q k (start 0)]; Some [gsim g 4 [Some 8; Some 10]%Q k (start 1)]].
Proof.
  exists g7, [4], (fun _ => false), s7. eexists _, 1, (fun i => i), _, _.
  split; [apply mkgraph_wf; reflexivity|]. split; [apply indep_single, mkgraph_wf; reflexivity|]. split. { intros r [<-|[]]. split; [reflexivity|]. intros p [<-|[<-|[]]]; reflexivity. }
  split; [apply st0_clean|]. split; [apply st0_vals_ok; reflexivity|]. split; [reflexivity|]. split; [|split; [reflexivity|]; split; [reflexivity|]]; vm_compute; reflexivity.
Qed.
Print Assumptions C44_refused_parameters_refuted.
(** A simulation that is to be discarded ends the run with AttributeError instead of being repeated. *)
Theorem C44_discard_refuted :
  forall g, wf g -> forall roots big k acc c i theta base s, indep g roots -> plain g roots -> (forall r, In r roots -> is_hyper g r = false) ->
  good g roots base s -> nth_error acc i = Some theta -> acceptable g roots base theta ->
  big (simulated g (assign (order g roots) theta base) k roots c) = true -> snd (sample_parameter g roots big k true acc c i s) = Err AttributeError.
Proof. intros g Hwf roots big k acc c i theta base s Hi Hpl Hh Hg Ht Ha Hb. rewrite (proj2 (sample_parameter_spec g roots big k true acc c i theta base s Hwf Hi Hpl Hh Hg Ht Ha)). cbv zeta. rewrite Hb. reflexivity. Qed.
Print Assumptions C44_discard_refuted.
(** Two samples, two workers, tasks in the other order. *)
Definition toyj : journal nat (list Q) unit unit unit := mkj 1 [[[[3]; [7]]; [[2]; [5]]]%Q] [] [] [] [Col [1; 3]%Q] [] [] [] None true.
Example C44_case :
  generate g6 [4] (fun _ => false) Nat.eqb (Some 1) 1 toyj None 1 true (fun i => i) [(1, 1); (0, 0)] (fun _ => s6)
  = Ok ([[3; 7]; [2; 5]]%Q, [[[3 + (7 - 3) * (1 / 2)]]; [[2 + (5 - 2) * (1 / 3)]]]%Q, [ndiv (Fin 1) (Fin (1 + (3 + 0))); ndiv (Fin 3) (Fin (1 + (3 + 0)))]) /\ good g6 [4] (val s6) s6
  /\ forall theta, In theta [[[3]; [7]]; [[2]; [5]]]%Q -> acceptable g6 [4] (val s6) theta.
Proof.
  split; [reflexivity|]. split; [split; [apply st0_clean|]; split; [apply st0_vals_ok; reflexivity | intros n _; reflexivity]|].
  intros theta H. assert (W : wf g6) by (apply mkgraph_wf; reflexivity).
  apply (C44_acceptable g6 W [4] (val s6) theta [2; 3]); [apply indep_single; exact W | apply (ParamOrder_order g6 W); vm_compute; reflexivity|].
  assert (K : forall held, same_fixed g6 held (val s6) -> inputs_at g6 held 2 = [Some 0; Some 10]%Q /\ inputs_at g6 held 3 = [Some 0; Some 10]%Q).
  { intros held Hs. unfold inputs_at. cbn [gconn g6 mkgraph nth ncn un map fst snd]. rewrite (Hs 0 eq_refl), (Hs 1 eq_refl). split; reflexivity. }
  destruct H as [<- | [<- | []]]; (constructor; [split; [reflexivity|]; intros held Hs; rewrite (proj1 (K held Hs)); reflexivity|]; constructor; [split; [reflexivity|]; intros held Hs; rewrite (proj2 (K held Hs)); reflexivity | constructor]).
Qed.
