(** C95: the workers of the inference schemes see the graph only through its parameter values: whatever calls they make, in whatever order and
    depending on earlier answers, the answers are those of a graph that is built anew, with the current parameters, before every call.
    This is the refinement behind the models of the schemes, which represent the graph by its parameter vector. *)
From Verif Require Import M_Base M_Num M_Graph M_GraphEx S_Graph L_Graph L_Graph2 L_Graph3 L_Graph4 M_Worker S_Worker L_Worker.
From Verif Require M_Infer M_Rejection M_PMCABC P_Graph.

Section Claims.
Variables (g : graph) (roots o : list nat) (base : nat -> option (list Q)) (tries k : nat).
Hypothesis Hg : ordinary g roots o base.
Notation on_graph := (on_graph g roots tries k).
Notation set_of := (set_of g roots o base).
Notation dens_of := (dens_of g roots o base).
Notation prior_of := (prior_of g roots o base tries).
Notation sim_of := (sim_of g roots o base k).
Notation on_vector := (on_vector set_of dens_of prior_of sim_of).

(** Every program that offers vectors of the right shape to the graph: unless sample_from_prior does not end within [tries] rounds, it ends in
    the same way on a graph that stands for [cur] and on the vector [cur]: with the same exception, or with the same result, the same state of
    the random generator, and a graph that stands for the resulting vector. *)
Theorem C95_worker : forall A (P : A -> Prop) (p : prog A), careful g o P p ->
  forall s cur s' x, Stands g roots o base s cur -> on_graph p s = (s', x) -> x <> Err OutOfFuel ->
  match on_vector p cur (ctr s) with
  | Ok (a, cur', r') => x = Ok a /\ ctr s' = r' /\ Stands g roots o base s' cur' /\ P a
  | Err e => x = Err e
  end.
Proof.
  destruct Hg as [Hwf [Hi Hh] Hp Hd Hc Hb Ho]. apply (ParamOrder_order g Hwf) in Ho. subst o.
  intros A P p Hcar s cur s' x Hs E Hx. pose proof (refines g roots base tries k Hwf Hi Hh Hp Hd Hc Hb P p Hcar s cur Hs) as R. rewrite E in R. exact (R Hx).
Qed.
(** The same from a graph whose parameters were never sampled, for programs that start by sampling them. *)
Theorem C95_first : forall A (P : A -> Prop) (p : prog A), careful g o P p ->
  forall s s' x, Unsampled g roots o base s -> on_graph (Prior p) s = (s', x) -> x <> Err OutOfFuel ->
  match on_vector (Prior p) [] (ctr s) with
  | Ok (a, cur', r') => x = Ok a /\ ctr s' = r' /\ Stands g roots o base s' cur' /\ P a
  | Err e => x = Err e
  end.
Proof.
  destruct Hg as [Hwf [Hi Hh] Hp Hd Hc Hb Ho]. apply (ParamOrder_order g Hwf) in Ho. subst o.
  intros A P p Hcar s s' x (Hs1 & Hs2 & Hs3) E Hx.
  pose proof (refines_prior g roots base tries k Hwf Hi Hh Hp Hd Hc Hb P p Hcar s []) as R. rewrite E in R. apply R; [|exact Hx].
  split; [exact Hs1|]. split; [exact Hs2|]. intros n (r & Hr & Hn) Hno. exact (Hs3 r n Hr Hn Hno).
Qed.
(** Two graphs that hold the same parameters are indistinguishable to every worker. *)
Theorem C95_indistinguishable : forall A (P : A -> Prop) (p : prog A), careful g o P p ->
  forall s1 s2 cur, Stands g roots o base s1 cur -> Stands g roots o base s2 cur -> ctr s1 = ctr s2 ->
  snd (on_graph p s1) <> Err OutOfFuel -> snd (on_graph p s2) <> Err OutOfFuel -> snd (on_graph p s1) = snd (on_graph p s2).
Proof.
  intros A P p Hcar s1 s2 cur H1 H2 Hr N1 N2. destruct (on_graph p s1) as [s1' x1] eqn:E1, (on_graph p s2) as [s2' x2] eqn:E2. cbn [snd] in *.
  pose proof (C95_worker A P p Hcar s1 cur s1' x1 H1 E1 N1) as R1. pose proof (C95_worker A P p Hcar s2 cur s2' x2 H2 E2 N2) as R2. rewrite <- Hr in R2.
  destruct (on_vector p cur (ctr s1)) as [[[a c] r]|e]; [destruct R1 as [-> _], R2 as [-> _]; reflexivity|congruence].
Qed.

Section Schemes.
Variable kupd : M_PMCABC.pop Vec -> nat -> nat -> nat * Vec.
Variable kpdf : M_PMCABC.pop Vec -> Vec -> Vec -> num.
Variable dist : Data -> num.
Variable dist_max : num.
Variable mkrng : Z -> nat.
Variable reseed : nat -> nat.
Variable choice : nat -> list num -> nat -> res (nat * nat).
(** the kernel delivers parameter vectors *)
Hypothesis Hk : forall p i r, fits g o (snd (kupd p i r)).
(** RejectionABC: _sample_parameter on the graph is sample_parameter of M_Rejection on its parameter vector. *)
Theorem C95_rejection : forall eps fuel seed s cur s' x, Stands g roots o base s cur ->
  on_graph (w_rejection dist dist_max mkrng eps fuel seed) s = (s', x) -> x <> Err OutOfFuel ->
  x = M_Rejection.sample_parameter nat Data (list Q) prior_of sim_of dist dist_max eps fuel (mkrng seed).
Proof.
  intros eps fuel seed s cur s' x Hs E Hx.
  assert (Hcar : careful g o (fun x => fits g o (fst (fst x))) (w_rejection dist dist_max mkrng eps fuel seed)) by (unfold w_rejection; cbn [careful]; intros r r' u _; apply c_rejection_loop; discriminate).
  pose proof (C95_worker _ _ _ Hcar s cur s' x Hs E Hx) as R. destruct (v_rejection set_of dens_of prior_of sim_of dist dist_max mkrng eps fuel seed cur (ctr s)) as (c & r & V). rewrite V in R.
  destruct (M_Rejection.sample_parameter _ _ _ _ _ _ _ _ _ _) as [y|e]; [apply R|exact R].
Qed.
(** PMCABC: the iterations of sample() on the graph, with the workers one after the other, are those of M_PMCABC. *)
Theorem C95_pmcabc : forall n steps a full restarted fuel aStep seeds gs z gs' x, Stands g roots o base gs (M_PMCABC.s_cur _ z) ->
  on_graph (w_iterate kupd kpdf dist dist_max mkrng reseed choice n steps a full restarted fuel aStep seeds z) gs = (gs', x) -> x <> Err OutOfFuel ->
  x = M_PMCABC.iterate Vec nat Data set_of dens_of kupd kpdf prior_of sim_of dist dist_max mkrng reseed choice n steps a full restarted fuel aStep seeds z
  /\ forall z', x = Ok z' -> Stands g roots o base gs' (M_PMCABC.s_cur _ z').
Proof.
  intros n steps a full restarted fuel aStep seeds gs z gs' x Hs E Hx.
  assert (Hcar : careful g o (fun _ => True) (w_iterate kupd kpdf dist dist_max mkrng reseed choice n steps a full restarted fuel aStep seeds z)) by (apply c_iterate, Hk).
  pose proof (C95_worker _ _ _ Hcar gs _ gs' x Hs E Hx) as R.
  destruct (v_iterate set_of dens_of prior_of sim_of kupd kpdf dist dist_max mkrng reseed choice n steps a full restarted fuel seeds aStep z (ctr gs)) as (r & V). rewrite V in R.
  destruct (M_PMCABC.iterate _ _ _ _ _ _ _ _ _ _ _ _ _ _ _ _ _ _ _ _ _ _ _) as [z1|e].
  - destruct R as (-> & _ & H & _). split; [reflexivity|]. intros z' Ez. injection Ez as <-. exact H.
  - subst x. split; [reflexivity|]. discriminate.
Qed.
End Schemes.
End Claims.
Print Assumptions C95_worker.
Print Assumptions C95_first.
Print Assumptions C95_indistinguishable.
Print Assumptions C95_rejection.
Print Assumptions C95_pmcabc.

(** ** Cases *)
(** 0 and 1 are the numbers 0 and 10; X = 2 ~ U(0,10); Y = 3 ~ U(X,10); the observed model is uniform between X and Y. *)
Definition gw : graph := mkgraph [hy; hy; un 0 1; un 2 1; un 2 3].
Definition basew : nat -> option (list Q) := fun n => nth n [Some [0]; Some [10]]%Q None.
Lemma gw_accepts : forall n ins t v rest, is_free gw n = true -> gchk_in gw n ins = true -> gsim gw n ins 1 t = Some (v :: rest) -> gchk_out gw n ins v = true.
Proof.
  intros n ins t v rest Hf Hin Hs.
  assert (Hu : unif_in ins = true).
  { unfold is_free, is_hyper, is_oper in Hf. cbn [gw mkgraph gkind gchk_in] in *. destruct (nk _); try discriminate; exact Hin. }
  cbn [gw mkgraph gsim gchk_out] in *.
  destruct ins as [|[lo|] [|[hi|] [|]]]; try discriminate. cbn [unif_in] in Hu. apply Qle_bool_iff in Hu.
  cbn [unif_sim seq map] in Hs. remember (inject_Z (Z.of_nat 1) / inject_Z (Z.of_nat (1 + S t)))%Q as q eqn:Eq.
  injection Hs as Hv _. subst v.
  assert (Hq0 : (0 <= q)%Q) by (subst q; apply P_Graph.qdiv_nonneg; lia).
  assert (Hq1 : (q <= 1)%Q) by (subst q; apply P_Graph.qdiv_le1; lia).
  clear Eq.
  assert (Ho : unif_out [Some lo; Some hi] [(lo + (hi - lo) * q)%Q] = true).
  { cbn [unif_out]. apply andb_true_intro. split; apply Qle_bool_iff.
    - setoid_replace lo with (lo + 0)%Q at 1 by ring. apply Qplus_le_compat; [apply Qle_refl|].
      apply Qmult_le_0_compat; [|exact Hq0]. apply Qle_minus_iff in Hu. exact Hu.
    - setoid_replace hi with (lo + (hi - lo) * 1)%Q at 2 by ring. apply Qplus_le_compat; [apply Qle_refl|].
      rewrite (Qmult_comm _ q), (Qmult_comm _ 1). apply Qmult_le_compat_r; [exact Hq1|].
      apply Qle_minus_iff in Hu. exact Hu. }
  destruct (nk _); try reflexivity; exact Ho.
Qed.
Lemma gw_ordinary : ordinary gw [4] [2; 3] basew.
Proof.
  assert (W : wf gw) by (apply mkgraph_wf; reflexivity). split.
  - exact W.
  - split; [apply indep_single, W|]. intros r [<-|[]]. reflexivity.
  - intros n. do 5 (destruct n as [|n]; [reflexivity|]). destruct n; reflexivity.
  - intros n ins t x _ H. cbn [gw mkgraph gsim] in H. destruct ins as [|[lo|] [|[hi|] [|]]]; try discriminate. injection H as <-. eexists _, []. split; reflexivity.
  - exact gw_accepts.
  - intros n v H. do 2 (destruct n as [|n]; [injection H as <-; reflexivity|]). destruct n; discriminate.
  - apply (ParamOrder_order gw W). vm_compute. reflexivity.
Qed.
(** the graph after some history: marks and densities of earlier walks lie around outside, the parameters are 5 and 7 *)
Definition sw : st := mkst (fun n => 7 <=? n) (fun n => nth n [Some [0]; Some [10]; Some [5]; Some [7]]%Q None) (fun _ => Some 3%Q) 11 [2; 3].
Example C95_hyps : ordinary gw [4] [2; 3] basew /\ Stands gw [4] [2; 3] basew sw [[5]; [7]]%Q.
Proof.
  split; [exact gw_ordinary|]. assert (B : forall n, n = 4 \/ Anc gw n 4 -> n <= 4) by (intros n [->|H]; [lia|]; apply (Anc_lt gw (or_wf _ _ _ _ gw_ordinary)) in H; lia).
  split; [intros r n [<-|[]] Hn; apply B in Hn; cbn [sw vis]; apply Nat.leb_gt; lia|].
  split; [intros n v H; do 4 (destruct n as [|n]; [injection H as <-; reflexivity|]); destruct n; discriminate|].
  split; [repeat constructor|]. intros r n [<-|[]] Hn. apply B in Hn. do 5 (destruct n as [|n]; [reflexivity|]). lia.
Qed.
(** a worker of PMCABC in a later iteration: the kernel shifts the chosen vector; one proposal is refused (Y = 11), the next one accepted *)
Definition kw (p : M_PMCABC.pop Vec) (i r : nat) : nat * Vec := (S r, [[5]; [if r <? 13 then 11 else 8]]%Q).
Definition pw : M_PMCABC.pop Vec := M_PMCABC.mkpop [[[5]; [7]]; [[2]; [6]]]%Q [Fin (1#2); Fin (1#2)].
Definition dw (y : Data) : num := match y with [Some [[x]]] => Fin x | _ => NaN end.
Example C95_case :
  let p := w_resample kw dw (Fin 100) Z.to_nat (fun r => r + 10) (fun _ _ r => Ok (S r, 0)) (Fin 50) 2 (Some pw) 20 1 in
  careful gw [2; 3] (fun x => fits gw [2; 3] (fst (fst x))) p
  /\ match on_graph gw [4] 3 1 p sw with
     | (s', Ok (th, Fin d, counter)) => th = [[5]; [8]]%Q /\ counter = 1 /\ (d == 5 + 3 * (1 # 16))%Q /\ val s' 3 = Some [8%Q]
     | _ => False
     end.
Proof.
  split; [unfold w_resample; cbn [careful]; intros r r' x _ th Hth; apply c_resample_loop; [intros; repeat constructor|exact Hth]|].
  vm_compute. auto 6.
Qed.

(** ** What the hypotheses are for *)
(** With an arithmetic node the parameters are not enough: two graphs with the same fixed numbers, the same generator and, after
    set_parameters, the same parameters simulate from different inputs, because X + Y keeps the value it had. *)
Definition s1' : st := st0 [Some [0]; Some [10]; Some [1]; Some [2]; Some [3]; None]%Q.
Theorem C95_operation_refuted :
  exists g roots th s t, wf g /\ indep g roots /\ clean g roots s /\ clean g roots t /\ vals_ok g s /\ vals_ok g t
    /\ (forall n, is_hyper g n = true -> val s n = val t n) /\ ctr s = ctr t
    /\ exists s' t' ys yt, (set_parameters g roots th ;;; l <- get_parameters g roots ;; y <- simulate g (depth roots) roots 1 ;; ret (l, y)) s = (s', Ok (map Some th, ys))
       /\ (set_parameters g roots th ;;; l <- get_parameters g roots ;; y <- simulate g (depth roots) roots 1 ;; ret (l, y)) t = (t', Ok (map Some th, yt)) /\ ys <> yt.
Proof.
  exists g1, [5], [[6]; [2]]%Q, s1, s1'. split; [apply mkgraph_wf; reflexivity|]. split; [apply indep_single, mkgraph_wf; reflexivity|].
  split; [apply st0_clean|]. split; [apply st0_clean|]. split; [apply st0_vals_ok; reflexivity|]. split; [apply st0_vals_ok; reflexivity|].
  split; [intros n Hn; do 6 (destruct n as [|n]; [first [reflexivity|discriminate]|]); destruct n; reflexivity|]. split; [reflexivity|].
  eexists _, _, _, _. split; [vm_compute; reflexivity|]. split; [vm_compute; reflexivity|]. discriminate.
Qed.
Print Assumptions C95_operation_refuted.
(** With a simulator whose value is refused by the check of its own node sample_from_prior leaves the old value in place: what is "sampled from
    the prior" is what the graph held before. *)
Definition g_refusing : graph :=
  {| gkind := gkind gw; gconn := gconn gw; gdim := gdim gw; gchk_in := gchk_in gw; gchk_out := gchk_out gw; gdens := gdens gw;
     gsim := fun n ins k t => match n with 3 => Some [[11%Q]] | _ => gsim gw n ins k t end; gop := gop gw; gpow := gpow gw |}.
Theorem C95_refused_draw_refuted :
  exists g roots s t, wf g /\ indep g roots /\ (forall n, is_oper g n = false) /\ clean g roots s /\ clean g roots t /\ vals_ok g s /\ vals_ok g t
    /\ (forall n, is_hyper g n = true -> val s n = val t n) /\ ctr s = ctr t
    /\ exists s' t' ls lt, (sample_from_prior g roots 1 ;;; get_parameters g roots) s = (s', Ok ls) /\ (sample_from_prior g roots 1 ;;; get_parameters g roots) t = (t', Ok lt)
       /\ nth 1 ls None = val s 3 /\ nth 1 lt None = val t 3 /\ ls <> lt.
Proof.
  assert (W : wf g_refusing) by exact (or_wf _ _ _ _ gw_ordinary).
  exists g_refusing, [4], (st0 [Some [0]; Some [10]; Some [5]; Some [7]]%Q), (st0 [Some [0]; Some [10]; Some [5]; Some [9]]%Q).
  split; [exact W|]. split; [apply indep_single, W|]. split; [exact (or_plain _ _ _ _ gw_ordinary)|]. split; [apply st0_clean|]. split; [apply st0_clean|].
  split; [intros n v H; do 4 (destruct n as [|n]; [injection H as <-; reflexivity|]); destruct n; discriminate|].
  split; [intros n v H; do 4 (destruct n as [|n]; [injection H as <-; reflexivity|]); destruct n; discriminate|].
  split; [intros n Hn; do 6 (destruct n as [|n]; [first [reflexivity|discriminate]|]); destruct n; reflexivity|]. split; [reflexivity|].
  eexists _, _, _, _. split; [vm_compute; reflexivity|]. split; [vm_compute; reflexivity|]. split; [reflexivity|]. split; [reflexivity|]. discriminate.
Qed.
Print Assumptions C95_refused_draw_refuted.
