(** Properties C01-C06 and C08: the model graph. *)
From Verif Require Import M_Base M_Graph S_Graph L_Graph L_Graph2 L_Graph3 L_Ops M_GraphEx L_Graph4.

(** C01.  There is exactly one depth-first first-occurrence order [o] of the free parameters, and every walk of the
    code follows it: reading, writing, both index mappings and the reordering of kernel proposals. *)
Theorem C01_order_agreement :
  forall g, wf g -> forall roots s,
  indep g roots -> (forall r, In r roots -> is_hyper g r = false) -> clean g roots s ->
  exists o, (forall o', ParamOrder g roots o' <-> o' = o) /\ NoDup o
    /\ (forall n, In n o <-> is_free g n = true /\ exists r, In r roots /\ Anc g n r)
    /\ snd (get_parameters g roots s) = Ok (map (val s) o)
    /\ snd (get_mapping g roots s) = Ok (combine o (seq 0 (length o)), length o)
    /\ snd (apm_get_mapping g roots s) = Ok (combine o (seq 0 (length o)), length o)
    /\ (forall A (pm : list (nat * list A)),
          (forall n, is_free g n = false \/ In n roots -> values_of pm n = []) ->
          snd (get_correct_ordering g roots pm s) = Ok (flat_map (values_of pm) o))
    /\ (forall params s' k, set_parameters g roots params s = (s', Ok (true, k)) ->
          k = length o /\ length o <= length params
          /\ forall i n, nth_error o i = Some n -> val s' n = nth_error params i).
Proof. exact order_agreement. Qed.
Print Assumptions C01_order_agreement.

Example C01_hyps : wf g1 /\ indep g1 [5] /\ (forall r, In r [5] -> is_hyper g1 r = false) /\ clean g1 [5] s1.
Proof.
  split; [apply mkgraph_wf; reflexivity|]. split; [apply indep_single, mkgraph_wf; reflexivity|].
  split; [intros r [<-|[]]; reflexivity | apply st0_clean].
Qed.
Example C01_case : snd (get_parameters g1 [5] s1) = Ok [Some [7]; Some [5]]%Q
  /\ snd (get_mapping g1 [5] s1) = Ok ([(3, 0); (2, 1)], 2).
Proof. vm_compute. split; reflexivity. Qed.

(** Two observed models where the first is an input of the second: reading lists it, the mapping does not. *)
Definition g3 : graph := mkgraph [hy; hy; un 0 1; un 2 1].
Theorem C01_observed_input_refuted :
  exists g roots s, wf g /\ (forall r, In r roots -> is_hyper g r = false) /\ clean g roots s
    /\ exists vs mp k, snd (get_parameters g roots s) = Ok vs /\ snd (get_mapping g roots s) = Ok (mp, k)
                       /\ length vs <> k.
Proof.
  exists g3, [2; 3], (st0 [Some [0]; Some [10]; Some [5]; Some [7]]%Q).
  split; [apply mkgraph_wf; reflexivity|]. split; [intros r [<-|[<-|[]]]; reflexivity|].
  split; [apply st0_clean|]. eexists _, _, _. split; [vm_compute; reflexivity|]. split; [vm_compute; reflexivity|].
  vm_compute. discriminate.
Qed.
Print Assumptions C01_observed_input_refuted.

(** C02.  A successful set is read back; everything that is not a free parameter keeps its value. *)
Theorem C02_set_get :
  forall g, wf g -> forall roots params s s' k,
  indep g roots -> clean g roots s ->
  set_parameters g roots params s = (s', Ok (true, k)) ->
  snd (get_parameters g roots s') = Ok (map Some (firstn k params))
  /\ (forall o, ParamOrder g roots o -> k = length o /\ length o <= length params
        /\ forall n, ~ In n o -> val s' n = val s n).
Proof. exact set_get. Qed.
Print Assumptions C02_set_get.
Theorem C02_get_set_same :
  forall g, wf g -> forall roots s s1 s2 vs k,
  indep g roots -> clean g roots s ->
  get_parameters g roots s = (s1, Ok (map Some vs)) ->
  set_parameters g roots vs s1 = (s2, Ok (true, k)) ->
  k = length vs /\ forall n, val s2 n = val s n.
Proof. exact get_set_same. Qed.
Print Assumptions C02_get_set_same.
Example C02_case : exists s', set_parameters g1 [5] [[8]; [6]]%Q s1 = (s', Ok (true, 2))
  /\ snd (get_parameters g1 [5] s') = Ok [Some [8]; Some [6]]%Q.
Proof. eexists. vm_compute. split; reflexivity. Qed.
Example C02_same_case : exists s2, set_parameters g1 [5] [[7]; [5]]%Q (fst (get_parameters g1 [5] s1)) = (s2, Ok (true, 2)).
Proof. eexists. vm_compute. reflexivity. Qed.

(** C03.  Any sequence of graph operations that returns normally leaves all marks down. *)
Theorem C03_reusable :
  forall g, wf g -> forall roots os, indep g roots -> (forall r, In r roots -> is_hyper g r = false) ->
  forall s s', clean g roots s -> run_ops g roots os s = Some s' -> clean g roots s'.
Proof. exact run_ops_clean. Qed.
Print Assumptions C03_reusable.
Example C03_case :
  match run_ops g1 [5] [OSample 3; OGet; OSet [[8]; [7]]%Q; OSet [[8]; [6]]%Q; OOrder [(3, [[1%Q]]); (2, [[2%Q]])]; OMap; OApm; OPdf [[8]; [6]]%Q] s1 with
  | Some s' => map (val s') [2; 3] = [Some [6]; Some [8]]%Q | None => False end.
Proof. vm_compute. reflexivity. Qed.
(** A list that is too short raises IndexError and leaves marks up; the next read then misses parameters. *)
Theorem C03_short_list_refuted :
  exists g roots s params s', wf g /\ indep g roots /\ clean g roots s
    /\ set_parameters g roots params s = (s', Err IndexError)
    /\ ~ clean g roots s'
    /\ (exists vs, snd (get_parameters g roots s) = Ok vs /\ length vs = 2)
    /\ (exists vs, snd (get_parameters g roots s') = Ok vs /\ length vs = 1).
Proof.
  exists g1, [5], s1, [[8%Q]]. eexists. split; [apply mkgraph_wf; reflexivity|].
  split; [apply indep_single, mkgraph_wf; reflexivity|]. split; [apply st0_clean|].
  split; [vm_compute; reflexivity|]. split.
  - intros H. specialize (H 5 3 (or_introl eq_refl)). cbn in H.
    assert (Hx : true = false); [|discriminate Hx]. apply H. right. apply anc_par. vm_compute. auto.
  - split; eexists; (split; [vm_compute; reflexivity | reflexivity]).
Qed.
Print Assumptions C03_short_list_refuted.

(** C04.  When the parameters are accepted and every discrete node is met on at most one path, the prior density is
    the product of one factor per free parameter, at the parameters handed in. *)
Theorem C04_prior_density_once :
  forall g, wf g -> forall roots params s s1 k o ls,
  indep g roots -> clean g roots s -> vals_ok g s ->
  ParamOrder g roots o ->
  Forall2 (Expand g) (flat_map (gpar g) roots) ls ->
  (forall n, gkind g n = Disc -> count_occ Nat.eq_dec (concat ls) n <= 1) ->
  set_parameters g roots params s = (s1, Ok (true, k)) ->
  exists s' q, pdf_of_prior g roots params s = (s', Ok q)
    /\ (q == prodQ (map (fun ni => gdens g (fst ni) (inputs_at g (val s') (fst ni)) (snd ni)) (combine o params)))%Q
    /\ (forall i n, nth_error o i = Some n -> val s' n = nth_error params i)
    /\ (forall n, ~ In n o -> val s' n = val s n)
    /\ clean g roots s'.
Proof. exact pdf_product. Qed.
Print Assumptions C04_prior_density_once.
Example C04_case :
  (exists s', set_parameters g1 [5] [[8]; [6]]%Q s1 = (s', Ok (true, 2)))
  /\ exists s' q, pdf_of_prior g1 [5] [[8]; [6]]%Q s1 = (s', Ok q) /\ (q == (1 # 4) * (1 # 10))%Q.
Proof. split; eexists; [vm_compute; reflexivity|]. eexists. split; [vm_compute; reflexivity|]. reflexivity. Qed.
(** With X discrete, its factor 1/10 is multiplied once per path (three paths lead to X here). *)
Theorem C04_discrete_factor_refuted :
  exists g roots params s s1 k o, wf g /\ indep g roots /\ clean g roots s /\ vals_ok g s /\ ParamOrder g roots o
    /\ set_parameters g roots params s = (s1, Ok (true, k))
    /\ exists s' q, pdf_of_prior g roots params s = (s', Ok q)
    /\ ~ (q == prodQ (map (fun ni => gdens g (fst ni) (inputs_at g (val s') (fst ni)) (snd ni)) (combine o params)))%Q.
Proof.
  exists g2, [5], [[8]; [6]]%Q, s1. eexists _, _, [3; 2].
  split; [apply mkgraph_wf; reflexivity|]. split; [apply indep_single, mkgraph_wf; reflexivity|].
  split; [apply st0_clean|]. split; [apply st0_vals_ok; reflexivity|].
  split; [apply ParamOrder_order; [apply mkgraph_wf; reflexivity | reflexivity]|].
  split; [vm_compute; reflexivity|]. eexists _, _. split; [vm_compute; reflexivity|].
  vm_compute. discriminate.
Qed.
Print Assumptions C04_discrete_factor_refuted.
(** With X = 5 stored, X ~ U(0,10), Y ~ U(X,10), the point (Y = 3, X = 1) has density 1/9 * 1/10, but
    the code tests Y = 3 against the old X = 5, refuses it, ignores the refusal and returns 0. *)
Theorem C04_stale_parent_refuted :
  exists g roots params s o, wf g /\ indep g roots /\ clean g roots s /\ vals_ok g s /\ ParamOrder g roots o
    /\ exists s' q, pdf_of_prior g roots params s = (s', Ok q)
    /\ ~ (q == prodQ (map (fun ni => gdens g (fst ni) (inputs_at g (assign o params (val s)) (fst ni)) (snd ni)) (combine o params)))%Q.
Proof.
  exists g1, [5], [[3]; [1]]%Q, s1, [3; 2].
  split; [apply mkgraph_wf; reflexivity|]. split; [apply indep_single, mkgraph_wf; reflexivity|].
  split; [apply st0_clean|]. split; [apply st0_vals_ok; reflexivity|].
  split; [apply ParamOrder_order; [apply mkgraph_wf; reflexivity | reflexivity]|].
  eexists _, _. split; [vm_compute; reflexivity|]. vm_compute. discriminate.
Qed.
Print Assumptions C04_stale_parent_refuted.

(** C05.  In the last pass [T] of sample_from_prior each ancestor is drawn exactly once, after its inputs; each free
    parameter stores the simulator's answer at the finally stored inputs, from its own generator state. *)
Theorem C05_ancestral :
  forall g, wf g -> forall roots tries,
  (forall n ins t v rest, is_free g n = true -> gchk_in g n ins = true ->
     gsim g n ins 1 t = Some (v :: rest) -> gchk_out g n ins v = true) ->
  indep g roots -> forall s s', clean g roots s -> vals_ok g s ->
  sample_from_prior g roots tries s = (s', Ok tt) ->
  clean g roots s' /\ vals_ok g s' /\
  exists tr0 T c0 tau,
    tr s' = tr0 ++ T /\ ctr s <= c0 /\ NoDup T
    /\ (forall n, In n T <-> exists r, In r roots /\ Anc g n r)
    /\ (forall l1 n l2, T = l1 ++ n :: l2 -> forall p, In p (gpar g n) -> In p l1)
    /\ (forall n, In n T -> is_free g n = true -> drawn g (val s') n (tau n) /\ c0 <= tau n < ctr s')
    /\ (forall n m, In n T -> In m T -> is_free g n = true -> is_free g m = true -> tau n = tau m -> n = m).
Proof. exact sample_from_prior_spec. Qed.
Print Assumptions C05_ancestral.
Lemma qdiv_nonneg a b : (0 < b)%Z -> (0 <= a)%Z -> (0 <= inject_Z a / inject_Z b)%Q.
Proof.
  intros Hb Ha. apply Qle_shift_div_l; [change 0%Q with (inject_Z 0); rewrite <- Zlt_Qlt; exact Hb|].
  rewrite Qmult_0_l. change 0%Q with (inject_Z 0). rewrite <- Zle_Qle. exact Ha.
Qed.
Lemma qdiv_le1 a b : (0 < b)%Z -> (a <= b)%Z -> (inject_Z a / inject_Z b <= 1)%Q.
Proof.
  intros Hb Ha. apply Qle_shift_div_r; [change 0%Q with (inject_Z 0); rewrite <- Zlt_Qlt; exact Hb|].
  rewrite Qmult_1_l. rewrite <- Zle_Qle. exact Ha.
Qed.
Example C05_hyps : (forall n ins t v rest, is_free g1 n = true -> gchk_in g1 n ins = true ->
     gsim g1 n ins 1 t = Some (v :: rest) -> gchk_out g1 n ins v = true).
Proof.
  - intros n ins t v rest Hf Hin Hs.
    assert (Hu : unif_in ins = true).
    { unfold is_free, is_hyper, is_oper in Hf. cbn [g1 mkgraph gkind gchk_in] in *.
      destruct (nk _); try discriminate; exact Hin. }
    cbn [g1 mkgraph gsim gchk_out] in *.
    destruct ins as [|[lo|] [|[hi|] [|]]]; try discriminate. cbn [unif_in] in Hu. apply Qle_bool_iff in Hu.
    cbn [unif_sim seq map] in Hs. remember (inject_Z (Z.of_nat 1) / inject_Z (Z.of_nat (1 + S t)))%Q as q eqn:Eq.
    injection Hs as Hv _. subst v.
    assert (Hq0 : (0 <= q)%Q) by (subst q; apply qdiv_nonneg; lia).
    assert (Hq1 : (q <= 1)%Q) by (subst q; apply qdiv_le1; lia).
    clear Eq.
    assert (Ho : unif_out [Some lo; Some hi] [(lo + (hi - lo) * q)%Q] = true).
    { cbn [unif_out]. apply andb_true_intro. split; apply Qle_bool_iff.
      - setoid_replace lo with (lo + 0)%Q at 1 by ring. apply Qplus_le_compat; [apply Qle_refl|].
        apply Qmult_le_0_compat; [|exact Hq0]. apply Qle_minus_iff in Hu. exact Hu.
      - setoid_replace hi with (lo + (hi - lo) * 1)%Q at 2 by ring. apply Qplus_le_compat; [apply Qle_refl|].
        rewrite (Qmult_comm _ q), (Qmult_comm _ 1). apply Qmult_le_compat_r; [exact Hq1|].
        apply Qle_minus_iff in Hu. exact Hu. }
    destruct (nk _); try reflexivity; exact Ho.
Qed.
Example C05_case : exists s', sample_from_prior g1 [5] 3 s1 = (s', Ok tt) /\ tr s' = [0; 1; 2; 3; 4]
  /\ match val s' 2, val s' 3 with Some [x], Some [y] => (x == 5 /\ y == 20 # 3)%Q | _, _ => False end.
Proof. eexists. split; [vm_compute; reflexivity|]. vm_compute. auto. Qed.
(** An arithmetic node does not store the operation applied to the stored values of its inputs. *)
Theorem C05_operation_value_refuted :
  exists g roots s s' n a b x y z, wf g /\ indep g roots /\ clean g roots s /\ vals_ok g s
    /\ sample_from_prior g roots 1 s = (s', Ok tt)
    /\ gkind g n = Oper /\ gop g n = OSum /\ gpar g n = [a; b] /\ In n (tr s')
    /\ val s' a = Some [x] /\ val s' b = Some [y] /\ val s' n = Some [z] /\ ~ (z == x + y)%Q.
Proof.
  exists g1, [5], s1. eexists _, 4, 2, 3, _, _, _.
  split; [apply mkgraph_wf; reflexivity|]. split; [apply indep_single, mkgraph_wf; reflexivity|].
  split; [apply st0_clean|]. split; [apply st0_vals_ok; reflexivity|].
  split; [vm_compute; reflexivity|]. do 3 (split; [reflexivity|]). split; [vm_compute; auto 6|].
  do 3 (split; [reflexivity|]). vm_compute. discriminate.
Qed.
Print Assumptions C05_operation_value_refuted.

(** C06.  For parameter vectors of the right shape set_parameters always returns; on failure it reports the position
    of the value that was refused, the values before it are stored, all others are the old ones. *)
Theorem C06_set_outcome :
  forall g, wf g -> forall roots params s o,
  indep g roots -> clean g roots s -> vals_ok g s -> ParamOrder g roots o ->
  Forall2 (fun n v => length v = gdim g n) o params ->
  exists b j s', set_parameters g roots params s = (s', Ok (b, j))
    /\ clean g roots s' /\ vals_ok g s' /\ j <= length o
    /\ (forall i n, nth_error o i = Some n -> val s' n = if i <? j then nth_error params i else val s n)
    /\ (forall n, ~ In n o -> val s' n = val s n)
    /\ (if b then j = length o
        else exists n v, nth_error o j = Some n /\ nth_error params j = Some v
                         /\ gchk_out g n (inputs_at g (val s') n) v = false).
Proof. exact set_outcome. Qed.
Print Assumptions C06_set_outcome.
Example C06_case : exists s', set_parameters g1 [5] [[8]; [11]]%Q s1 = (s', Ok (false, 1))
  /\ val s' 3 = Some [8%Q] /\ val s' 2 = Some [5%Q].
Proof. eexists. split; [vm_compute; reflexivity|]. split; reflexivity. Qed.
(** The verdict depends on what was stored before: the same parameters are accepted or refused. *)
Theorem C06_history_dependent_refuted :
  exists g roots params s sB, wf g /\ indep g roots /\ clean g roots s /\ clean g roots sB /\ vals_ok g s /\ vals_ok g sB
    /\ (forall n, is_free g n = false -> val s n = val sB n)
    /\ (exists s1 k, set_parameters g roots params s = (s1, Ok (true, k)))
    /\ (exists s1 k, set_parameters g roots params sB = (s1, Ok (false, k))).
Proof.
  exists g1, [5], [[3]; [1]]%Q, (st0 [Some [0]; Some [10]; Some [1]; Some [7]; Some [12]; None]%Q), s1.
  split; [apply mkgraph_wf; reflexivity|]. split; [apply indep_single, mkgraph_wf; reflexivity|].
  split; [apply st0_clean|]. split; [apply st0_clean|]. split; [apply st0_vals_ok; reflexivity|].
  split; [apply st0_vals_ok; reflexivity|].
  split. { intros [|[|[|[|[|[|n]]]]]] H; try reflexivity; discriminate. }
  split; eexists _, _; vm_compute; reflexivity.
Qed.
Print Assumptions C06_history_dependent_refuted.

(** C08.  Binary operations other than number ** model: k results, each the operation on the i-th value of one
    simulation of each input; equal inputs share that simulation; marks and stored values are unchanged. *)
Theorem C08_operation :
  forall g f n a b k s s' ys,
  gkind g n = Oper -> gpar g n = [a; b] -> gop g n <> ORPow -> 0 < k ->
  fsim g (S f) n k s = (s', Ok (Some ys)) ->
  (forall m, vis s' m = vis s m) /\ val s' = val s /\ length ys = k /\
  exists sa ta xa xb, fsim g f a k sa = (ta, Ok (Some xa)) /\ val sa = val s
    /\ (if Nat.eqb a b then xb = xa
        else exists sb tb, fsim g f b k sb = (tb, Ok (Some xb)) /\ val sb = val s /\ ctr ta <= ctr sb)
    /\ (forall i, i < k -> exists x y, nth_error xa i = Some x /\ nth_error xb i = Some y
          /\ nth_error ys i = Some (zipq (match gop g n with OSum => Qplus | OSub => Qminus | OMul => Qmult
                                          | ODiv => Qdiv | _ => gpow g end) x y)).
Proof. exact op_two_pos. Qed.
Print Assumptions C08_operation.
(** X - X is 0, whatever X is. *)
Theorem C08_self_difference :
  forall g f n a k s s' ys,
  gkind g n = Oper -> gpar g n = [a; a] -> gop g n = OSub -> 0 < k ->
  fsim g (S f) n k s = (s', Ok (Some ys)) ->
  length ys = k /\ Forall (Forall (fun q => q == 0)%Q) ys.
Proof. exact self_difference. Qed.
Print Assumptions C08_self_difference.
Definition g4 : graph := mkgraph [hy; hy; un 0 1; ops OSub 2 2; ops OSum 2 0; ops OSub 4 2; ops ORPow 0 2; ops OMul 6 2].
Example C08_case : exists s' ys, fsim g4 9 3 2 s1 = (s', Ok (Some ys)) /\ length ys = 2
  /\ exists s'' zs, fsim g4 9 4 2 s1 = (s'', Ok (Some zs)) /\ length zs = 2.
Proof. eexists _, _. split; [vm_compute; reflexivity|]. split; [reflexivity|]. eexists _, _. split; [vm_compute; reflexivity|]. reflexivity. Qed.
(** In a nested expression the shared variable is drawn again, (X + 0) - X is not 0. *)
Theorem C08_nested_refuted :
  exists g s s' n m x z y, wf g /\ vals_ok g s /\ gkind g n = Oper /\ gop g n = OSub /\ gpar g n = [m; x]
    /\ gkind g m = Oper /\ gop g m = OSum /\ gpar g m = [x; z] /\ val s z = Some [0%Q]
    /\ fsim g 9 n 1 s = (s', Ok (Some [[y]])) /\ ~ (y == 0)%Q.
Proof.
  exists g4, s1. eexists _, 5, 4, 2, 0, _. split; [apply mkgraph_wf; reflexivity|].
  split; [apply st0_vals_ok; reflexivity|]. do 7 (split; [reflexivity|]).
  split; [vm_compute; reflexivity|]. vm_compute. discriminate.
Qed.
Print Assumptions C08_nested_refuted.
(** number ** model raises the number to itself, and returns one result instead of k. *)
Theorem C08_rpow_refuted :
  exists g s s' n a b ys, wf g /\ vals_ok g s /\ gkind g n = Oper /\ gop g n = ORPow /\ gpar g n = [a; b]
    /\ fsim g 9 n 2 s = (s', Ok (Some ys)) /\ length ys = 1.
Proof.
  exists g4, s1. eexists _, 6, 0, 2, _. split; [apply mkgraph_wf; reflexivity|].
  split; [apply st0_vals_ok; reflexivity|]. do 3 (split; [reflexivity|]).
  split; [vm_compute; reflexivity|]. reflexivity.
Qed.
Print Assumptions C08_rpow_refuted.
(** so such a node inside another expression makes a simulation of two values raise IndexError *)
Theorem C08_rpow_nested_refuted :
  exists g s n, wf g /\ vals_ok g s /\ gkind g n = Oper /\ snd (fsim g 9 n 2 s) = Err IndexError.
Proof.
  exists g4, s1, 7. split; [apply mkgraph_wf; reflexivity|].
  split; [apply st0_vals_ok; reflexivity|]. split; [reflexivity|]. vm_compute. reflexivity.
Qed.
Print Assumptions C08_rpow_nested_refuted.
