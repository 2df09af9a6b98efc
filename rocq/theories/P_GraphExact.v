(** Properties C03, C04, C05 and C08 without exceptions: the graph operations for all operators, all parameter vectors
    of the right shape and all histories. *)
From Verif Require Import M_Base M_Graph S_Graph L_Graph L_Graph2 L_Graph3 L_Ops M_GraphEx L_Graph4 L_Graph5 L_Graph6 L_Graph7 L_Respect P_Graph S_Fresh.

(** C03.  After any operations that returned, every further sequence of operations, also one that ends with an
    exception, answers exactly as on a newly built graph with the same stored values and generator. *)
Theorem C03_like_new :
  forall g, wf g -> forall roots os, indep g roots -> (forall r, In r roots -> is_hyper g r = false) ->
  forall s s', clean g roots s -> run_ops g roots os s = Some s' ->
  forall next, asks g roots next s' = asks g roots next (newborn s').
Proof.
  intros g Hwf roots os Hi Hh s s' Hc H next. apply asks_newborn; [exact Hwf|].
  apply (C03_reusable g Hwf roots os Hi Hh s s' Hc H).
Qed.
Print Assumptions C03_like_new.
Example C03_like_new_case :
  match run_ops g1 [5] [OSample 3; OSet [[8]; [11]]%Q; OPdf [[8]; [6]]%Q] s1 with
  | Some s' => asks g1 [5] [OGet; OMap; OPdf [[8]; [6]]%Q; OSet [[8]]%Q; OGet] s'
               = [RParams [Some [8]; Some [6]]%Q; RMap [(3, 0); (2, 1)] 2; RPdf (1 # 40)%Q; RErr IndexError]
  | None => False end.
Proof. vm_compute. reflexivity. Qed.
(** The parameters handed in have the shape of the graph: nothing raises. *)
Theorem C03_returns :
  forall g, wf g -> forall roots s o q, indep g roots -> (forall r, In r roots -> is_hyper g r = false) ->
  clean g roots s -> vals_ok g s -> ParamOrder g roots o ->
  match q with
  | OSample _ => False
  | OSet p | OPdf p => Forall2 (fun n v => length v = gdim g n) o p
  | OOrder pm => forall n, is_free g n = false \/ In n roots -> values_of pm n = []
  | _ => True
  end -> exists s', run_op g roots q s = Some s' /\ clean g roots s'.
Proof.
  intros g Hwf roots s o q Hi Hh Hc Hv Ho Hq.
  assert (Hret : exists s', run_op g roots q s = Some s').
  { destruct q as [t| |p|pm| | |p]; cbn [run_op]; try contradiction.
    - destruct (get_parameters_spec g Hwf roots s Hc) as (s' & -> & _). eexists. reflexivity.
    - destruct (C06_set_outcome g Hwf roots p s o Hi Hc Hv Ho Hq) as (b & j & s' & -> & _). eexists. reflexivity.
    - assert (H1 : forall n, is_free g n = false \/ In n roots -> lookup_params pm n = [])
        by (intros n Hn; rewrite lookup_values_of; apply Hq; exact Hn).
      destruct (get_correct_ordering_spec g Hwf pm (fun n H => H1 n (or_introl H)) roots s Hi Hc (fun r H => H1 r (or_intror H)))
        as (s' & -> & _). eexists. reflexivity.
    - destruct (get_mapping_spec g Hwf roots s Hi Hc) as (s' & -> & _). eexists. reflexivity.
    - destruct (apm_get_mapping_spec g Hwf roots s Hi Hh Hc) as (s' & -> & _). eexists. reflexivity.
    - destruct (proj1 (ParamOrder_order g Hwf roots o) Ho).
      assert (Hls : exists ls, Forall2 (Expand g) (flat_map (gpar g) roots) ls).
      { destruct Ho as (ls & Hls & _). exists ls. exact Hls. }
      destruct Hls as [ls Hls].
      destruct (pdf_exact g Hwf roots p s o ls Hi Hc Hv Ho Hls Hq) as (b & j & s1 & s' & x & _ & -> & _). eexists. reflexivity. }
  destruct Hret as [s' H]. exists s'. split; [exact H|].
  apply (C03_reusable g Hwf roots [q] Hi Hh s s' Hc). cbn [run_ops]. rewrite H. reflexivity.
Qed.
Print Assumptions C03_returns.
Example C03_returns_case : Forall2 (fun n v => length v = gdim g1 n) [3; 2] [[8]; [6]]%Q
  /\ exists s', run_op g1 [5] (OPdf [[8]; [6]]%Q) s1 = Some s'.
Proof. split; [repeat constructor|]. eexists. vm_compute. reflexivity. Qed.

(** C04.  For every parameter vector of the right shape, accepted or refused, the prior density is the product of the
    conditional densities at the parameters handed in, given the inputs stored at the end: one factor per continuous
    parameter, and as many factors per discrete parameter as there are input paths to it.  After a refusal at position
    j only the first j parameters are stored, so that later factors, and factors of their children, use old inputs. *)
Theorem C04_prior_density_exact :
  forall g, wf g -> forall roots params s o ls,
  indep g roots -> clean g roots s -> vals_ok g s -> ParamOrder g roots o ->
  Forall2 (Expand g) (flat_map (gpar g) roots) ls ->
  Forall2 (fun n v => length v = gdim g n) o params ->
  exists b j s1 s' q, set_parameters g roots params s = (s1, Ok (b, j))
    /\ pdf_of_prior g roots params s = (s', Ok q)
    /\ val s' = val s1 /\ clean g roots s' /\ j <= length o
    /\ (forall i n, nth_error o i = Some n -> val s' n = if i <? j then nth_error params i else val s n)
    /\ (forall n, ~ In n o -> val s' n = val s n)
    /\ (if b then j = length o
        else exists n v, nth_error o j = Some n /\ nth_error params j = Some v
                         /\ gchk_out g n (inputs_at g (val s') n) v = false)
    /\ (q == prodQ (flat_map (fun nv => repeat (gdens g (fst nv) (inputs_at g (val s') (fst nv)) (snd nv))
                (match gkind g (fst nv) with Disc => count_occ Nat.eq_dec (concat ls) (fst nv) | _ => 1 end))
              (combine o params)))%Q.
Proof. exact pdf_exact. Qed.
Print Assumptions C04_prior_density_exact.
(** three paths lead to the discrete X (10 values) and one to Y, which ranges over 4 values once X = 6 is stored *)
Example C04_exact_case :
  (exists s', set_parameters g2 [5] [[8]; [6]]%Q s1 = (s', Ok (true, 2)))
  /\ exists s' q, pdf_of_prior g2 [5] [[8]; [6]]%Q s1 = (s', Ok q) /\ (q == (1 # 4) * ((1 # 10) * (1 # 10) * (1 # 10)))%Q.
Proof. split; eexists; [vm_compute; reflexivity|]. eexists. split; [vm_compute; reflexivity|]. vm_compute. reflexivity. Qed.
(** the second value is refused: Y = 8 is stored, X stays 5, and Y's factor is that of X = 5 *)
Example C04_exact_refused_case :
  (exists s', set_parameters g1 [5] [[8]; [11]]%Q s1 = (s', Ok (false, 1)))
  /\ exists s' q, pdf_of_prior g1 [5] [[8]; [11]]%Q s1 = (s', Ok q) /\ (q == (1 # 5) * 0)%Q /\ val s' 2 = Some [5%Q].
Proof. split; eexists; [vm_compute; reflexivity|]. eexists. split; [vm_compute; reflexivity|]. split; vm_compute; reflexivity. Qed.

(** C08.  Any node, any operator, any nesting: a simulation of k values returns what [Fresh] says, uses exactly the
    generator states from the old to the new position, and restores all marks and stored values. *)
Theorem C08_every_operation :
  forall g, wf g -> binary g -> forall fuel n k s s' ys, 0 < k -> vals_ok g s ->
  fsim g fuel n k s = (s', Ok (Some ys)) ->
  (forall m, vis s' m = vis s m) /\ val s' = val s /\ Fresh g (val s) k n (ctr s) (ctr s') ys.
Proof. exact fsim_fresh. Qed.
Print Assumptions C08_every_operation.
Lemma binary_list l : forallb (fun nd => match nk nd with Oper => Nat.eqb (length (ncn nd)) 2 | _ => true end) l = true ->
  binary (mkgraph l).
Proof.
  intros H n Hn. cbn in Hn. rewrite forallb_forall in H. destruct (nth_in_or_default n l dflt) as [Hin|Hd].
  - specialize (H _ Hin). rewrite Hn in H. apply Nat.eqb_eq in H. unfold gpar. cbn.
    destruct (ncn (nth n l dflt)) as [|[a i] [|[b j] [|]]]; try discriminate. exists a, b. reflexivity.
  - rewrite Hd in Hn. discriminate.
Qed.
(** (X + 0) - X, node 5 of g4: the inner X is drawn with generator state 0 and the outer one with generator state 1 *)
Example C08_nested_case : exists s' ys, fsim g4 9 5 2 s1 = (s', Ok (Some ys)) /\ ctr s1 = 0 /\ ctr s' = 2 /\ length ys = 2
  /\ Fresh g4 (val s1) 2 5 0 2 ys.
Proof.
  eexists _, _. split; [vm_compute; reflexivity|]. split; [reflexivity|]. split; [reflexivity|]. split; [reflexivity|].
  assert (Hw : wf g4) by (apply mkgraph_wf; reflexivity). assert (Hb : binary g4) by (apply binary_list; reflexivity).
  pose proof (C08_every_operation g4 Hw Hb 9 5 2 s1) as H.
  edestruct H as (_ & _ & HF); [lia | apply st0_vals_ok; reflexivity | vm_compute; reflexivity | exact HF].
Qed.

(** C05.  In the last pass [T] of sample_from_prior each ancestor is drawn exactly once, after its inputs, each with
    its own stretch [lo, hi) of generator states, in the order of T.  A random variable stores the simulator's answer
    at the finally stored inputs; an arithmetic node stores an evaluation of its whole expression in which every
    random variable is drawn anew ([Fresh]). *)
Theorem C05_ancestral_exact :
  forall g, wf g -> binary g -> (forall n ins v, gkind g n = Oper -> gchk_out g n ins v = true) ->
  forall roots tries,
  (forall n ins t v rest, is_free g n = true -> gchk_in g n ins = true ->
     gsim g n ins 1 t = Some (v :: rest) -> gchk_out g n ins v = true) ->
  indep g roots -> forall s s', clean g roots s -> vals_ok g s ->
  sample_from_prior g roots tries s = (s', Ok tt) ->
  clean g roots s' /\ vals_ok g s' /\
  exists tr0 T c0 lo hi, tr s' = tr0 ++ T /\ ctr s <= c0 /\ NoDup T
    /\ (forall n, In n T <-> exists r, In r roots /\ Anc g n r)
    /\ (forall l1 n l2, T = l1 ++ n :: l2 -> forall p, In p (gpar g n) -> In p l1)
    /\ (forall n, In n T -> is_hyper g n = false ->
          exists x rest, Fresh g (val s') 1 n (lo n) (hi n) (x :: rest) /\ val s' n = Some x
                         /\ gchk_in g n (inputs_at g (val s') n) = true)
    /\ (forall n, In n T -> c0 <= lo n /\ lo n <= hi n /\ hi n <= ctr s')
    /\ (forall l1 n l2 m, T = l1 ++ n :: l2 -> In m l1 -> hi m <= lo n).
Proof. exact sample_from_prior_fresh. Qed.
Print Assumptions C05_ancestral_exact.
Example C05_exact_case : binary g1 /\ (forall n ins v, gkind g1 n = Oper -> gchk_out g1 n ins v = true)
  /\ exists s', sample_from_prior g1 [5] 3 s1 = (s', Ok tt) /\ tr s' = [0; 1; 2; 3; 4] /\ ctr s' = 4
  /\ match val s' 2, val s' 3, val s' 4 with Some [x], Some [y], Some [z] => (x == 5 /\ y == 20 # 3 /\ ~ z == x + y)%Q | _, _, _ => False end.
Proof.
  split; [apply binary_list; reflexivity|]. split; [intros n ins v Hn; cbn in Hn |- *; rewrite Hn; reflexivity|].
  eexists. split; [vm_compute; reflexivity|]. split; [reflexivity|]. split; [reflexivity|].
  vm_compute. split; [reflexivity|]. split; [reflexivity | discriminate].
Qed.
