(** C79: samples from the prior follow the density that pdf_of_prior computes. *)
From Coq Require Import Reals Lra Lia Qreals Permutation.
From Verif Require Import M_Base M_Num M_XReal M_Stats S_Stats L_Stats L_Distance L_PosDef S_Law P_Law L_Law S_Gen L_Gen.
From Verif Require Import M_Graph S_Graph L_Graph L_Graph2 L_Graph3 L_Graph4 P_Graph S_PriorLaw L_PriorLaw L_PriorLaw2.
Open Scope R_scope.

Section Prior.
(** independent draws, each of the law p on outs *)
Variable A : Type.
Variable outs : list A.
Variable p : A -> R.
Hypothesis law : Law outs p.
(** a graph without arithmetic nodes; the simulator of node n turns inputs and one draw into a value *)
Variable g : graph.
Hypothesis Hwf : wf g.
Hypothesis no_oper : forall n, is_oper g n = false.
Variable samp : nat -> list (option Q) -> A -> list Q.
(** values have the declared dimension and pass the check of the node *)
Hypothesis dims : forall n ins a, is_free g n = true -> length (samp n ins a) = gdim g n.
Hypothesis checks : forall n ins a, is_free g n = true -> gchk_in g n ins = true -> gchk_out g n ins (samp n ins a) = true.
(** every single node follows its own density, given accepted inputs *)
Hypothesis density : forall n ins x, is_free g n = true -> gchk_in g n ins = true -> length x = gdim g n -> lowest x ->
  chance outs p (fun a => if vec_dec (samp n ins a) x then true else false) = Q2R (gdens g n ins x).
Variable roots : list nat.
Hypothesis Hi : indep g roots.
Variable s : st.
Hypothesis Hc : clean g roots s.
Hypothesis Hv : vals_ok g s.
Hypothesis Ht : ctr s = 0%nat.

(** Z is the chance that the first pass refuses no inputs.  If it is positive, sample_from_prior returns with certainty in the limit, and the chance of the
    parameters it leaves is the value of pdf_of_prior divided by Z; it is 0 for parameters for which a node refuses its inputs. *)
Theorem C79_prior_law : exists Z, 0 <= Z <= 1
  /\ Tends outs p (fun _ l => if drawn_at_once (with_draws g samp l) roots s then 1 else 0) Z
  /\ ((forall n ins, is_free g n = true -> gchk_in g n ins = true) -> Z = 1)
  /\ (0 < Z ->
      Tends outs p (fun tries l => match sample_from_prior (with_draws g samp l) roots tries s with (_, Ok _) => 1 | _ => 0 end) 1
      /\ forall params o ls s1 k, ParamOrder g roots o -> Forall2 (Expand g) (flat_map (gpar g) roots) ls ->
         (forall n, gkind g n = Disc -> (count_occ Nat.eq_dec (concat ls) n <= 1)%nat) ->
         length params = length o -> Forall lowest params -> set_parameters g roots params s = (s1, Ok (true, k)) ->
         exists s' q, pdf_of_prior g roots params s = (s', Ok q)
           /\ ((forall n, In n o -> gchk_in g n (inputs_at g (val s') n) = true) ->
               Tends outs p (fun tries l => if sampled_to (with_draws g samp l) roots tries s params then 1 else 0) (Q2R q / Z))
           /\ ((exists n, In n o /\ gchk_in g n (inputs_at g (val s') n) = false) ->
               Tends outs p (fun tries l => if sampled_to (with_draws g samp l) roots tries s params then 1 else 0) 0)).
Proof.
  exists (chance_once A outs p g samp roots s). split; [apply once_range; assumption|]. split; [apply once_law; assumption|]. split; [apply once_sure; assumption|]. intros Hpos. split; [apply returned_law; assumption|].
  intros params o ls s1 k Ho Hls Hd Hlen Hlow Hset.
  destruct (C04_prior_density_once g Hwf roots params s s1 k o ls Hi Hc Hv Ho Hls Hd Hset) as (s' & q & Hq & Eq & Hw & Hw' & _). exists s', q. split; [exact Hq|].
  pose proof (proj1 (ParamOrder_order g Hwf roots o) Ho) as Eo. subst o.
  assert (Hok : forall i n x, nth_error (order g roots) i = Some n -> nth_error params i = Some x -> length x = gdim g n).
  { intros i n x Ei Ex. destruct (set_parameters_true g Hwf roots params s s1 k Hi Hc Hset) as (_ & _ & Hv1 & _ & _ & Hok1). specialize (Hok1 Hv).
    destruct (pdf_of_prior_spec g Hwf roots params s s1 k Hi Hc Hv Hset) as (s'' & q' & Hq' & Hs'' & _). rewrite Hq in Hq'. injection Hq' as <- _. apply (Hok1 n x). rewrite <- Hs''. rewrite (Hw i n Ei). exact Ex. }
  pose proof (sampled_law A outs p law g Hwf no_oper samp dims checks density roots Hi s Hc Hv Ht Hpos (val s') params Hlen Hw Hw' Hlow Hok) as L. split.
  - intros Hin. refine (Tends_eq A outs p _ _ _ _ L). f_equal. rewrite (Qeq_eqR _ _ Eq), <- prodR_Q. f_equal. rewrite map_map.
    assert (K : forall o' ps, (forall n, In n o' -> In n (order g roots)) -> Forall2 (fun n x => val s' n = Some x) o' ps -> map (target_factor g (val s')) o' = map (fun ni => Q2R (gdens g (fst ni) (inputs_at g (val s') (fst ni)) (snd ni))) (combine o' ps)).
    { intros o' ps Hs F. induction F as [|n x o' ps E F IH]; [reflexivity|]. cbn [combine map fst snd]. rewrite IH by (intros m Hm; apply Hs; right; exact Hm). f_equal. unfold target_factor.
      assert (Hn := Hs n (or_introl eq_refl)). rewrite (Hin n Hn), E. apply (order_In g Hwf) in Hn. destruct Hn as (Hn & _). unfold is_free in Hn. destruct (is_hyper g n); [discriminate|reflexivity]. }
    apply K; [auto|]. clear - Hlen Hw. assert (J : forall o' ps, length ps = length o' -> (forall i n, nth_error o' i = Some n -> val s' n = nth_error ps i) -> Forall2 (fun n x => val s' n = Some x) o' ps).
    { induction o' as [|n o' IH]; intros [|x ps] Hl H; try discriminate; constructor; [exact (H 0%nat n eq_refl)|]. apply IH; [cbn in Hl; lia|]. intros i m Hm. apply (H (Datatypes.S i) m Hm). }
    apply J; assumption.
  - intros (n & Hn & Hr). refine (Tends_eq A outs p _ _ _ _ L). rewrite prodR_zero; [unfold Rdiv; ring|]. apply in_map_iff. exists n. split; [|exact Hn]. unfold target_factor. rewrite Hr. apply (order_In g Hwf) in Hn. destruct Hn as (Hn & _). unfold is_free in Hn. destruct (is_hyper g n); [discriminate|reflexivity].
Qed.
(** If no node ever refuses its inputs, the chance is the value of pdf_of_prior itself. *)
Theorem C79_no_refusals : (forall n ins, is_free g n = true -> gchk_in g n ins = true) ->
  forall params o ls s1 k, ParamOrder g roots o -> Forall2 (Expand g) (flat_map (gpar g) roots) ls ->
  (forall n, gkind g n = Disc -> (count_occ Nat.eq_dec (concat ls) n <= 1)%nat) ->
  length params = length o -> Forall lowest params -> set_parameters g roots params s = (s1, Ok (true, k)) ->
  exists s' q, pdf_of_prior g roots params s = (s', Ok q)
    /\ Tends outs p (fun tries l => if sampled_to (with_draws g samp l) roots tries s params then 1 else 0) (Q2R q).
Proof.
  intros Hn params o ls s1 k Ho Hls Hd Hlen Hlow Hset. destruct C79_prior_law as (Z & _ & _ & Z1 & H). specialize (Z1 Hn). subst Z. destruct (H Rlt_0_1) as (_ & H'). destruct (H' params o ls s1 k Ho Hls Hd Hlen Hlow Hset) as (s' & q & Hq & T1 & _).
  exists s', q. split; [exact Hq|]. refine (Tends_eq A outs p _ _ _ _ (T1 _)); [field|]. intros n Ho'. apply Hn. apply (ParamOrder_order g Hwf) in Ho. subst o. apply (order_In g Hwf) in Ho'. tauto.
Qed.
End Prior.
Print Assumptions C79_prior_law.
Print Assumptions C79_no_refusals.

(** X is uniform on 0, 1, 2; Y needs X > 0 and is 0 for X = 1, and 0 (chance 2/3) or 1 (chance 1/3) for X = 2; node 2 is observed, with input Y.  *)
Module Two.
Definition outs : list Z := [0; 1; 2]%Z.
Definition p (_ : Z) : R := 1 / 3.
Definition one (ins : list (option Q)) : bool := match ins with [Some x] => Qeq_bool x 1 | _ => false end.
Definition two (ins : list (option Q)) : bool := match ins with [Some x] => Qeq_bool x 2 | _ => false end.
Definition samp (n : nat) (ins : list (option Q)) (a : Z) : list Q :=
  match n with
  | O => [inject_Z a]
  | Datatypes.S O => [inject_Z (if one ins then 0 else Z.modulo a 2)]
  | _ => [0%Q]
  end.
Definition is (x y : list Q) : bool := if vec_dec x y then true else false.
Definition g : graph :=
  {| gkind := fun n => match n with O | Datatypes.S O => Disc | _ => Cont end;
     gconn := fun n => match n with O => [] | Datatypes.S O => [(0, 0)]%nat | Datatypes.S (Datatypes.S O) => [(1, 0)]%nat | _ => [] end;
     gdim := fun _ => 1%nat;
     gchk_in := fun n ins => match n with Datatypes.S O => one ins || two ins | _ => true end;
     gchk_out := fun _ _ _ => true;
     gdens := fun n ins x => (match n with
       | O => if is [0] x || is [1] x || is [2] x then 1 # 3 else 0
       | Datatypes.S O => if one ins then (if is [0] x then 1 else 0) else if is [0] x then 2 # 3 else if is [1] x then 1 # 3 else 0
       | _ => if is [0] x then 1 else 0
       end)%Q;
     gsim := fun _ _ _ _ => None; gop := fun _ => OSum; gpow := fun x _ => x |}.
Definition s : st := mkst (fun _ => false) (fun _ => None) (fun _ => None) 0 [].
Lemma law : Law outs p.
Proof. split; [intros a _; unfold p; lra|]. cbn. unfold p. lra. Qed.
Lemma Hwf : wf g.
Proof.
  split; [|split].
  - intros [|[|[|n]]] m H; cbn in H; intuition lia.
  - intros [|[|n]] H; discriminate.
  - intros [|[|[|n]]] m j H; cbn in H; destruct H as [H|[]] || destruct H; injection H as <- <-; cbn; lia.
Qed.
Lemma no_oper n : is_oper g n = false.
Proof. destruct n as [|[|n]]; reflexivity. Qed.
Lemma expect3 f : expect outs p f = 1 / 3 * f 0%Z + 1 / 3 * f 1%Z + 1 / 3 * f 2%Z.
Proof. unfold expect, outs, p. cbn. ring. Qed.
Lemma density n ins x : is_free g n = true -> gchk_in g n ins = true -> length x = gdim g n -> lowest x ->
  chance outs p (fun a => if vec_dec (samp n ins a) x then true else false) = Q2R (gdens g n ins x).
Proof.
  intros _ _ _ _. unfold chance. rewrite expect3. destruct n as [|[|n]]; cbn [samp g gdens].
  - unfold is. change (inject_Z 0) with 0%Q. change (inject_Z 1) with 1%Q. change (inject_Z 2) with 2%Q.
    destruct (vec_dec [0%Q] x) as [E0|N0]; destruct (vec_dec [1%Q] x) as [E1|N1]; destruct (vec_dec [2%Q] x) as [E2|N2]; try congruence; cbn [orb]; unfold Q2R; cbn; lra.
  - unfold is. destruct (one ins).
    + change (inject_Z 0) with 0%Q. destruct (vec_dec [0%Q] x); unfold Q2R; cbn; lra.
    + change (inject_Z (0 mod 2)) with 0%Q. change (inject_Z (1 mod 2)) with 1%Q. change (inject_Z (2 mod 2)) with 0%Q.
      destruct (vec_dec [0%Q] x) as [E0|N0]; destruct (vec_dec [1%Q] x) as [E1|N1]; try congruence; unfold Q2R; cbn; lra.
  - unfold is. destruct (vec_dec [0%Q] x); unfold Q2R; cbn; lra.
Qed.
Lemma Hi : indep g [2]%nat.
Proof. intros r r' [<-|[]] [<-|[]] H. assert (X : forall a n, Anc g a n -> (a < n)%nat); [|apply X in H; lia]. clear. induction 1 as [a n H|a q n H _ IH]; [|apply Nat.lt_trans with q; [exact IH|]]; apply (proj1 Hwf); exact H. Qed.
Lemma once : chance_once Z outs p g samp [2]%nat s = 2 / 3.
Proof.
  unfold chance_once. let v := eval vm_compute in (plan g [2]%nat) in change (plan g [2]%nat) with v. cbn [El]. change (is_hyper g 0) with false. change (is_hyper g 1) with false. cbn match. change (gchk_in g 0 _) with true. cbn match. rewrite expect3.
  let t := eval vm_compute in (gchk_in g 1 (inputs_at g (upd (val s) 0 (Some (samp 0 (inputs_at g (val s) 0) 0%Z))) 1)) in change (gchk_in g 1 (inputs_at g (upd (val s) 0 (Some (samp 0 (inputs_at g (val s) 0) 0%Z))) 1)) with t.
  let t := eval vm_compute in (gchk_in g 1 (inputs_at g (upd (val s) 0 (Some (samp 0 (inputs_at g (val s) 0) 1%Z))) 1)) in change (gchk_in g 1 (inputs_at g (upd (val s) 0 (Some (samp 0 (inputs_at g (val s) 0) 1%Z))) 1)) with t.
  let t := eval vm_compute in (gchk_in g 1 (inputs_at g (upd (val s) 0 (Some (samp 0 (inputs_at g (val s) 0) 2%Z))) 1)) in change (gchk_in g 1 (inputs_at g (upd (val s) 0 (Some (samp 0 (inputs_at g (val s) 0) 2%Z))) 1)) with t.
  cbn match. rewrite !expect3. unfold acc_ind. field.
Qed.
Lemma unique {A} (o : list A) (q : A -> R) u a b : Tends o q u a -> Tends o q u b -> a = b.
Proof.
  intros Ha Hb. destruct (Req_dec a b) as [E|N]; [exact E|exfalso]. destruct (Ha (Rabs (a - b) / 2)) as (K1 & H1); [apply Rdiv_lt_0_compat; [apply Rabs_pos_lt; lra|lra]|]. destruct (Hb (Rabs (a - b) / 2)) as (K2 & H2); [apply Rdiv_lt_0_compat; [apply Rabs_pos_lt; lra|lra]|].
  specialize (H1 (max K1 K2) (Datatypes.S (max K1 K2)) ltac:(lia)). specialize (H2 (max K1 K2) (Datatypes.S (max K1 K2)) ltac:(lia)). set (m := mean o q (max K1 K2) (u (Datatypes.S (max K1 K2)))) in *.
  assert (X : Rabs (a - b) <= Rabs (m - a) + Rabs (m - b)) by (replace (a - b) with ((m - b) - (m - a)) by ring; unfold Rminus at 1; eapply Rle_trans; [apply Rabs_triang|]; rewrite Rabs_Ropp; lra). lra.
Qed.
Lemma paths : Forall2 (Expand g) (flat_map (gpar g) [2]%nat) [[1; 0]]%nat.
Proof.
  constructor; [|constructor]. assert (E0 : Expand g 0 [0%nat]) by exact (expand g 0 [] (Forall2_nil _)). exact (expand g 1 [[0%nat]] (Forall2_cons _ _ E0 (Forall2_nil _))).
Qed.
Lemma ordered : ParamOrder g [2]%nat [1; 0]%nat.
Proof. exists [[1; 0]]%nat. split; [exact paths|reflexivity]. Qed.
End Two.
(** With refused inputs pdf_of_prior is not the law of the samples: here it is too small by the factor 2/3. *)
Theorem C79_refusals_refuted : exists (g : graph) (samp : nat -> list (option Q) -> Z -> list Q) (roots : list nat) (s s1 s' : st) (params : list (list Q)) (q : Q),
  Law Two.outs Two.p /\ wf g /\ (forall n, is_oper g n = false) /\ indep g roots /\ clean g roots s /\ vals_ok g s /\ ctr s = 0%nat
  /\ (forall n ins a, is_free g n = true -> length (samp n ins a) = gdim g n)
  /\ (forall n ins a, is_free g n = true -> gchk_in g n ins = true -> gchk_out g n ins (samp n ins a) = true)
  /\ (forall n ins x, is_free g n = true -> gchk_in g n ins = true -> length x = gdim g n -> lowest x ->
        chance Two.outs Two.p (fun a => if vec_dec (samp n ins a) x then true else false) = Q2R (gdens g n ins x))
  /\ set_parameters g roots params s = (s1, Ok (true, length params)) /\ pdf_of_prior g roots params s = (s', Ok q) /\ (q == 1 # 9)%Q
  /\ Tends Two.outs Two.p (fun tries l => if sampled_to (with_draws g samp l) roots tries s params then 1 else 0) (1 / 6)
  /\ ~ Tends Two.outs Two.p (fun tries l => if sampled_to (with_draws g samp l) roots tries s params then 1 else 0) (Q2R q).
Proof.
  assert (Hc : clean Two.g [2]%nat Two.s) by (intros r n _ _; reflexivity). assert (Hv : vals_ok Two.g Two.s) by (intros n v; discriminate).
  destruct (set_parameters Two.g [2]%nat [[1%Q]; [2%Q]] Two.s) as [s1 r] eqn:E1. assert (R1 : r = Ok (true, 2%nat)) by (change r with (snd (s1, r)); rewrite <- E1; vm_compute; reflexivity). subst r.
  assert (L := sampled_law Z Two.outs Two.p Two.law Two.g Two.Hwf Two.no_oper Two.samp ltac:(intros [|[|n]] ins a _; reflexivity) ltac:(reflexivity) Two.density [2]%nat Two.Hi Two.s Hc Hv eq_refl ltac:(rewrite Two.once; lra)).
  destruct (C04_prior_density_once Two.g Two.Hwf [2]%nat [[1%Q]; [2%Q]] Two.s s1 2 [1; 0]%nat [[1; 0]]%nat Two.Hi Hc Hv Two.ordered Two.paths ltac:(intros [|[|n]] _; cbn; lia) E1) as (s' & q & Hq & Eq & Hw & Hw' & _).
  assert (Eo : order Two.g [2]%nat = [1; 0]%nat) by reflexivity. specialize (L (val s') [[1%Q]; [2%Q]] eq_refl). rewrite Eo in L. specialize (L Hw Hw').
  assert (W0 : val s' 0%nat = Some [2%Q]) by exact (Hw 1%nat 0%nat eq_refl). assert (W1 : val s' 1%nat = Some [1%Q]) by exact (Hw 0%nat 1%nat eq_refl).
  assert (Q9 : (q == 1 # 9)%Q) by (rewrite Eq; unfold inputs_at; cbn [combine map fst snd gconn Two.g]; rewrite W0; vm_compute; reflexivity).
  assert (L' : Tends Two.outs Two.p (fun tries l => if sampled_to (with_draws Two.g Two.samp l) [2]%nat tries Two.s [[1%Q]; [2%Q]] then 1 else 0) (1 / 6)).
  { refine (Tends_eq _ _ _ _ _ _ _ (L _ _)).
    - cbn [map prodR fold_right]. unfold target_factor. change (is_hyper Two.g 1) with false. change (is_hyper Two.g 0) with false. unfold inputs_at. cbn [gconn Two.g map fst snd]. rewrite W0, W1. cbn [nth_error].
      match goal with |- context [gchk_in ?h 1 ?i] => let t := eval vm_compute in (gchk_in h 1 i) in change (gchk_in h 1 i) with t end. match goal with |- context [gchk_in ?h 0 ?i] => let t := eval vm_compute in (gchk_in h 0 i) in change (gchk_in h 0 i) with t end. cbn match.
      match goal with |- context [gdens ?h 1 ?i ?x] => let t := eval vm_compute in (gdens h 1 i x) in change (gdens h 1 i x) with t end. match goal with |- context [gdens ?h 0 ?i ?x] => let t := eval vm_compute in (gdens h 0 i x) in change (gdens h 0 i x) with t end.
      rewrite Two.once. unfold Q2R. cbn. field.
    - repeat constructor.
    - clear. intros i n x _ E3. change (length x = 1%nat). destruct i as [|[|i]]; [injection E3 as <-; reflexivity|injection E3 as <-; reflexivity|destruct i; discriminate E3]. }
  exists Two.g, Two.samp, [2]%nat, Two.s, s1, s', [[1%Q]; [2%Q]], q. split; [exact Two.law|]. split; [exact Two.Hwf|]. split; [exact Two.no_oper|]. split; [exact Two.Hi|]. split; [exact Hc|]. split; [exact Hv|]. split; [reflexivity|].
  split; [intros [|[|n]] ins a _; reflexivity|]. split; [reflexivity|]. split; [exact Two.density|]. split; [exact E1|]. split; [exact Hq|]. split; [exact Q9|]. split; [exact L'|].
  intros L2. pose proof (Two.unique _ _ _ _ _ L' L2) as X. rewrite (Qeq_eqR _ _ Q9) in X. unfold Q2R in X. cbn in X. lra.
Qed.
Print Assumptions C79_refusals_refuted.
(** the hypotheses of C79_prior_law for this graph; four draws: X = 0 is refused, then X = 2, Y = 1 *)
Example C79_case :
  Law Two.outs Two.p /\ wf Two.g /\ indep Two.g [2]%nat
  /\ drawn_at_once (with_draws Two.g Two.samp [0; 2; 1; 0]%Z) [2]%nat Two.s = false
  /\ sampled_to (with_draws Two.g Two.samp [0; 2; 1; 0]%Z) [2]%nat 3 Two.s [[1]; [2]]%Q = true
  /\ sampled_to (with_draws Two.g Two.samp [0; 2; 1; 0]%Z) [2]%nat 1 Two.s [[1]; [2]]%Q = false.
Proof. split; [exact Two.law|]. split; [exact Two.Hwf|]. split; [exact Two.Hi|]. vm_compute. repeat split. Qed.
