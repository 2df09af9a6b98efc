(** Proofs about the graph walks: effect of set_parameters on the stored values, prior density. *)
From Coq Require Import Permutation.
From Verif Require Import M_Base M_Graph S_Graph L_Graph.

Section WF.
Variable g : graph.
Hypothesis Hwf : wf g.

(** * Input values *)
Lemma input_values_ok s n : vals_ok g s -> input_values g n s = (s, Ok (inputs_at g (val s) n)).
Proof.
  intros Hv. unfold input_values, inputs_at.
  assert (Hj : forall m j, In (m, j) (gconn g n) -> j < gdim g m) by (intros m j; apply (proj2 (proj2 Hwf))).
  induction (gconn g n) as [|[m j] l IH]; [reflexivity|].
  cbn [forM map]. unfold input_value at 1, bind, get_val. cbn [fst snd].
  destruct (val s m) as [v|] eqn:Hm.
  - destruct (nth_error v j) as [q|] eqn:Hq.
    + unfold ret at 1. rewrite IH by (intros a b Hab; apply Hj; right; exact Hab). reflexivity.
    + exfalso. apply nth_error_None in Hq. specialize (Hv m v Hm). specialize (Hj m j (or_introl eq_refl)). lia.
  - unfold ret at 1. rewrite IH by (intros a b Hab; apply Hj; right; exact Hab). reflexivity.
Qed.
Lemma inputs_at_ext v v' n : (forall p, In p (gpar g n) -> v p = v' p) -> inputs_at g v n = inputs_at g v' n.
Proof.
  intros H. unfold inputs_at. apply map_ext_in. intros [m j] Hin. cbn [fst snd].
  rewrite (H m); [reflexivity|]. unfold gpar. apply (in_map fst) in Hin. exact Hin.
Qed.

(** * assign *)
Lemma assign_notin o : forall params v m, ~ In m o -> assign o params v m = v m.
Proof.
  induction o as [|n o IH]; intros params v m Hm; [reflexivity|].
  destruct params as [|x params]; [reflexivity|]. cbn [assign].
  rewrite IH by (intros H; apply Hm; right; exact H). unfold upd.
  destruct (Nat.eqb_spec m n) as [->|]; [exfalso; apply Hm; left; reflexivity | reflexivity].
Qed.
Lemma assign_get o : NoDup o -> forall params v, length o <= length params ->
  map (assign o params v) o = map Some (firstn (length o) params).
Proof.
  induction 1 as [|n o Hn Hnd IH]; intros params v Hl; [reflexivity|].
  destruct params as [|x params]; cbn in Hl; [lia|]. cbn [length firstn map assign]. f_equal.
  - rewrite assign_notin by exact Hn. unfold upd. rewrite Nat.eqb_refl. reflexivity.
  - rewrite <- (IH params (upd v n (Some x))) by lia. reflexivity.
Qed.
Lemma assign_nth o : NoDup o -> forall params v k n, nth_error o k = Some n -> k < length params ->
  assign o params v n = nth_error params k.
Proof.
  induction 1 as [|m o Hm Hnd IH]; intros params v k n Hk Hl; [destruct k; discriminate|].
  destruct params as [|x params]; cbn in Hl; [lia|]. destruct k as [|k]; cbn in Hk |- *.
  - inversion Hk; subst. rewrite assign_notin by exact Hm. unfold upd. rewrite Nat.eqb_refl. reflexivity.
  - apply IH; [exact Hk | lia].
Qed.
Lemma assign_self o : forall params v, length o <= length params ->
  map v o = map Some (firstn (length o) params) -> forall m, assign o params v m = v m.
Proof.
  induction o as [|n o IH]; intros params v Hl Hv m; [reflexivity|].
  destruct params as [|x params]; cbn in Hl; [lia|]. cbn [length firstn map] in Hv. inversion Hv as [[Hn Ho]].
  cbn [assign].
  assert (Hu : forall k, upd v n (Some x) k = v k).
  { intros k. unfold upd. destruct (Nat.eqb_spec k n) as [->|]; congruence. }
  rewrite IH; [apply Hu | lia |]. rewrite <- Ho. apply map_ext. exact Hu.
Qed.

(** * writes *)
Lemma skipn_nth {A} (l : list A) i v : nth_error l i = Some v -> skipn i l = v :: skipn (S i) l.
Proof.
  revert i. induction l as [|x l IH]; intros [|i] H; cbn in H |- *; try discriminate.
  - inversion H. reflexivity.
  - apply IH in H. exact H.
Qed.
Lemma sov_true n v s s' : set_output_values g n v s = (s', Ok true) ->
  val s' = upd (val s) n (Some v) /\ length v = gdim g n.
Proof.
  unfold set_output_values. destruct (Nat.eqb_spec (length v) (gdim g n)) as [Hl|]; [|discriminate].
  unfold bind. destruct (input_values_same g n s s eq_refl) as (I1 & _ & _).
  destruct (input_values g n s) as [s1 [ins|e]]; cbn in I1; subst; [|discriminate].
  destruct (gchk_out g n ins v); intros H; inversion H. split; [reflexivity | exact Hl].
Qed.
Lemma writes_true params L : forall i s s' k, writes g params L i s = (s', Ok (true, k)) ->
  k = i + length L /\ k <= Nat.max i (length params) /\ val s' = assign L (skipn i params) (val s)
  /\ (vals_ok g s -> vals_ok g s').
Proof.
  induction L as [|n L IH]; intros i s s' k H; cbn [writes] in H.
  - inversion H; subst. cbn. split; [lia|]. split; [lia|]. split; [reflexivity|]. tauto.
  - destruct (nth_error params i) as [v|] eqn:Hv; [|discriminate].
    unfold bind in H. destruct (set_output_values g n v s) as [s1 [[|]|e]] eqn:Hs; try discriminate.
    apply sov_true in Hs. destruct Hs as [Hs Hlen].
    apply IH in H. destruct H as (H1 & H1' & H2 & H3). cbn [length]. split; [lia|]. split; [|split].
    + assert (i < length params) by (apply nth_error_Some; congruence). lia.
    + rewrite H2, (skipn_nth params i v Hv), Hs. reflexivity.
    + intros Hok. apply H3. intros m w. rewrite Hs. unfold upd.
      destruct (Nat.eqb_spec m n) as [->|]; intros Hw; [congruence | apply (Hok m w Hw)].
Qed.
Lemma writes_spec params L : forall i s, vals_ok g s ->
  (forall k n, nth_error L k = Some n -> exists v, nth_error params (i + k) = Some v /\ length v = gdim g n) ->
  exists b j s', writes g params L i s = (s', Ok (b, i + j)) /\ j <= length L
    /\ val s' = assign (firstn j L) (skipn i params) (val s) /\ vals_ok g s'
    /\ (forall k n v, k < j -> nth_error L k = Some n -> nth_error params (i + k) = Some v ->
          gchk_out g n (inputs_at g (assign (firstn k L) (skipn i params) (val s)) n) v = true)
    /\ (if b then j = length L
        else exists n v, nth_error L j = Some n /\ nth_error params (i + j) = Some v
                         /\ gchk_out g n (inputs_at g (val s') n) v = false).
Proof.
  induction L as [|n L IH]; intros i s Hok Hlen.
  - exists true, 0, s. cbn. rewrite Nat.add_0_r. repeat split; auto. intros; lia.
  - destruct (Hlen 0 n eq_refl) as (v & Hv & Hdim). rewrite Nat.add_0_r in Hv.
    cbn [writes]. rewrite Hv. unfold set_output_values. rewrite Hdim, Nat.eqb_refl.
    unfold bind. rewrite (input_values_ok s n Hok).
    destruct (gchk_out g n (inputs_at g (val s) n) v) eqn:Hchk.
    + set (s1 := fst (set_val n v s)).
      destruct (IH (S i) s1) as (b & j & s' & H1 & H2 & H3 & H4 & H5 & H6).
      { intros m w. unfold s1. cbn. unfold upd. destruct (Nat.eqb_spec m n) as [->|]; intros Hw.
        - inversion Hw. subst. exact Hdim.
        - apply Hok. exact Hw. }
      { intros k m Hk. replace (S i + k) with (i + S k) by lia. apply Hlen. exact Hk. }
      exists b, (S j), s'. split; [|split; [|split; [|split; [|split]]]].
      * change (set_val n v s) with (s1, @Ok unit tt). cbn iota beta. unfold ret at 1. rewrite H1.
        do 3 f_equal. lia.
      * cbn. lia.
      * rewrite H3, (skipn_nth params i v Hv). reflexivity.
      * exact H4.
      * intros k m w Hk Hm Hw. destruct k as [|k].
        -- cbn in Hm. inversion Hm; subst. rewrite Nat.add_0_r in Hw. cbn [firstn assign].
           replace w with v by congruence. exact Hchk.
        -- cbn [nth_error] in Hm. cbn [firstn]. rewrite (skipn_nth params i v Hv). cbn [assign].
           apply (H5 k m w); [lia | exact Hm |]. replace (S i + k) with (i + S k) by lia. exact Hw.
      * destruct b; [cbn; lia|]. destruct H6 as (m & w & Hm & Hw & Hc). exists m, w.
        split; [exact Hm|]. split; [|exact Hc]. replace (i + S j) with (S i + j) by lia. exact Hw.
    + exists false, 0, s. rewrite Nat.add_0_r. split; [reflexivity|]. split; [lia|]. split; [reflexivity|].
      split; [exact Hok|]. split; [intros; lia|]. exists n, v. auto.
Qed.
Lemma set_parameters_spec roots params s :
  indep g roots -> clean g roots s -> vals_ok g s ->
  (forall k n, nth_error (order g roots) k = Some n -> exists v, nth_error params k = Some v /\ length v = gdim g n) ->
  exists b j s', set_parameters g roots params s = (s', Ok (b, j)) /\ j <= length (order g roots)
    /\ val s' = assign (firstn j (order g roots)) params (val s) /\ vals_ok g s' /\ clean g roots s'
    /\ (forall k n v, k < j -> nth_error (order g roots) k = Some n -> nth_error params k = Some v ->
          gchk_out g n (inputs_at g (assign (firstn k (order g roots)) params (val s)) n) v = true)
    /\ (if b then j = length (order g roots)
        else exists n v, nth_error (order g roots) j = Some n /\ nth_error params j = Some v
                         /\ gchk_out g n (inputs_at g (val s') n) v = false).
Proof.
  intros Hi Hcl Hok Hlen.
  destruct (set_parameters_writes g Hwf roots params s Hi Hcl) as (s' & s1 & r & H1 & H2 & H3 & H4).
  destruct (writes_spec params (order g roots) 0 s Hok Hlen) as (b & j & s2 & W1 & W2 & W3 & W4 & W5 & W6).
  rewrite W1 in H2. inversion H2; subst. cbn in *.
  exists b, j, s'. destruct (H4 (ex_intro _ _ eq_refl)) as (T1 & _).
  split; [exact H1|]. split; [exact W2|]. split; [congruence|]. split.
  { intros n v. rewrite H3. apply W4. }
  split; [exact T1|]. split; [exact W5|]. rewrite H3. exact W6.
Qed.
Lemma set_parameters_true roots params s s' k :
  indep g roots -> clean g roots s -> set_parameters g roots params s = (s', Ok (true, k)) ->
  k = length (order g roots) /\ k <= length params /\ val s' = assign (order g roots) params (val s) /\ clean g roots s'
  /\ (forall r m, In r roots -> m = r \/ Anc g m r -> cpdf s' m = None)
  /\ (vals_ok g s -> vals_ok g s').
Proof.
  intros Hi Hcl H.
  destruct (set_parameters_writes g Hwf roots params s Hi Hcl) as (s1' & s1 & r & H1 & H2 & H3 & H4).
  rewrite H in H1. inversion H1; subst. apply writes_true in H2. destruct H2 as (A & B & C & D).
  destruct (H4 (ex_intro _ _ eq_refl)) as (T1 & T2 & _).
  split; [exact A|]. split; [lia|]. split; [rewrite H3; exact C|]. split; [exact T1|]. split; [exact T2|].
  intros Hok m w. rewrite H3. apply (D Hok).
Qed.

(** * pdf_of_prior *)
(** paths in the order in which factors are multiplied: inputs first *)
Fixpoint pof (fuel n : nat) : list nat :=
  match fuel with
  | 0 => []
  | S f => flat_map (pof f) (gpar g n) ++ [n]
  end.
Lemma pof_perm f n : n < f -> Permutation (pof f n) (E g n).
Proof.
  revert n. induction f as [|f IH]; intros n Hn; [lia|]. cbn [pof].
  rewrite (E_unfold g Hwf). rewrite <- Permutation_cons_append. constructor.
  assert (Hlt : forall p, In p (gpar g n) -> p < f) by (intros p Hp; apply (par_lt g Hwf) in Hp; lia).
  induction (gpar g n) as [|p ps IHp]; [constructor|]. cbn [flat_map].
  apply Permutation_app; [apply IH, Hlt; left; reflexivity | apply IHp; intros q Hq; apply Hlt; right; exact Hq].
Qed.

Section Pdf.
Variable D : nat -> Q.
(** product of the factors of a list of nodes, [C] telling which are already accounted for *)
Fixpoint contrib (C : nat -> bool) (l : list nat) : Q :=
  match l with
  | [] => 1
  | m :: l' =>
      match gkind g m with
      | Cont => ((if C m then 1 else D m) * contrib (upd C m true) l')%Q
      | Disc => ((if C m then 1 else D m) * contrib C l')%Q
      | _ => contrib C l'
      end
  end.
Definition cmark (C : nat -> bool) (l : list nat) (m : nat) : bool :=
  C m || (memb m l && match gkind g m with Cont => true | _ => false end).
Lemma contrib_ext l : forall C C', (forall m, C m = C' m) -> (contrib C l == contrib C' l)%Q.
Proof.
  induction l as [|m l IH]; intros C C' H; cbn [contrib]; [reflexivity|].
  destruct (gkind g m); try (apply IH; exact H); rewrite (H m); apply Qmult_comp; try reflexivity; apply IH.
  - intros k. unfold upd. destruct (k =? m); [reflexivity | apply H].
  - exact H.
Qed.
Lemma contrib_app l1 l2 : forall C, (contrib C (l1 ++ l2) == contrib C l1 * contrib (cmark C l1) l2)%Q.
Proof.
  induction l1 as [|m l1 IH]; intros C.
  - cbn [app contrib]. rewrite Qmult_1_l. apply contrib_ext. intros k. unfold cmark. cbn. rewrite orb_false_r. reflexivity.
  - cbn [app contrib]. destruct (gkind g m) eqn:Hk; rewrite IH.
    + apply Qmult_comp; [reflexivity|]. apply contrib_ext. intros k. unfold cmark. cbn.
      destruct (Nat.eqb_spec k m) as [->|]; [|reflexivity]. rewrite Hk. cbn. rewrite !andb_false_r. reflexivity.
    + apply Qmult_comp; [reflexivity|]. apply contrib_ext. intros k. unfold cmark. cbn.
      destruct (Nat.eqb_spec k m) as [->|]; [|reflexivity]. rewrite Hk. cbn. rewrite !andb_false_r. reflexivity.
    + rewrite Qmult_assoc. apply Qmult_comp; [reflexivity|]. apply contrib_ext. intros k. unfold cmark, upd. cbn.
      destruct (Nat.eqb_spec k m) as [->|]; [|reflexivity]. rewrite Hk. cbn. rewrite orb_true_r. reflexivity.
    + rewrite Qmult_assoc. apply Qmult_comp; [reflexivity|]. apply contrib_ext. intros k. unfold cmark. cbn.
      destruct (Nat.eqb_spec k m) as [->|]; [|reflexivity]. rewrite Hk. cbn. rewrite !andb_false_r. reflexivity.
Qed.
Lemma cmark_app C l1 l2 m : cmark C (l1 ++ l2) m = cmark (cmark C l1) l2 m.
Proof.
  unfold cmark. rewrite memb_app. destruct (C m), (memb m l1), (memb m l2), (gkind g m); reflexivity.
Qed.
End Pdf.

Definition is_some {A} (o : option A) : bool := match o with Some _ => true | None => false end.
Definition is_disc (n : nat) : bool := match gkind g n with Disc => true | _ => false end.
Definition is_cont (n : nat) : bool := match gkind g n with Cont => true | _ => false end.

Lemma fold_left_prod l : forall q, (fold_left Qmult l q == q * prodQ l)%Q.
Proof.
  induction l as [|x l IH]; intros q; cbn [fold_left prodQ fold_right]; [rewrite Qmult_1_r; reflexivity|].
  rewrite IH. fold (prodQ l). ring.
Qed.

Section PdfRun.
Variables (mp : list (nat * nat)) (params : list (list Q)).
Variable relv : nat -> list Q.
Hypothesis Hrel : forall n, relevant mp params n = Ok (relv n).
Definition Dn (v : nat -> option (list Q)) (n : nat) : Q := gdens g n (inputs_at g v n) (relv n).

Definition pdf_ok (m : M st Q) (l : list nat) (s : st) : Prop :=
  exists s' q, m s = (s', Ok q) /\ val s' = val s /\ vis s' = vis s /\ ctr s' = ctr s /\ tr s' = tr s
    /\ (q == contrib (Dn (val s)) (fun m => is_some (cpdf s m)) l)%Q
    /\ (forall m, is_some (cpdf s' m) = cmark (fun m => is_some (cpdf s m)) l m).

Lemma pdf_loop_spec f :
  (forall n s, n < f -> vals_ok g s -> pdf_ok (pdf_node g mp params f n) (pof f n) s) ->
  forall ps s, (forall p, In p ps -> p < f) -> vals_ok g s ->
    exists s' qs, forM (pdf_node g mp params f) ps s = (s', Ok qs)
      /\ val s' = val s /\ vis s' = vis s /\ ctr s' = ctr s /\ tr s' = tr s
      /\ (prodQ qs == contrib (Dn (val s)) (fun m => is_some (cpdf s m)) (flat_map (pof f) ps))%Q
      /\ (forall m, is_some (cpdf s' m) = cmark (fun m => is_some (cpdf s m)) (flat_map (pof f) ps) m).
Proof.
  intros Hnode ps. induction ps as [|p ps IH]; intros s Hlt Hok.
  - exists s, []. repeat split. intros m. unfold cmark. cbn. rewrite orb_false_r. reflexivity.
  - destruct (Hnode p s) as (s1 & q & H1 & Hv1 & Hs1 & Hc1 & Ht1 & Hq1 & Hm1);
      [apply Hlt; left; reflexivity | exact Hok |].
    destruct (IH s1) as (s2 & qs & H2 & Hv2 & Hs2 & Hc2 & Ht2 & Hq2 & Hm2).
    { intros r Hr. apply Hlt. right. exact Hr. }
    { intros m w. rewrite Hv1. apply Hok. }
    exists s2, (q :: qs). split; [cbn [forM]; unfold bind; rewrite H1, H2; reflexivity|].
    do 4 (split; [congruence|]). split.
    + cbn [prodQ fold_right flat_map]. fold (prodQ qs). rewrite contrib_app, Hq1, Hq2, Hv1.
      apply Qmult_comp; [reflexivity|]. apply contrib_ext. exact Hm1.
    + intros m. cbn [flat_map]. rewrite cmark_app, Hm2. unfold cmark at 1 2. rewrite Hm1. reflexivity.
Qed.
Lemma pdf_node_spec f :
  forall n s, n < f -> vals_ok g s -> pdf_ok (pdf_node g mp params f n) (pof f n) s.
Proof.
  induction f as [|f IHf]; intros n s Hn Hok; [lia|].
  destruct (pdf_loop_spec f IHf (gpar g n) s) as (s1 & qs & H1 & Hv1 & Hs1 & Hc1 & Ht1 & Hq1 & Hm1).
  { intros p Hp. apply (par_lt g Hwf) in Hp. lia. }
  { exact Hok. }
  assert (Hok1 : vals_ok g s1) by (intros m w; rewrite Hv1; apply Hok).
  unfold pdf_ok. cbn [pdf_node].
  assert (Hr : exists rl, (if is_oper g n then ret [] else lift (relevant mp params n)) s = (s, Ok rl)
                          /\ (is_oper g n = false -> rl = relv n)).
  { destruct (is_oper g n); [exists []; split; [reflexivity | discriminate]|].
    rewrite Hrel. exists (relv n). split; reflexivity. }
  destruct Hr as (rl & Hrl & Hrl').
  unfold bind. rewrite Hrl, H1. unfold get_cpdf.
  cbn [pof].
  assert (Hcc : (contrib (Dn (val s)) (fun m => is_some (cpdf s m)) (flat_map (pof f) (gpar g n) ++ [n])
     == fold_left Qmult qs 1 * contrib (Dn (val s)) (fun m => is_some (cpdf s1 m)) [n])%Q).
  { rewrite contrib_app, fold_left_prod, Hq1, Qmult_1_l. apply Qmult_comp; [reflexivity|].
    apply contrib_ext. intros m. symmetry. apply Hm1. }
  assert (Hcm : forall m, cmark (fun m => is_some (cpdf s m)) (flat_map (pof f) (gpar g n) ++ [n]) m
     = cmark (fun m => is_some (cpdf s1 m)) [n] m).
  { intros m. rewrite cmark_app. unfold cmark at 1 3. rewrite Hm1. reflexivity. }
  cbn [contrib] in Hcc.
  destruct (cpdf s1 n) as [c|] eqn:Hcn.
  - exists s1, (fold_left Qmult qs 1%Q). split; [reflexivity|]. do 4 (split; [congruence|]). split.
    + rewrite Hcc. cbn [is_some]. destruct (gkind g n); rewrite ?Qmult_1_r; reflexivity.
    + intros m. rewrite Hcm. unfold cmark. cbn. destruct (Nat.eqb_spec m n) as [->|]; cbn;
        [rewrite Hcn; reflexivity | rewrite orb_false_r; reflexivity].
  - cbn [is_some] in Hcc.
    assert (Hmno : is_cont n = false -> forall m, is_some (cpdf s1 m) = cmark (fun m => is_some (cpdf s1 m)) [n] m).
    { intros Hnc m. unfold cmark. cbn. destruct (Nat.eqb_spec m n) as [->|]; cbn.
      - unfold is_cont in Hnc. destruct (gkind g n); try discriminate; rewrite orb_false_r; reflexivity.
      - rewrite orb_false_r. reflexivity. }
    unfold is_cont in Hmno. unfold is_oper in Hrl'. destruct (gkind g n) eqn:Hk.
    + exists s1. eexists. split; [reflexivity|]. do 4 (split; [congruence|]). split.
      * rewrite Hcc. reflexivity.
      * intros m. rewrite Hcm. apply Hmno. reflexivity.
    + exists s1. eexists. split; [reflexivity|]. do 4 (split; [congruence|]). split.
      * rewrite Hcc. reflexivity.
      * intros m. rewrite Hcm. apply Hmno. reflexivity.
    + rewrite (input_values_ok s1 n Hok1). unfold set_cpdf, ret. eexists. eexists.
      split; [reflexivity|]. cbn [val vis ctr tr cpdf]. do 4 (split; [congruence|]). split.
      * rewrite Hcc. unfold Dn. rewrite Hv1, (Hrl' eq_refl), Qmult_1_r. reflexivity.
      * intros m. rewrite Hcm. unfold cmark, upd. cbn.
        destruct (Nat.eqb_spec m n) as [->|]; cbn; [rewrite Hk, orb_true_r; reflexivity | rewrite orb_false_r; reflexivity].
    + rewrite (input_values_ok s1 n Hok1). unfold ret. eexists. eexists.
      split; [reflexivity|]. do 4 (split; [congruence|]). split.
      * rewrite Hcc. unfold Dn. rewrite Hv1, (Hrl' eq_refl), Qmult_1_r. reflexivity.
      * intros m. rewrite Hcm. apply Hmno. reflexivity.
Qed.
Lemma pdf_roots_spec f : forall rs s, (forall r, In r rs -> r < S f) -> vals_ok g s ->
    exists s' qs, forM (pdf_root g mp params f) rs s = (s', Ok qs)
      /\ val s' = val s /\ vis s' = vis s
      /\ (prodQ qs == contrib (Dn (val s)) (fun m => is_some (cpdf s m)) (flat_map (pof f) (flat_map (gpar g) rs)))%Q.
Proof.
  induction rs as [|r rs IH]; intros s Hlt Hok.
  - exists s, []. repeat split.
  - destruct (pdf_loop_spec f (pdf_node_spec f) (gpar g r) s) as (s1 & qs & H1 & Hv1 & Hs1 & Hc1 & Ht1 & Hq1 & Hm1).
    { intros p Hp. apply (par_lt g Hwf) in Hp. specialize (Hlt r (or_introl eq_refl)). lia. }
    { exact Hok. }
    destruct (IH s1) as (s2 & ql & H2 & Hv2 & Hs2 & Hq2).
    { intros q Hq. apply Hlt. right. exact Hq. }
    { intros m w. rewrite Hv1. apply Hok. }
    exists s2. eexists. split.
    { cbn [forM]. unfold pdf_root at 1, bind. rewrite H1. unfold ret. rewrite H2. reflexivity. }
    repeat (split; [congruence|]). cbn [prodQ fold_right flat_map]. fold (prodQ ql).
    rewrite flat_map_app, contrib_app, fold_left_prod, Hq1, Hq2, Hv1, Qmult_1_l.
    apply Qmult_comp; [reflexivity|]. apply contrib_ext. exact Hm1.
Qed.
End PdfRun.

(** the factors, sorted out *)
Lemma contrib_split D l : forall C, (forall m, is_disc m = true -> C m = false) ->
  (contrib D C l == prodQ (map D (filter (fun m => is_cont m && negb (C m)) (first_occ l)))
                  * prodQ (map D (filter is_disc l)))%Q.
Proof.
  induction l as [|m l IH]; intros C HC; cbn [contrib]; [reflexivity|].
  assert (Hskip : is_cont m = false ->
     filter (fun k => is_cont k && negb (C k)) (first_occ (m :: l))
     = filter (fun k => is_cont k && negb (C k)) (first_occ l)).
  { intros Hm. cbn [first_occ filter]. rewrite Hm. cbn [andb]. rewrite filter_filter.
    apply filter_ext_in. intros a Ha. destruct (Nat.eqb_spec a m) as [->|]; [rewrite Hm|]; reflexivity. }
  assert (Hcm : is_cont m = match gkind g m with Cont => true | _ => false end) by reflexivity.
  assert (Hdm : is_disc m = match gkind g m with Disc => true | _ => false end) by reflexivity.
  destruct (gkind g m) eqn:Hk.
  - rewrite (Hskip Hcm). cbn [filter]. rewrite Hdm. apply IH. exact HC.
  - rewrite (Hskip Hcm). cbn [filter]. rewrite Hdm. apply IH. exact HC.
  - cbn [filter]. rewrite Hdm, IH.
    2:{ intros k Hd. unfold upd. destruct (Nat.eqb_spec k m) as [->|]; [congruence | apply HC; exact Hd]. }
    rewrite Qmult_assoc. apply Qmult_comp; [|reflexivity].
    cbn [first_occ filter].
    assert (Hf : filter (fun k => is_cont k && negb (upd C m true k)) (first_occ l)
                 = filter (fun k => is_cont k && negb (C k)) (filter (fun y => negb (y =? m)) (first_occ l))).
    { rewrite filter_filter. apply filter_ext. intros k. unfold upd.
      destruct (k =? m), (is_cont k), (C k); reflexivity. }
    rewrite Hf, Hcm. destruct (C m); cbn [negb andb].
    + rewrite Qmult_1_l. reflexivity.
    + reflexivity.
  - rewrite (Hskip Hcm). cbn [filter]. rewrite Hdm, IH by exact HC.
    rewrite (HC m Hdm). cbn [map prodQ fold_right].
    fold (prodQ (map D (filter is_disc l))). ring.
Qed.
Lemma prodQ_perm l l' : Permutation l l' -> (prodQ l == prodQ l')%Q.
Proof.
  induction 1; cbn [prodQ fold_right]; [reflexivity | | ring |].
  - apply Qmult_comp; [reflexivity | exact IHPermutation].
  - rewrite IHPermutation1. exact IHPermutation2.
Qed.
Lemma prodQ_app l l' : (prodQ (l ++ l') == prodQ l * prodQ l')%Q.
Proof.
  induction l as [|x l IH]; cbn [app prodQ fold_right]; [fold (prodQ l'); ring|].
  fold (prodQ (l ++ l')) (prodQ l). rewrite IH. ring.
Qed.
Lemma filter_perm {A} (f : A -> bool) l l' : Permutation l l' -> Permutation (filter f l) (filter f l').
Proof.
  induction 1; cbn [filter]; try constructor.
  - destruct (f x); [constructor|]; assumption.
  - destruct (f x), (f y); try constructor; apply Permutation_refl.
  - apply Permutation_trans with (filter f l'); assumption.
Qed.
Lemma first_occ_perm l l' : (forall m, In m l <-> In m l') -> Permutation (first_occ l) (first_occ l').
Proof.
  intros H. apply NoDup_Permutation; [apply first_occ_NoDup | apply first_occ_NoDup |].
  intros m. rewrite !first_occ_In. apply H.
Qed.
Lemma first_occ_unique l : (forall m, count_occ Nat.eq_dec l m <= 1) -> first_occ l = l.
Proof.
  induction l as [|x l IH]; intros H; [reflexivity|]. cbn [first_occ].
  assert (Hx : ~ In x l).
  { intros Hin. apply (count_occ_In Nat.eq_dec) in Hin. specialize (H x). rewrite count_occ_cons_eq in H by reflexivity. lia. }
  rewrite IH.
  - f_equal. apply filter_all. intros a Ha. destruct (Nat.eqb_spec a x) as [->|]; [contradiction | reflexivity].
  - intros m. specialize (H m). cbn in H. destruct (Nat.eq_dec x m); lia.
Qed.
Lemma count_filter f l m : count_occ Nat.eq_dec (filter f l) m = if f m then count_occ Nat.eq_dec l m else 0.
Proof.
  induction l as [|x l IH]; cbn [filter]; [destruct (f m); reflexivity|].
  destruct (f x) eqn:Hf; cbn; destruct (Nat.eq_dec x m) as [->|]; rewrite ?IH, ?Hf; try reflexivity.
Qed.
Lemma filter_first_occ f l : filter f (first_occ l) = first_occ (filter f l).
Proof.
  induction l as [|x l IH]; [reflexivity|]. cbn [first_occ filter]. destruct (f x) eqn:Hf; cbn [first_occ].
  - f_equal. rewrite <- IH, !filter_filter. apply filter_ext. intros a. apply andb_comm.
  - rewrite <- IH, filter_filter. apply filter_ext_in. intros a Ha.
    destruct (Nat.eqb_spec a x) as [->|]; [rewrite Hf|]; reflexivity.
Qed.
Lemma free_split l D :
  (prodQ (map D (filter is_cont l)) * prodQ (map D (filter is_disc l)) == prodQ (map D (filter (is_free g) l)))%Q.
Proof.
  induction l as [|x l IH]; cbn [filter]; [reflexivity|].
  unfold is_cont at 1, is_disc at 1, is_free at 1, is_hyper, is_oper.
  destruct (gkind g x); cbn [negb andb map prodQ fold_right]; try exact IH;
    fold (prodQ (map D (filter is_cont l))) (prodQ (map D (filter is_disc l))) (prodQ (map D (filter (is_free g) l)));
    rewrite <- IH; ring.
Qed.
Lemma pof_roots_perm f ps : (forall p, In p ps -> p < f) -> Permutation (flat_map (pof f) ps) (flat_map (E g) ps).
Proof.
  induction ps as [|p ps IH]; intros Hlt; [constructor|]. cbn [flat_map]. apply Permutation_app.
  - apply pof_perm, Hlt. left. reflexivity.
  - apply IH. intros q Hq. apply Hlt. right. exact Hq.
Qed.

(** exact value: continuous parameters once, discrete parameters once per path *)
Lemma pdf_of_prior_spec roots params s s1 k :
  indep g roots -> clean g roots s -> vals_ok g s ->
  set_parameters g roots params s = (s1, Ok (true, k)) ->
  exists s' q, pdf_of_prior g roots params s = (s', Ok q)
    /\ val s' = val s1 /\ clean g roots s'
    /\ let D := fun n => gdens g n (inputs_at g (val s1) n) (match val s1 n with Some x => x | None => [] end) in
       let paths := flat_map (E g) (flat_map (gpar g) roots) in
       (q == prodQ (map D (filter is_cont (first_occ paths))) * prodQ (map D (filter is_disc paths)))%Q.
Proof.
  intros Hi Hcl Hok Hset.
  destruct (set_parameters_true roots params s s1 k Hi Hcl Hset) as (Hk & Hk' & Hv1 & Hcl1 & Hcp1 & Hok1).
  specialize (Hok1 Hok).
  destruct (get_mapping_spec g Hwf roots s1 Hi Hcl1) as (s2 & Hmap & (Hcl2 & Hcp2 & _ & _) & Hv2).
  set (relv := fun n => match relevant (pairs (order g roots) 0) params n with Ok v => v | Err _ => [] end).
  assert (Hrel0 : forall l i n, i + length l <= length params ->
     exists v, relevant (pairs l i) params n = Ok v
       /\ ((~ In n l /\ v = []) \/ exists j, nth_error l j = Some n /\ nth_error params (i + j) = Some v)).
  { induction l as [|x l IH]; intros i n Hl.
    - exists []. split; [reflexivity|]. left. split; [intros []|reflexivity].
    - unfold relevant, pairs. cbn [length seq combine find fst].
      destruct (Nat.eqb_spec x n) as [->|Hne].
      + cbn [snd]. cbn in Hl. destruct (nth_error params i) as [v|] eqn:Hv.
        * exists v. split; [reflexivity|]. right. exists 0. rewrite Nat.add_0_r. split; [reflexivity | exact Hv].
        * apply nth_error_None in Hv. lia.
      + destruct (IH (S i) n) as (v & Hv & Hcase); [cbn in Hl; lia|].
        exists v. split; [exact Hv|]. destruct Hcase as [[Hn Hv0]|[j [Hj Hj']]].
        * left. split; [|exact Hv0]. intros [H|H]; [congruence | contradiction].
        * right. exists (S j). split; [exact Hj|]. replace (i + S j) with (S i + j) by lia. exact Hj'. }
  assert (Hrel : forall n, relevant (pairs (order g roots) 0) params n = Ok (relv n)).
  { intros n. destruct (Hrel0 (order g roots) 0 n) as (v & Hv & _); [cbn; lia|]. unfold relv. rewrite Hv. reflexivity. }
  assert (Hstored : forall n, In n (order g roots) -> val s1 n = Some (relv n)).
  { intros n Hn. destruct (Hrel0 (order g roots) 0 n) as (v & Hv & [[Hx _]|[j [Hj Hj']]]); [cbn; lia | contradiction |].
    rewrite Hv1, (assign_nth (order g roots) (order_NoDup g roots) params (val s) j n Hj).
    - cbn in Hj'. rewrite Hj'. unfold relv. rewrite Hv. reflexivity.
    - apply nth_error_Some. cbn in Hj'. congruence. }
  assert (Hok2 : vals_ok g s2) by (intros m w; rewrite Hv2; apply Hok1).
  destruct (pdf_roots_spec (pairs (order g roots) 0) params relv Hrel (depth roots) roots s2)
    as (s3 & qs & Hrun & Hv3 & Hvis3 & Hq).
  { intros r Hr. apply depth_lt in Hr. lia. }
  { exact Hok2. }
  exists s3, (fold_left Qmult qs 1%Q). split; [|split; [|split]].
  - unfold pdf_of_prior, bind. rewrite Hset, Hmap. cbn [fst]. rewrite Hrun. reflexivity.
  - congruence.
  - intros r n Hr Hn. rewrite Hvis3. apply (Hcl2 r n Hr Hn).
  - cbn zeta. set (paths := flat_map (E g) (flat_map (gpar g) roots)).
    assert (Hperm : Permutation (flat_map (pof (depth roots)) (flat_map (gpar g) roots)) paths).
    { apply pof_roots_perm. intros p Hp. apply in_flat_map in Hp. destruct Hp as [r [Hr Hp]].
      apply (par_lt g Hwf) in Hp. apply depth_lt in Hr. lia. }
    assert (Hnone : forall m, In m paths -> cpdf s2 m = None).
    { intros m Hm. unfold paths in Hm. rewrite flat_map_flat_map in Hm. apply in_flat_map in Hm.
      destruct Hm as [r [Hr Hm]]. apply (Hcp2 r m Hr). right. apply (Anc_below g Hwf). exact Hm. }
    assert (Hcongr : forall l C C', (forall m, In m l -> C m = C' m) ->
                (contrib (Dn relv (val s2)) C l == contrib (Dn relv (val s2)) C' l)%Q).
    { induction l as [|m l IH]; intros C C' HC; cbn [contrib]; [reflexivity|].
      destruct (gkind g m); try (apply IH; intros a Ha; apply HC; right; exact Ha);
        rewrite (HC m (or_introl eq_refl)); apply Qmult_comp; try reflexivity; apply IH; intros a Ha.
      - unfold upd. destruct (a =? m); [reflexivity | apply HC; right; exact Ha].
      - apply HC. right. exact Ha. }
    rewrite fold_left_prod, Qmult_1_l, Hq.
    rewrite (Hcongr _ _ (fun _ => false)).
    2:{ intros m Hm. rewrite Hnone; [reflexivity|]. apply (Permutation_in _ Hperm). exact Hm. }
    rewrite contrib_split by reflexivity.
    assert (HD : forall l, (forall m, In m l -> In m paths) -> (forall m, In m l -> is_free g m = true) ->
       map (Dn relv (val s2)) l
       = map (fun n => gdens g n (inputs_at g (val s1) n) (match val s1 n with Some x => x | None => [] end)) l).
    { intros l Hl Hfree. apply map_ext_in. intros m Hm. unfold Dn. rewrite Hv2, Hstored; [reflexivity|].
      unfold order. apply filter_In. split; [apply first_occ_In; apply Hl; exact Hm | apply Hfree; exact Hm]. }
    rewrite <- (HD (filter is_cont (first_occ paths))), <- (HD (filter is_disc paths)).
    + apply Qmult_comp.
      * apply prodQ_perm, Permutation_map.
        apply Permutation_trans with (filter is_cont (first_occ (flat_map (pof (depth roots)) (flat_map (gpar g) roots)))).
        { rewrite (filter_ext (fun m => is_cont m && negb false) is_cont); [apply Permutation_refl|].
          intros a. apply andb_true_r. }
        apply filter_perm, first_occ_perm. intros m. split; apply Permutation_in; [exact Hperm | apply Permutation_sym; exact Hperm].
      * apply prodQ_perm, Permutation_map, filter_perm. exact Hperm.
    + intros m Hm. apply filter_In in Hm. apply Hm.
    + intros m Hm. apply filter_In in Hm. destruct Hm as [_ Hm]. unfold is_disc in Hm. unfold is_free, is_hyper, is_oper.
      destruct (gkind g m); try discriminate; reflexivity.
    + intros m Hm. apply filter_In in Hm. destruct Hm as [Hm _]. apply (proj1 (first_occ_In m paths)) in Hm. exact Hm.
    + intros m Hm. apply filter_In in Hm. destruct Hm as [_ Hm]. unfold is_cont in Hm. unfold is_free, is_hyper, is_oper.
      destruct (gkind g m); try discriminate; reflexivity.
Qed.
Lemma pdf_once roots D :
  (forall n, gkind g n = Disc -> count_occ Nat.eq_dec (flat_map (E g) (flat_map (gpar g) roots)) n <= 1) ->
  let paths := flat_map (E g) (flat_map (gpar g) roots) in
  (prodQ (map D (filter is_cont (first_occ paths))) * prodQ (map D (filter is_disc paths))
   == prodQ (map D (order g roots)))%Q.
Proof.
  intros H paths.
  assert (Hd : filter is_disc paths = filter is_disc (first_occ paths)).
  { rewrite filter_first_occ. symmetry. apply first_occ_unique. intros m. rewrite count_filter.
    unfold is_disc. destruct (gkind g m) eqn:Hk; try lia. apply H. exact Hk. }
  rewrite Hd. apply free_split.
Qed.
End WF.
