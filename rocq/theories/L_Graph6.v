(** Arithmetic nodes, evaluated through all levels, and prior sampling with arithmetic nodes. *)
From Verif Require Import M_Base M_Graph S_Graph L_Graph L_Graph2 L_Graph3 L_Ops S_Fresh.

Lemma map_seq_nth {A B} (F : A -> A -> B) k : forall xs ys (zs : list B),
  length zs = k ->
  (forall i, i < k -> exists x y, nth_error xs i = Some x /\ nth_error ys i = Some y /\ nth_error zs i = Some (F x y)) ->
  zs = map (fun uv => F (fst uv) (snd uv)) (combine (firstn k xs) (firstn k ys)) /\ k <= length xs /\ k <= length ys.
Proof.
  induction k as [|k IH]; intros xs ys zs Hl H.
  - destruct zs; [|discriminate]. cbn. split; [reflexivity|]. lia.
  - destruct (H 0) as (x & y & Hx & Hy & Hz); [lia|].
    destruct xs as [|x0 xs]; [discriminate|]. destruct ys as [|y0 ys]; [discriminate|]. destruct zs as [|z0 zs]; [discriminate|].
    cbn in Hx, Hy, Hz. injection Hx as ->. injection Hy as ->. injection Hz as ->.
    destruct (IH xs ys zs) as (E & A1 & A2).
    { cbn in Hl. lia. }
    { intros i Hi. apply (H (S i)). lia. }
    cbn [firstn combine map fst snd length]. split; [f_equal; exact E | lia].
Qed.

Section WF.
Variable g : graph.

Lemma opsample_two_ctr f k a b s s' acc :
  opsample g (fun p => fsim g f p k) [a; b] s = (s', Ok acc) ->
  (forall m, vis s' m = vis s m) /\ val s' = val s /\
  exists sa ra ta, fsim g f a k sa = (ta, Ok ra) /\ val sa = val s /\ ctr sa = ctr s /\ assoc acc a = Some ra
    /\ (if Nat.eqb a b then ctr s' = ctr ta
        else exists sb rb tb, fsim g f b k sb = (tb, Ok rb) /\ val sb = val s /\ ctr sb = ctr ta
               /\ assoc acc b = Some rb /\ ctr s' = ctr tb).
Proof.
  intros H.
  pose proof (opsample_run g (fun p => fsim g f p k) [a; b] s (fun p s0 => fsim_run g f p k s0)) as [A B].
  rewrite H in A, B. cbn [fst snd] in A, B. split; [apply (B acc eq_refl)|]. split; [apply A|].
  unfold opsample in H. apply bind_ok in H. destruct H as (s1 & sv & H1 & H). rewrite forM_get_vis in H1.
  inversion H1; subst s1 sv; clear H1.
  apply bind_ok in H. destruct H as (s1 & [] & H1 & H).
  destruct (forM_clear [a; b] s) as (V & HV1 & HV2). rewrite H1 in HV1. inversion HV1; subst s1; clear HV1.
  apply bind_ok in H. destruct H as (s2 & acc' & H2 & H).
  apply bind_ok in H. destruct H as (s3 & [] & H3 & H). rewrite forM_set_vis in H3.
  assert (Hc3 : ctr s3 = ctr s2) by (inversion H3; reflexivity). inversion H; subst acc' s3; clear H H3.
  cbn [opsample_loop] in H2. unfold bind at 1, get_vis in H2. cbn [vis] in H2.
  rewrite HV2 in H2. cbn [memb existsb] in H2. rewrite Nat.eqb_refl in H2. cbn [orb negb] in H2. rewrite andb_false_r in H2.
  apply bind_ok in H2. destruct H2 as (s3 & ins & H3 & H2).
  match type of H3 with input_values _ _ ?x = _ => pose proof (input_values_fst g a x) as Hi; rewrite H3 in Hi; cbn [fst] in Hi; set (s1 := x) in * end.
  subst s3. destruct (gchk_in g a ins); [|discriminate].
  apply bind_ok in H2. destruct H2 as (ta & ra & Hra & H2).
  pose proof (fsim_run g f a k s1) as [(Pv&Pc&Pt&Pn) Pvis]. rewrite Hra in Pv, Pc, Pt, Pn, Pvis. cbn [fst snd] in *.
  specialize (Pvis ra eq_refl).
  exists s1, ra, ta. split; [exact Hra|]. split; [reflexivity|]. split; [reflexivity|].
  apply bind_ok in H2. destruct H2 as (s4 & [] & H4 & H2). cbn in H4. inversion H4; subst s4; clear H4.
  unfold bind at 1 in H2. unfold get_vis in H2. cbn [vis] in H2. unfold upd in H2.
  destruct (Nat.eqb_spec b a) as [->|Hne].
  - rewrite Nat.eqb_refl. cbn [app] in H2. inversion H2; subst acc. cbn. rewrite Nat.eqb_refl. split; [reflexivity|].
    rewrite Hc3. match goal with E : _ = s2 |- _ => rewrite <- E end. reflexivity.
  - destruct (Nat.eqb_spec a b) as [Hx|_]; [congruence|].
    rewrite Pvis in H2. unfold s1 in H2 at 1. cbn [vis] in H2. rewrite HV2 in H2. cbn [memb existsb] in H2. rewrite Nat.eqb_refl in H2.
    cbn [orb negb] in H2. rewrite orb_true_r in H2. cbn [negb] in H2. rewrite andb_false_r in H2.
    apply bind_ok in H2. destruct H2 as (s4 & ins2 & H4 & H2).
    match type of H4 with input_values _ _ ?x = _ => pose proof (input_values_fst g b x) as Hi; rewrite H4 in Hi; cbn [fst] in Hi; set (s5 := x) in * end.
    subst s4. destruct (gchk_in g b ins2); [|discriminate].
    apply bind_ok in H2. destruct H2 as (tb & rb & Hrb & H2).
    apply bind_ok in H2. destruct H2 as (s6 & [] & H6 & H2). cbn [opsample_loop app] in H2. inversion H2; subst acc; clear H2.
    cbn [app assoc]. rewrite Nat.eqb_refl. split; [reflexivity|].
    exists s5, rb, tb. split; [exact Hrb|]. split; [unfold s5; cbn; exact Pv|]. split; [reflexivity|]. split.
    + destruct (Nat.eqb_spec a b) as [Hx|]; [congruence|]. rewrite Nat.eqb_refl. reflexivity.
    + cbn in H6. inversion H6 as [H6']. subst s6. rewrite Hc3. match goal with E : _ = s2 |- _ => rewrite <- E end. reflexivity.
Qed.

Lemma op_values_case o xs ys k :
  op_values g o (firstn k xs) (firstn k ys)
  = match o with ORPow => [concat (map (fun uv => zipq (gpow g) (fst uv) (snd uv)) (combine (firstn k xs) (firstn k xs)))]
    | _ => map (fun uv => zipq (opf g o) (fst uv) (snd uv)) (combine (firstn k xs) (firstn k ys)) end.
Proof. destruct o; reflexivity. Qed.

Hypothesis Hwf : wf g.
Hypothesis Hbin : binary g.

Lemma fsim_fresh f : forall n k s s' ys, 0 < k -> vals_ok g s -> fsim g f n k s = (s', Ok (Some ys)) ->
  (forall m, vis s' m = vis s m) /\ val s' = val s /\ Fresh g (val s) k n (ctr s) (ctr s') ys.
Proof.
  induction f as [|f IH]; intros n k s s' ys Hk Hok H; [discriminate|].
  destruct (gkind g n) eqn:Hn.
  - cbn [fsim] in H. rewrite Hn in H. unfold bind, get_val in H. destruct (val s n) as [x|] eqn:Hx; [|discriminate].
    injection H as H1 H2. subst s' ys. split; [reflexivity|]. split; [reflexivity|]. constructor; assumption.
  - cbn [fsim] in H. rewrite Hn in H. destruct (Hbin n Hn) as (a & b & Hp). rewrite Hp in H.
    apply bind_ok in H. destruct H as (s1 & acc & H1 & H).
    apply opsample_two_ctr in H1. destruct H1 as (Hvis & Hval & sa & ra & ta & Ha & Hva & Hca & Hacc & Hb).
    apply bind_ok in H. destruct H as (s2 & r & H2 & H). inversion H; subst s2 r; clear H.
    destruct (op_results g (gop g n) [a; b] acc k) as [l|e] eqn:Hres; unfold lift in H2; inversion H2; subst s' l; clear H2.
    split; [exact Hvis|]. split; [exact Hval|].
    unfold op_results in Hres. destruct (map_res _ (seq 0 k)) as [l|e] eqn:Hmr in Hres; [|discriminate].
    apply map_res_spec in Hmr. destruct Hmr as [Hlen Hnth]. rewrite seq_length in Hlen.
    assert (Hat : forall i, i < k -> exists x y, sample_at acc a i = Ok x /\ sample_at acc b i = Ok y
             /\ nth_error l i = Some (zipq (match gop g n with ORPow => gpow g | o => opf g o end) x
                                           (match gop g n with ORPow => x | _ => y end))).
    { intros i Hi. destruct (Hnth i i) as (z & Hz & Hf).
      { rewrite nth_error_nth' with (d := 0) by (rewrite seq_length; exact Hi). rewrite seq_nth by exact Hi. reflexivity. }
      cbn [map_res] in Hf. destruct (sample_at acc a i) as [x|]; [|discriminate].
      destruct (sample_at acc b i) as [y|]; [|discriminate]. exists x, y. split; [reflexivity|]. split; [reflexivity|].
      rewrite Hz. f_equal. cbn in Hf. unfold opf. destruct (gop g n); inversion Hf; reflexivity. }
    assert (Hra : exists xa, ra = Some xa).
    { destruct (Hat 0 Hk) as (x & y & Hx & _). unfold sample_at in Hx. rewrite Hacc in Hx.
      destruct ra as [xa|]; [exists xa; reflexivity | discriminate]. }
    destruct Hra as [xa ->].
    assert (Hoka : vals_ok g sa) by (intros m w; rewrite Hva; apply Hok).
    destruct (IH a k sa ta xa Hk Hoka Ha) as (_ & Hta & Fa). rewrite Hva, Hca in Fa.
    assert (Hax : forall i x, sample_at acc a i = Ok x -> nth_error xa i = Some x).
    { intros i x Hx. unfold sample_at in Hx. rewrite Hacc in Hx. destruct (nth_error xa i); [|discriminate].
      injection Hx as ->. reflexivity. }
    assert (Hres' : forall xb, (forall i y, i < k -> sample_at acc b i = Ok y -> nth_error xb i = Some y) ->
        ys = op_values g (gop g n) (firstn k xa) (firstn k xb) /\ k <= length xa /\ k <= length xb).
    { intros xb Hbx. rewrite op_values_case.
      assert (Hc : k <= length xa /\ k <= length xb).
      { apply (map_seq_nth (fun x y : list Q => tt) k xa xb (repeat tt k) (repeat_length tt k)).
        intros i Hi. destruct (Hat i Hi) as (x & y & Hx & Hy & _). exists x, y.
        split; [apply Hax; exact Hx|]. split; [apply Hbx; assumption|].
        rewrite (nth_error_nth' _ tt) by (rewrite repeat_length; exact Hi).
        destruct (nth i (repeat tt k) tt). reflexivity. }
      split; [|exact Hc].
      destruct (gop g n) eqn:Ho; inversion Hres; subst ys.
      1-5: match goal with |- _ = map (fun uv => zipq ?F _ _) _ => refine (proj1 (map_seq_nth (zipq F) k xa xb l Hlen _)) end;
        intros i Hi; destruct (Hat i Hi) as (x & y & Hx & Hy & Hz); exists x, y;
        (split; [apply Hax; exact Hx|]); (split; [apply Hbx; assumption|]); exact Hz.
      f_equal. f_equal. refine (proj1 (map_seq_nth (zipq (gpow g)) k xa xa l Hlen _)).
      intros i Hi. destruct (Hat i Hi) as (x & y & Hx & Hy & Hz). exists x, x.
      split; [apply Hax; exact Hx|]. split; [apply Hax; exact Hx|]. exact Hz. }
    destruct (Nat.eqb_spec a b) as [Heq|Hne].
    + subst b. destruct (Hres' xa) as (-> & L1 & _); [intros i y _; apply Hax|].
      rewrite Hb. apply fresh_same with a; assumption.
    + destruct Hb as (sb & rb & tb & Hfb & Hvb & Hcb & Haccb & Hctr).
      assert (Hrb : exists xb, rb = Some xb).
      { destruct (Hat 0 Hk) as (x & y & _ & Hy & _). unfold sample_at in Hy. rewrite Haccb in Hy.
        destruct rb as [xb|]; [exists xb; reflexivity | discriminate]. }
      destruct Hrb as [xb ->].
      assert (Hokb : vals_ok g sb) by (intros m w; rewrite Hvb; apply Hok).
      destruct (IH b k sb tb xb Hk Hokb Hfb) as (_ & Htb & Fb). rewrite Hvb, Hcb in Fb.
      destruct (Hres' xb) as (-> & L1 & L2).
      { intros i y _ Hy. unfold sample_at in Hy. rewrite Haccb in Hy. destruct (nth_error xb i); [|discriminate].
        injection Hy as ->. reflexivity. }
      rewrite Hctr. apply fresh_diff with a b (ctr ta); assumption.
  - assert (Hf : is_free g n = true) by (unfold is_free, is_hyper, is_oper; rewrite Hn; reflexivity).
    rewrite (fsim_free g Hwf f n k s Hf Hok) in H. injection H as H1 H2. subst s'.
    split; [reflexivity|]. split; [reflexivity|]. apply fresh_free; assumption.
  - assert (Hf : is_free g n = true) by (unfold is_free, is_hyper, is_oper; rewrite Hn; reflexivity).
    rewrite (fsim_free g Hwf f n k s Hf Hok) in H. injection H as H1 H2. subst s'.
    split; [reflexivity|]. split; [reflexivity|]. apply fresh_free; assumption.
Qed.

Lemma fresh_le v k n t u xs : Fresh g v k n t u xs -> t <= u.
Proof. induction 1; lia. Qed.
Lemma fresh_ext v v' k n t u xs : Fresh g v k n t u xs ->
  (forall p, Anc g p n -> v' p = v p) -> (is_hyper g n = true -> v' n = v n) -> Fresh g v' k n t u xs.
Proof.
  induction 1 as [n t x Hn Hx|n t xs Hf Hs|n a t u xs Hn Hp Ha IHa Hl|n a b t u w xs ys Hn Hp Hne Ha IHa Hb IHb Hl1 Hl2]; intros Hv Hh.
  - apply fresh_hyper; [exact Hn|]. rewrite Hh; [exact Hx|]. unfold is_hyper. rewrite Hn. reflexivity.
  - apply fresh_free; [exact Hf|]. rewrite (inputs_at_ext g v' v n); [exact Hs|]. intros p Hp. apply Hv. constructor. exact Hp.
  - assert (HA : In a (gpar g n)) by (rewrite Hp; left; reflexivity).
    apply fresh_same with a; try assumption. apply IHa.
    + intros p Hpa. apply Hv. apply anc_step with a; assumption.
    + intros _. apply Hv. constructor. exact HA.
  - assert (HA : In a (gpar g n)) by (rewrite Hp; left; reflexivity).
    assert (HB : In b (gpar g n)) by (rewrite Hp; right; left; reflexivity).
    apply fresh_diff with a b u; try assumption; [apply IHa | apply IHb].
    + intros p Hpa. apply Hv. apply anc_step with a; assumption.
    + intros _. apply Hv. constructor. exact HA.
    + intros p Hpa. apply Hv. apply anc_step with b; assumption.
    + intros _. apply Hv. constructor. exact HB.
Qed.
End WF.
