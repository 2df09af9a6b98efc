(** Proofs about arithmetic nodes. *)
From Verif Require Import M_Base M_Graph S_Graph L_Graph L_Graph2 L_Graph3.

Lemma map_res_spec {A B} (f : A -> res B) l : forall bs, map_res f l = Ok bs ->
  length bs = length l /\ forall i a, nth_error l i = Some a -> exists b, nth_error bs i = Some b /\ f a = Ok b.
Proof.
  induction l as [|x l IH]; intros bs H; cbn [map_res] in H.
  - inversion H; subst. split; [reflexivity|]. intros [|i] a Ha; discriminate.
  - destruct (f x) as [b|e] eqn:Hx; [|discriminate]. destruct (map_res f l) as [bs'|e]; [|discriminate].
    inversion H; subst. destruct (IH bs' eq_refl) as [Hl Hn]. split; [cbn; lia|].
    intros [|i] a Ha; cbn in Ha |- *; [inversion Ha; subst; exists b; split; [reflexivity | exact Hx] | apply Hn; exact Ha].
Qed.

(** the binary operation computed by a node class on operand values x, y *)
Definition opf (g : graph) (k : opk) : Q -> Q -> Q :=
  match k with
  | OSum => Qplus | OSub => Qminus | OMul => Qmult | ODiv => Qdiv | OPow => gpow g
  | ORPow => fun x _ => gpow g x x
  end.

Section WF.
Variable g : graph.

Lemma opsample_two f k a b s s' acc :
  opsample g (fun p => fsim g f p k) [a; b] s = (s', Ok acc) ->
  (forall m, vis s' m = vis s m) /\ val s' = val s /\
  exists sa ra ta, fsim g f a k sa = (ta, Ok ra) /\ val sa = val s /\ assoc acc a = Some ra
    /\ (a <> b -> exists sb rb tb, fsim g f b k sb = (tb, Ok rb) /\ val sb = val s /\ assoc acc b = Some rb
                     /\ ctr ta <= ctr sb).
Proof.
  intros H.
  pose proof (opsample_run g (fun p => fsim g f p k) [a; b] s (fun p s0 => fsim_run g f p k s0)) as [A B].
  rewrite H in A, B. cbn [fst snd] in A, B. split; [apply (B acc eq_refl)|]. split; [apply A|].
  unfold opsample in H. apply bind_ok in H. destruct H as (s1 & sv & H1 & H). rewrite forM_get_vis in H1.
  inversion H1; subst s1 sv; clear H1.
  apply bind_ok in H. destruct H as (s1 & [] & H1 & H).
  destruct (forM_clear [a; b] s) as (V & HV1 & HV2). rewrite H1 in HV1. inversion HV1; subst s1; clear HV1.
  apply bind_ok in H. destruct H as (s2 & acc' & H2 & H).
  apply bind_ok in H. destruct H as (s3 & [] & H3 & H). inversion H; subst acc' s3; clear H H3.
  cbn [opsample_loop] in H2. unfold bind at 1, get_vis in H2. cbn [vis] in H2.
  rewrite HV2 in H2. cbn [memb existsb] in H2. rewrite Nat.eqb_refl in H2. cbn [orb negb] in H2. rewrite andb_false_r in H2.
  apply bind_ok in H2. destruct H2 as (s3 & ins & H3 & H2).
  match type of H3 with input_values _ _ ?x = _ => pose proof (input_values_fst g a x) as Hi; rewrite H3 in Hi; cbn [fst] in Hi; set (s1 := x) in * end.
  subst s3. destruct (gchk_in g a ins); [|discriminate].
  apply bind_ok in H2. destruct H2 as (ta & ra & Hra & H2).
  pose proof (fsim_run g f a k s1) as [(Pv&Pc&Pt&Pn) Pvis]. rewrite Hra in Pv, Pc, Pt, Pn, Pvis. cbn [fst snd] in *.
  specialize (Pvis ra eq_refl).
  exists s1, ra, ta. split; [exact Hra|]. split; [reflexivity|].
  apply bind_ok in H2. destruct H2 as (s4 & [] & H4 & H2). cbn in H4. inversion H4; subst s4; clear H4.
  unfold bind at 1 in H2. unfold get_vis in H2. cbn [vis] in H2. unfold upd in H2.
  destruct (Nat.eqb_spec b a) as [->|Hne].
  - cbn [app] in H2. inversion H2; subst acc. cbn. rewrite Nat.eqb_refl. split; [reflexivity|]. intros Hx. congruence.
  - rewrite Pvis in H2. unfold s1 in H2 at 1. cbn [vis] in H2. rewrite HV2 in H2. cbn [memb existsb] in H2. rewrite Nat.eqb_refl in H2.
    cbn [orb negb] in H2. rewrite orb_true_r in H2. cbn [negb] in H2. rewrite andb_false_r in H2.
    apply bind_ok in H2. destruct H2 as (s4 & ins2 & H4 & H2).
    match type of H4 with input_values _ _ ?x = _ => pose proof (input_values_fst g b x) as Hi; rewrite H4 in Hi; cbn [fst] in Hi; set (s5 := x) in * end.
    subst s4. destruct (gchk_in g b ins2); [|discriminate].
    apply bind_ok in H2. destruct H2 as (tb & rb & Hrb & H2).
    apply bind_ok in H2. destruct H2 as (s6 & [] & H6 & H2). cbn [opsample_loop app] in H2. inversion H2; subst acc; clear H2.
    cbn [app assoc]. rewrite Nat.eqb_refl. split; [reflexivity|]. intros _.
    exists s5, rb, tb. split; [exact Hrb|]. split; [unfold s5; cbn; exact Pv|]. split.
    + destruct (Nat.eqb_spec a b) as [Hx|]; [congruence|]. rewrite Nat.eqb_refl. reflexivity.
    + unfold s5. cbn. lia.
Qed.

Lemma zipq_same_sub l : Forall (fun q => q == 0)%Q (zipq Qminus l l).
Proof.
  unfold zipq. induction l as [|x l IH]; [constructor|]. cbn. constructor; [ring | exact IH].
Qed.

Lemma op_two f n a b k s s' ys :
  gkind g n = Oper -> gpar g n = [a; b] -> gop g n <> ORPow ->
  fsim g (S f) n k s = (s', Ok (Some ys)) ->
  (forall m, vis s' m = vis s m) /\ val s' = val s /\ length ys = k /\
  exists sa ta xa xb, fsim g f a k sa = (ta, Ok (Some xa)) /\ val sa = val s
    /\ (if Nat.eqb a b then xb = xa
        else exists sb tb, fsim g f b k sb = (tb, Ok (Some xb)) /\ val sb = val s /\ ctr ta <= ctr sb)
    /\ (forall i, i < k -> exists x y, nth_error xa i = Some x /\ nth_error xb i = Some y
                          /\ nth_error ys i = Some (zipq (opf g (gop g n)) x y)) \/ k = 0.
Proof.
  intros Hk Hp Hop H. cbn [fsim] in H. rewrite Hk, Hp in H.
  apply bind_ok in H. destruct H as (s1 & acc & H1 & H).
  apply opsample_two in H1. destruct H1 as (Hvis & Hval & sa & ra & ta & Ha & Hva & Hacc & Hb).
  apply bind_ok in H. destruct H as (s2 & r & H2 & H). inversion H; subst s2 r; clear H.
  destruct (op_results g (gop g n) [a; b] acc k) as [l|e] eqn:Hres; unfold lift in H2; inversion H2; subst s' l; clear H2.
  unfold op_results in Hres.
  destruct (map_res _ (seq 0 k)) as [l|e] eqn:Hmr in Hres; [|discriminate].
  assert (Hl : l = ys) by (inversion Hres; destruct (gop g n); congruence). subst l. clear Hres.
  apply map_res_spec in Hmr. destruct Hmr as [Hlen Hnth]. rewrite seq_length in Hlen.
  split; [exact Hvis|]. split; [exact Hval|]. split; [exact Hlen|].
  destruct k as [|k0].
  { (* no sample requested *)
    exists sa, ta, [], []. right. reflexivity. }
  set (k := S k0) in *.
  assert (Hat : forall i, i < k -> exists x y, sample_at acc a i = Ok x /\ sample_at acc b i = Ok y
             /\ exists z, nth_error ys i = Some z /\ z = zipq (opf g (gop g n)) x y).
  { intros i Hi. destruct (Hnth i i) as (z & Hz & Hf).
    { rewrite nth_error_nth' with (d := 0) by (rewrite seq_length; exact Hi). rewrite seq_nth by exact Hi. reflexivity. }
    cbn [map_res] in Hf. destruct (sample_at acc a i) as [x|]; [|discriminate].
    destruct (sample_at acc b i) as [y|]; [|discriminate]. exists x, y. split; [reflexivity|]. split; [reflexivity|].
    exists z. split; [exact Hz|]. cbn in Hf. unfold opf. destruct (gop g n); inversion Hf; try reflexivity. congruence. }
  assert (Hra : exists xa, ra = Some xa).
  { destruct (Hat 0) as (x & y & Hx & _); [unfold k; lia|]. unfold sample_at in Hx. rewrite Hacc in Hx.
    destruct ra as [xa|]; [exists xa; reflexivity | discriminate]. }
  destruct Hra as [xa ->].
  destruct (Nat.eqb_spec a b) as [Heq|Hne].
  - subst b. exists sa, ta, xa, xa. left. split; [exact Ha|]. split; [exact Hva|]. split; [reflexivity|].
    intros i Hi. destruct (Hat i Hi) as (x & y & Hx & Hy & z & Hz & ->).
    assert (y = x) by congruence. subst y. unfold sample_at in Hx. rewrite Hacc in Hx.
    destruct (nth_error xa i) as [x'|]; [|discriminate]. inversion Hx; subst.
    exists x, x. auto.
  - destruct (Hb Hne) as (sb & rb & tb & Hfb & Hvb & Haccb & Hctr).
    assert (Hrb : exists xb, rb = Some xb).
    { destruct (Hat 0) as (x & y & _ & Hy & _); [unfold k; lia|]. unfold sample_at in Hy. rewrite Haccb in Hy.
      destruct rb as [xb|]; [exists xb; reflexivity | discriminate]. }
    destruct Hrb as [xb ->]. exists sa, ta, xa, xb. left. split; [exact Ha|]. split; [exact Hva|].
    split; [exists sb, tb; auto|]. intros i Hi. destruct (Hat i Hi) as (x & y & Hx & Hy & z & Hz & ->).
    unfold sample_at in Hx, Hy. rewrite Hacc in Hx. rewrite Haccb in Hy.
    destruct (nth_error xa i) as [x'|]; [|discriminate]. destruct (nth_error xb i) as [y'|]; [|discriminate].
    inversion Hx; inversion Hy; subst. exists x, y. auto.
Qed.
End WF.

Lemma op_two_pos g f n a b k s s' ys :
  gkind g n = Oper -> gpar g n = [a; b] -> gop g n <> ORPow -> 0 < k ->
  fsim g (S f) n k s = (s', Ok (Some ys)) ->
  (forall m, vis s' m = vis s m) /\ val s' = val s /\ length ys = k /\
  exists sa ta xa xb, fsim g f a k sa = (ta, Ok (Some xa)) /\ val sa = val s
    /\ (if Nat.eqb a b then xb = xa
        else exists sb tb, fsim g f b k sb = (tb, Ok (Some xb)) /\ val sb = val s /\ ctr ta <= ctr sb)
    /\ (forall i, i < k -> exists x y, nth_error xa i = Some x /\ nth_error xb i = Some y
          /\ nth_error ys i = Some (zipq (match gop g n with OSum => Qplus | OSub => Qminus | OMul => Qmult
                                          | ODiv => Qdiv | _ => gpow g end) x y)).
Proof.
  intros Hk Hp Hop Hpos H. destruct (op_two g f n a b k s s' ys Hk Hp Hop H) as (A & B & C & sa & ta & xa & xb & [D|D]); [|lia].
  do 3 (split; [assumption|]). exists sa, ta, xa, xb. destruct D as (D1 & D2 & D3 & D4).
  do 3 (split; [assumption|]). intros i Hi. destruct (D4 i Hi) as (x & y & E1 & E2 & E3). exists x, y.
  split; [exact E1|]. split; [exact E2|]. rewrite E3. unfold opf. destruct (gop g n); try reflexivity. congruence.
Qed.

Lemma self_difference g f n a k s s' ys :
  gkind g n = Oper -> gpar g n = [a; a] -> gop g n = OSub -> 0 < k ->
  fsim g (S f) n k s = (s', Ok (Some ys)) ->
  length ys = k /\ Forall (Forall (fun q => q == 0)%Q) ys.
Proof.
  intros Hk Hp Hop Hpos H. assert (Hne : gop g n <> ORPow) by congruence.
  destruct (op_two_pos g f n a a k s s' ys Hk Hp Hne Hpos H) as (_ & _ & C & sa & ta & xa & xb & _ & _ & Hx & D).
  split; [exact C|]. rewrite Nat.eqb_refl in Hx. subst xb. apply Forall_forall. intros y Hy.
  apply In_nth_error in Hy. destruct Hy as [i Hi].
  assert (Hik : i < k) by (rewrite <- C; apply nth_error_Some; congruence).
  destruct (D i Hik) as (x & x' & E1 & E2 & E3). assert (x' = x) by congruence. subst x'.
  rewrite Hop in E3. assert (y = zipq Qminus x x) by congruence. subst y. apply zipq_same_sub.
Qed.
