(** Proofs about perturb and the proposal loop. *)
From Verif Require Import M_Base M_Num L_Num M_Infer S_Infer.
From Coq Require Import Lqa.
Open Scope nat_scope.

Section I.
Variables Theta Rng Pop : Type.
Variable setp : Theta -> Theta -> bool * Theta.
Variable kupd : Pop -> nat -> Rng -> Rng * Theta.
Notation Try := (Try setp kupd).
Notation Refused := (Refused setp kupd).
Notation perturb_loop := (perturb_loop Theta Rng Pop setp kupd).
Notation perturb := (perturb Theta Rng Pop setp kupd).

Lemma loop_spec p i left : forall epoch cur r last e cur' r' th,
  perturb_loop p i left epoch cur r last = Ok (e, cur', r', th) <->
  (exists k st1, k < left /\ e = epoch + k /\ Refused p i k (cur, r) st1 /\ Try p i st1 (cur', r') th true)
  \/ (e = epoch + left /\ match left with
       | 0 => last = Some th /\ cur' = cur /\ r' = r
       | S n => exists st1, Refused p i n (cur, r) st1 /\ Try p i st1 (cur', r') th false end).
Proof.
  induction left as [|left IH]; intros epoch cur r last e cur' r' th; cbn [M_Infer.perturb_loop].
  - destruct last as [t|]; split.
    + intros H. inversion H; subst. right. rewrite Nat.add_0_r. auto.
    + intros [(k & st1 & Hk & _) | (-> & E & -> & ->)]; [lia|]. rewrite Nat.add_0_r. congruence.
    + discriminate.
    + intros [(k & st1 & Hk & _) | (-> & E & _)]; [lia | discriminate].
  - destruct (kupd p i r) as [r1 th1] eqn:Ek. destruct (setp th1 cur) as [ok c1] eqn:Es. destruct ok.
    + split.
      * intros H. inversion H; subst. left. exists 0, (cur, r). split; [lia|]. split; [lia|]. split; [constructor|]. split; assumption.
      * intros [(k & st1 & Hk & -> & Hr & [A B]) | (-> & st1 & Hr & [A B])].
        -- inversion Hr as [|? ? st2 ? th2 [A2 B2] Hr2]; subst; cbn in *.
           ++ rewrite Ek in A. inversion A; subst. rewrite Es in B. inversion B; subst. rewrite Nat.add_0_r. reflexivity.
           ++ rewrite Ek in A2. inversion A2; subst. rewrite Es in B2. discriminate.
        -- inversion Hr as [|? ? st2 ? th2 [A2 B2] Hr2]; subst; cbn in *.
           ++ rewrite Ek in A. inversion A; subst. rewrite Es in B. discriminate.
           ++ rewrite Ek in A2. inversion A2; subst. rewrite Es in B2. discriminate.
    + rewrite IH. assert (HT : Try p i (cur, r) (c1, r1) th1 false) by (split; assumption). split.
      * intros [(k & st1 & Hk & -> & Hr & H) | (-> & H)].
        -- left. exists (S k), st1. split; [lia|]. split; [lia|]. split; [econstructor; eassumption | exact H].
        -- right. split; [lia|]. destruct left as [|n].
           ++ destruct H as (E & -> & ->). injection E as <-. exists (cur, r). split; [constructor | exact HT].
           ++ destruct H as (st1 & Hr & H). exists st1. split; [econstructor; eassumption | exact H].
      * intros [(k & st1 & Hk & -> & Hr & H) | (-> & st1 & Hr & H)].
        -- left. inversion Hr as [|k' ? st2 ? th2 [A2 B2] Hr2]; subst.
           ++ destruct H as [A B]. cbn in *. rewrite Ek in A. inversion A; subst. rewrite Es in B. discriminate.
           ++ cbn in A2, B2. rewrite Ek in A2. inversion A2; subst. rewrite Es in B2. inversion B2; subst. exists k', st1. split; [lia|]. split; [lia|]. destruct st2. split; assumption.
        -- right. split; [lia|]. destruct left as [|n].
           ++ inversion Hr; subst. destruct H as [A B]. cbn in *. rewrite Ek in A. inversion A; subst. rewrite Es in B. inversion B; subst. auto.
           ++ inversion Hr as [|k' ? st2 ? th2 [A2 B2] Hr2]; subst. cbn in A2, B2. rewrite Ek in A2. inversion A2; subst. rewrite Es in B2. inversion B2; subst.
              exists st1. destruct st2. split; assumption.
Qed.
Lemma perturb_some epochs p i cur r cur' r' th : 10 < epochs ->
  (perturb epochs p i cur r = Ok (cur', r', Some th) <->
   (exists k st1, k < epochs /\ k <> 10 /\ Refused p i k (cur, r) st1 /\ Try p i st1 (cur', r') th true)
   \/ (exists st1, Refused p i (epochs - 1) (cur, r) st1 /\ Try p i st1 (cur', r') th false)).
Proof.
  intros He. unfold M_Infer.perturb. destruct epochs as [|n]; [lia|]. replace (S n - 1) with n by lia.
  destruct (perturb_loop p i (S n) 0 cur r None) as [[[[e c] r1] t]|] eqn:El.
  - pose proof (proj1 (loop_spec _ _ _ _ _ _ _ _ _ _ _) El) as Hl. split.
    + intros H. destruct (Nat.eqb_spec e 10) as [|He10]; [discriminate|]. inversion H; subst.
      destruct Hl as [(k & st1 & Hk & -> & Hr & Ht) | (-> & Hl)]; [left; exists k, st1; auto | right; exact Hl].
    + intros H. assert (Hm : exists e', e' <> 10 /\ perturb_loop p i (S n) 0 cur r None = Ok (e', cur', r', th)).
      { destruct H as [(k & st1 & Hk & Hk10 & H) | H].
        - exists k. split; [exact Hk10|]. apply loop_spec. left. exists k, st1. tauto.
        - exists (S n). split; [lia|]. apply loop_spec. right. split; [reflexivity | exact H]. }
      destruct Hm as (e' & Hne & Hm). rewrite El in Hm. inversion Hm; subst. apply Nat.eqb_neq in Hne. rewrite Hne. reflexivity.
  - split; [discriminate|]. intros H. exfalso.
    assert (Hm : exists e', perturb_loop p i (S n) 0 cur r None = Ok (e', cur', r', th)).
    { destruct H as [(k & st1 & Hk & Hk10 & H) | H].
      - exists k. apply loop_spec. left. exists k, st1. tauto.
      - exists (S n). apply loop_spec. right. split; [reflexivity | exact H]. }
    destruct Hm as [e' Hm]. congruence.
Qed.
Lemma perturb_none epochs p i cur r cur' r' : 10 < epochs ->
  (perturb epochs p i cur r = Ok (cur', r', None) <-> exists st1 th, Refused p i 10 (cur, r) st1 /\ Try p i st1 (cur', r') th true).
Proof.
  intros He. unfold M_Infer.perturb. destruct (perturb_loop p i epochs 0 cur r None) as [[[[e c] r1] t]|] eqn:El.
  - pose proof (proj1 (loop_spec _ _ _ _ _ _ _ _ _ _ _) El) as Hl. split.
    + intros H. destruct (Nat.eqb_spec e 10) as [->|He10]; [|discriminate]. inversion H; subst.
      destruct Hl as [(k & st1 & Hk & E & Hr & Ht) | (E & Hl)]; [|lia]. cbn in E. subst k. exists st1, t. auto.
    + intros (st1 & th & Hr & Ht). assert (Hm : perturb_loop p i epochs 0 cur r None = Ok (10, cur', r', th)).
      { apply loop_spec. left. exists 10, st1. auto. }
      rewrite El in Hm. inversion Hm; subst. reflexivity.
  - split; [discriminate|]. intros (st1 & th & Hr & Ht). exfalso. assert (Hm : perturb_loop p i epochs 0 cur r None = Ok (10, cur', r', th)).
      { apply loop_spec. left. exists 10, st1. auto. }
      congruence.
Qed.
Lemma perturb_no_error epochs p i cur r : 0 < epochs -> exists x, perturb epochs p i cur r = Ok x.
Proof.
  intros He. unfold M_Infer.perturb. assert (Hl : forall left epoch cur r last, (left = 0 -> last <> None) -> exists x, perturb_loop p i left epoch cur r last = Ok x).
  { induction left as [|l IH]; intros epoch c r0 last H; cbn.
    - destruct last; [eauto | exfalso; apply H; reflexivity].
    - destruct (kupd p i r0) as [r1 th]. destruct (setp th c) as [ok c1]. destruct ok; [eauto|]. apply IH. discriminate. }
  destruct (Hl epochs 0 cur r None ltac:(lia)) as [[[[e c] r1] t] ->]. destruct (Nat.eqb e 10); eauto.
Qed.
Variable pdfv : Theta -> Theta -> num.
(** what a proposal leaves behind *)
Lemma propose_spec fuel : set_ok setp -> forall p i cur r cur' r' th,
  propose Theta Rng Pop setp kupd pdfv fuel p i cur r = Ok (cur', r', th) ->
  neqb (pdfv th cur') (Fin 0) = false /\ (cur' = th \/ exists c0, setp th c0 = (false, cur')) /\ (exists r0 r1, kupd p i r0 = (r1, th)).
Proof.
  intros [Hs1 Hs2]. induction fuel as [|f IH]; intros p i cur r cur' r' th; cbn [propose]; [discriminate|].
  destruct (M_Infer.perturb Theta Rng Pop setp kupd 100 p i cur r) as [[[c1 r1] [th1|]]|] eqn:Ep; try discriminate; [|apply IH].
  destruct (pdf_of_prior Theta setp pdfv th1 c1) as [v c2] eqn:Ev. unfold pdf_of_prior in Ev. inversion Ev as [[Hv Hc]]; subst.
  destruct (neqb (pdfv th1 (snd (setp th1 c1))) (Fin 0)) eqn:E0; [apply IH|]. intros H. inversion H; subst. split; [exact E0|].
  split; [destruct (setp th c1) as [ok c2] eqn:Es; cbn; destruct ok; [left; apply (Hs1 _ _ _ Es) | right; eauto]|].
  apply perturb_some in Ep; [|lia]. destruct Ep as [(k & st1 & _ & _ & _ & [Ht _]) | (st1 & _ & [Ht _])]; eauto.
Qed.
(** when every proposal is installed within the allowed attempts *)
Lemma propose_installed fuel : set_ok setp -> forall p i, (forall st st', ~ Refused p i 100 st st') -> forall cur r cur' r' th,
  propose Theta Rng Pop setp kupd pdfv fuel p i cur r = Ok (cur', r', th) ->
  cur' = th /\ neqb (pdfv th th) (Fin 0) = false.
Proof.
  intros [Hs1 Hs2] p i Hex. induction fuel as [|f IH]; intros cur r cur' r' th; cbn [propose]; [discriminate|].
  destruct (M_Infer.perturb Theta Rng Pop setp kupd 100 p i cur r) as [[[c1 r1] [th1|]]|] eqn:Ep; try discriminate; [|apply IH].
  destruct (pdf_of_prior Theta setp pdfv th1 c1) as [v c2] eqn:Ev. unfold pdf_of_prior in Ev. inversion Ev as [[Hv Hc]]; subst.
  destruct (neqb (pdfv th1 (snd (setp th1 c1))) (Fin 0)) eqn:E0; [apply IH|]. intros H. inversion H; subst.
  apply perturb_some in Ep; [|lia]. destruct Ep as [(k & st1 & _ & _ & _ & [_ Ht]) | (st1 & Hr & Ht)].
  - cbn in Ht. apply Hs1 in Ht. subst c1. rewrite Hs2 in *. auto.
  - exfalso. apply (Hex (cur, r) (c1, r')). assert (Hsn : forall k a b c th, Refused p i k a b -> Try p i b c th false -> Refused p i (S k) a c).
    { clear. intros k a b c th H. induction H; intros Ht; [econstructor; [exact Ht | constructor] | econstructor; [eassumption | auto]]. }
    change 100 with (S 99). eapply Hsn; eassumption.
Qed.
End I.

(** * Sums and divisions of finite numbers *)
Open Scope Q_scope.
Lemma nsum_fin ql : exists s, nsum (map Fin ql) = Fin s /\ s == fold_right Qplus 0 ql.
Proof.
  unfold nsum. assert (H : forall a, exists s, fold_left nadd (map Fin ql) (Fin a) = Fin s /\ s == a + fold_right Qplus 0 ql).
  { induction ql as [|x l IH]; intros a; cbn; [exists a; split; [reflexivity | ring]|]. destruct (IH (a + x)) as (s & -> & Hs). exists s. split; [reflexivity|]. rewrite Hs. ring. }
  destruct (H 0) as (s & -> & Hs). exists s. split; [reflexivity|]. rewrite Hs. ring.
Qed.
Lemma ndiv_fin x y : ~ y == 0 -> ndiv (Fin x) (Fin y) = Fin (x / y).
Proof. intros H. cbn. destruct (Qeq_bool y 0) eqn:E; [|reflexivity]. apply Qeq_bool_iff in E. contradiction. Qed.
Lemma sum_div l s : ~ s == 0 -> fold_right Qplus 0 (map (fun x => x / s) l) == fold_right Qplus 0 l / s.
Proof. intros H. induction l as [|x l IH]; cbn; [field; exact H|]. rewrite IH. field. exact H. Qed.
Lemma sum_nonneg l : Forall (fun x => 0 <= x) l -> 0 <= fold_right Qplus 0 l.
Proof. induction 1; cbn; lra. Qed.
Lemma sum_pos l : Forall (fun x => 0 <= x) l -> (exists x, In x l /\ 0 < x) -> 0 < fold_right Qplus 0 l.
Proof.
  induction 1 as [|x l Hx Hl IH]; intros (y & Hy & Hp); [destruct Hy|]. cbn. pose proof (sum_nonneg l Hl). destruct Hy as [->|Hy]; [lra|].
  assert (0 < fold_right Qplus 0 l) by (apply IH; eauto). lra.
Qed.
(** normalising a vector of non-negative numbers, not all zero *)
Lemma normalise_fin ql : Forall (fun x => 0 <= x) ql -> (exists x, In x ql /\ 0 < x) ->
  exists ws, map (fun w => ndiv w (nsum (map Fin ql))) (map Fin ql) = map Fin ws /\ length ws = length ql
  /\ Forall (fun x => 0 <= x) ws /\ fold_right Qplus 0 ws == 1
  /\ (forall i, (i < length ql)%nat -> nth i ws 0 == nth i ql 0 / fold_right Qplus 0 ql).
Proof.
  intros Hn Hp. destruct (nsum_fin ql) as (s & -> & Hs). pose proof (sum_pos ql Hn Hp) as Hpos.
  assert (Hs0 : ~ s == 0) by (rewrite Hs; lra). exists (map (fun x => x / s) ql). rewrite map_map.
  split. { rewrite map_map. apply map_ext. intros x. apply ndiv_fin. exact Hs0. }
  split; [apply map_length|]. split.
  - rewrite Forall_forall in *. intros y Hy. apply in_map_iff in Hy. destruct Hy as (x & <- & Hx). specialize (Hn x Hx). apply Qle_shift_div_l; [lra|]. lra.
  - split; [rewrite sum_div by exact Hs0; rewrite <- Hs; field; exact Hs0|].
    intros i Hi. rewrite (nth_indep (map (fun x => x / s) ql) 0 (0 / s)) by (rewrite map_length; exact Hi). rewrite (map_nth (fun x => x / s)). rewrite Hs. reflexivity.
Qed.
