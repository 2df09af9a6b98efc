(** Proofs for the training routines (C84). *)
From Coq Require Import Reals Lra Lia Permutation FunctionalExtensionality.
From Verif Require Import M_Base M_Num M_XReal M_MMD M_KNN M_Similarity M_Losses M_Infer M_Trainer M_NNTrain S_Stats S_Similarity P_Losses P_Similarity P_Trainer S_NNTrain L_PMC L_Stats L_Distance.
Open Scope nat_scope.

(** *** Training with loaders that may fail: a run that succeeds has met no failure. *)
Section Fit.
  Variables W B : Type.
  Variable d : B.
  Variable step : W -> B -> W * num.
  Variable vloss : W -> B -> num.
  Definition whole (l : nat -> res (list B)) (e : nat) : list B := match l e with Ok (b :: bs) => b :: bs | _ => [d] end.
  Lemma whole_ne l e : whole l e <> [].
  Proof. unfold whole. destruct (l e) as [[|b bs]|]; discriminate. Qed.
  Variable tb : nat -> res (list B).
  Variable vb : option (nat -> res (list B)).
  Notation ep := (epochs W B step vloss).
  Definition tot := option_map (fun v e => Ok (whole v e)) vb.
  Lemma epochs_whole early i es : forall k e s s', ep tb vb early i es k e s = Ok s' ->
    ep (fun e => Ok (whole tb e)) tot early i es k e s = Ok s' /\
    exists m, length (tl W s') = length (tl W s) + m /\ m <= k /\ forall j, e <= j < e + m -> tb j = Ok (whole tb j) /\ forall v, vb = Some v -> v j = Ok (whole v j).
  Proof.
    induction k as [|k IH]; intros e s s' H.
    - cbn [epochs] in *. injection H as <-. split; [reflexivity|]. exists 0. split; [lia|]. split; [lia|]. intros; lia.
    - cbn [epochs] in *.
      assert (Et : exists b bs, tb e = Ok (b :: bs)).
      { destruct (tb e) as [[|b bs]|] eqn:E; [cbn in H; discriminate | eauto | discriminate]. }
      destruct Et as (b & bs & Et). assert (Wt : whole tb e = b :: bs) by (unfold whole; rewrite Et; reflexivity).
      rewrite Et in H. rewrite Wt. destruct (train_epoch W B step (b :: bs) (heap W s 0)) as [w' [l|]]; [|discriminate].
      assert (Next : forall s1, length (tl W s1) = S (length (tl W s)) -> (forall v, vb = Some v -> v e = Ok (whole v e)) -> ep tb vb early i es k (S e) s1 = Ok s' ->
        ep (fun e => Ok (whole tb e)) tot early i es k (S e) s1 = Ok s' /\
        exists m, length (tl W s') = length (tl W s) + m /\ m <= S k /\ forall j, e <= j < e + m -> tb j = Ok (whole tb j) /\ forall v, vb = Some v -> v j = Ok (whole v j)).
      { intros s1 L1 V1 H1. destruct (IH _ _ _ H1) as (A & m & A1 & A2 & A3). split; [exact A|]. exists (S m). split; [lia|]. split; [lia|].
        intros j Hj. destruct (Nat.eq_dec j e) as [->|]; [split; [rewrite Et, Wt; reflexivity | exact V1] | apply A3; lia]. }
      assert (Lt : length (tl W s ++ [l]) = S (length (tl W s))) by (rewrite app_length; cbn; lia).
      destruct vb as [v|] eqn:Ev; unfold tot in *; rewrite ?Ev in *; cbn [option_map] in *.
      2:{ apply Next; [exact Lt | discriminate | exact H]. }
      assert (Evb : exists c cs, v e = Ok (c :: cs)).
      { destruct (v e) as [[|c cs]|] eqn:E; [cbn in H; discriminate | eauto | discriminate]. }
      destruct Evb as (c & cs & Evb). assert (Wv : whole v e = c :: cs) by (unfold whole; rewrite Evb; reflexivity).
      rewrite Evb in H. rewrite Wv. destruct (test_epoch W B vloss (c :: cs) w') as [x|]; [|discriminate].
      assert (V1 : forall v0, Some v = Some v0 -> v0 e = Ok (whole v0 e)) by (intros v0 E0; injection E0 as <-; rewrite Evb, Wv; reflexivity).
      cbv zeta in *. cbn [heap net_sd tl vl M_Trainer.es nsched] in *.
      destruct early; [|apply Next; [exact Lt | exact V1 | exact H]].
      destruct i as [|i']; [discriminate|].
      destruct (S e mod S i' =? 0); [|apply Next; [exact Lt | exact V1 | exact H]].
      unfold state_dict in *.
      destruct (M_Trainer.es W s) as [|v' es']; [apply Next; [exact Lt | exact V1 | exact H]|].
      destruct ((es <=? S e) && nlt v' x); [|apply Next; [exact Lt | exact V1 | exact H]].
      destruct (net_sd W s) as [ad|]; [|discriminate]. injection H as <-. split; [reflexivity|]. exists 1. cbn [tl]. split; [rewrite Lt; lia|]. split; [lia|].
      intros j Hj. replace j with e by lia. split; [rewrite Et, Wt; reflexivity | exact V1].
  Qed.

  (** What a successful training has done. *)
  Lemma fit_ran w n start i es early w' tr te k : fit W B step vloss tb vb w n start i es early = Ok (w', tr, te, k) ->
    exists m, m <= n - start /\ (forall j, start <= j < start + m -> tb j = Ok (whole tb j) /\ forall v, vb = Some v -> v j = Ok (whole v j))
    /\ w' = trained W B step (whole tb) w start m /\ tr = map (tloss W B step (whole tb) w start) (seq 0 m)
    /\ te = match vb with None => None | Some v => Some (map (val_loss W B step vloss (whole tb) (whole v) w start) (seq 0 m)) end
    /\ (m = n - start /\ (forall v j, vb = Some v -> early = true -> j < m -> ~ stops W B step vloss (whole tb) (whole v) w start i es j)
        \/ exists v, vb = Some v /\ early = true /\ 0 < m /\ stops W B step vloss (whole tb) (whole v) w start i es (m - 1)
                     /\ forall j, j < m - 1 -> ~ stops W B step vloss (whole tb) (whole v) w start i es j).
  Proof.
    intros H.
    assert (He : n - start = 0 \/ early = true -> (early = true -> vb <> None)).
    { intros _ Ee Ev. subst early. unfold fit in H. rewrite Ev in H. discriminate. }
    unfold fit in H.
    destruct (epochs W B step vloss tb vb early i es (n - start) start (mktst W (fun _ => w) None [] [] [] start)) as [s'|e] eqn:E; [|destruct early, vb; discriminate].
    destruct (epochs_whole _ _ _ _ _ _ _ E) as (E2 & m & L & Hm & R). cbn [tl length] in L.
    destruct (Nat.eq_dec i 0) as [->|Hi].
    { (* the interval is not looked at *)
      destruct early.
      - assert (Hz : n - start = 0).
        { destruct (n - start) as [|r]; [reflexivity|]. exfalso. cbn [epochs] in E. destruct (tb start) as [bs|]; [|discriminate]. cbn [heap] in E. destruct (train_epoch W B step bs w) as [w1 [l|]]; [|discriminate].
          destruct vb as [v|]; [|discriminate]. destruct (v start) as [cs|]; [|discriminate]. destruct (test_epoch W B vloss cs w1); discriminate. }
        rewrite Hz in *. cbn [epochs] in E. injection E as <-. exists 0. split; [lia|]. split; [intros; lia|].
        destruct vb as [v|]; [|discriminate]. cbn in H. injection H as <- <- <- <-. split; [reflexivity|]. split; [reflexivity|]. split; [reflexivity|]. left. split; [reflexivity | intros; lia].
      - destruct (C60_run W B step vloss (whole tb) (option_map whole vb) w n start 0 es false (whole_ne tb)) as (m' & k' & F & Hm' & C).
        { intros v e Ev. destruct vb; [|discriminate]. injection Ev as <-. apply whole_ne. }
        { discriminate. }
        unfold fit in F. replace (option_map (fun (v : nat -> list B) (e : nat) => Ok (v e)) (option_map whole vb)) with tot in F by (unfold tot; destruct vb; reflexivity).
        rewrite E2 in F. assert (EH : match vb with None => None | Some _ => Some (vl W s') end = te /\ tl W s' = tr /\ heap W s' 0 = w') by (destruct vb; injection H as <- <- <- <-; split; [reflexivity | split; reflexivity | reflexivity | split; reflexivity]).
        destruct EH as (<- & <- & <-). exists m'. assert (Et : tl W s' = map (tloss W B step (whole tb) w start) (seq 0 m')) by (destruct vb; cbn in F; injection F; intros; assumption).
        assert (m = m') by (rewrite Et, map_length, seq_length in L; lia). subst m'. split; [exact Hm'|]. split; [exact R|].
        split; [destruct vb; cbn in F; injection F; intros; assumption|]. split; [exact Et|].
        split; [unfold tot in F; destruct vb; cbn in F; first [reflexivity | injection F; intros; f_equal; assumption]|].
        left. destruct C as [(C1 & _ & _)|(v & C1 & C2 & _)]; [|discriminate]. split; [exact C1 | discriminate]. }
    destruct (C60_run W B step vloss (whole tb) (option_map whole vb) w n start i es early (whole_ne tb)) as (m' & k' & F & Hm' & C).
    { intros v e Ev. destruct vb; [|discriminate]. injection Ev as <-. apply whole_ne. }
    { intros Ee. split; [lia|]. intros Ev. destruct vb; [discriminate|]. subst early. discriminate. }
    unfold fit in F. replace (option_map (fun (v : nat -> list B) (e : nat) => Ok (v e)) (option_map whole vb)) with tot in F by (unfold tot; destruct vb; reflexivity).
    rewrite E2 in F.
    assert (EH : match vb with None => None | Some _ => Some (vl W s') end = te /\ tl W s' = tr /\ heap W s' 0 = w') by (destruct early, vb; try discriminate; injection H as <- <- <- <-; (split; [reflexivity | split; reflexivity])).
    destruct EH as (<- & <- & <-). exists m'.
    assert (Et : tl W s' = map (tloss W B step (whole tb) w start) (seq 0 m')) by (unfold tot in F; destruct early, vb; cbn in F; try discriminate; injection F; intros; assumption).
    assert (m = m') by (rewrite Et, map_length, seq_length in L; lia). subst m'. split; [exact Hm'|]. split; [exact R|].
    split; [unfold tot in F; destruct early, vb; cbn in F; try discriminate; injection F; intros; assumption|]. split; [exact Et|].
    split; [unfold tot in F; destruct early, vb; cbn in F; try discriminate; first [reflexivity | injection F; intros; f_equal; assumption]|].
    destruct C as [(C1 & _ & C3)|(v & C1 & C2 & C3 & _ & C5 & C6)].
    - left. split; [exact C1|]. intros v j Ev Ee Hj. apply C3; [rewrite Ev; reflexivity | exact Ee | exact Hj].
    - right. destruct vb as [v0|]; [|discriminate]. injection C1 as <-. exists v0. split; [reflexivity|]. split; [exact C2|]. split; [exact C3|]. split; [exact C5 | exact C6].
  Qed.
End Fit.

(** Two ways to make a step that agree on the batches met lead to the same weights and losses. *)
Section Same.
  Variables W B : Type.
  Variables step step' : W -> B -> W * num.
  Lemma after_same bs : (forall b w, In b bs -> step w b = step' w b) -> forall w, after W B step bs w = after W B step' bs w /\ losses W B step bs w = losses W B step' bs w.
  Proof.
    induction bs as [|b bs IH]; intros H w; [split; reflexivity|]. unfold after in *. cbn [fold_left losses]. rewrite (H b w (or_introl eq_refl)).
    destruct (IH (fun b w Hb => H b w (or_intror Hb)) (fst (step' w b))) as (-> & ->). split; reflexivity.
  Qed.
  Variable tb : nat -> list B.
  Lemma trained_same start m : (forall j b w, start <= j < start + m -> In b (tb j) -> step w b = step' w b) -> forall w,
    (forall j, j <= m -> trained W B step tb w start j = trained W B step' tb w start j) /\ (forall j, j < m -> tloss W B step tb w start j = tloss W B step' tb w start j).
  Proof.
    intros H w. assert (A : forall j, j <= m -> trained W B step tb w start j = trained W B step' tb w start j).
    { induction j as [|j IH]; intros Hj; [reflexivity|]. cbn [trained]. rewrite IH by lia. apply after_same. intros b w0 Hb. apply (H (start + j)); [lia | exact Hb]. }
    split; [exact A|]. intros j Hj. unfold tloss. rewrite A by lia. f_equal. apply after_same. intros b w0 Hb. apply (H (start + j)); [lia | exact Hb].
  Qed.
End Same.

(** *** Pieces *)
Lemma chunks_spec {A} b : 0 < b -> forall fuel (l : list A), length l <= fuel -> Pieces b false l (chunks fuel b l).
Proof.
  intros Hb. induction fuel as [|f IH]; intros l Hl.
  - destruct l; [|cbn in Hl; lia]. split; [reflexivity|]. split; constructor.
  - destruct l as [|x l]; [split; [reflexivity|]; split; constructor|]. cbn [chunks].
    assert (Hs : length (skipn b (x :: l)) <= f) by (rewrite skipn_length; cbn [length] in *; lia).
    destruct (IH _ Hs) as (C & F & G).
    split; [cbn [concat]; rewrite <- C; symmetry; apply firstn_skipn|]. split.
    + constructor; [|exact F]. rewrite firstn_length. cbn [length]. lia.
    + cbn [removelast]. destruct (chunks f b (skipn b (x :: l))) as [|c cs] eqn:E; [constructor|]. constructor; [|exact G].
      rewrite firstn_length. assert (0 < length (skipn b (x :: l))).
      { destruct (skipn b (x :: l)); [|cbn; lia]. cbn [concat] in C. apply (f_equal (@length A)) in C. rewrite app_length in C. apply Forall_inv in F. cbn in C. lia. }
      rewrite skipn_length in H. lia.
Qed.
Lemma pieces_spec {A} b drop (l : list A) : 0 < b -> Pieces b drop l (pieces b drop l).
Proof.
  intros Hb. unfold pieces. pose proof (chunks_spec b Hb (length l) l (le_n _)) as H. destruct drop; [|exact H].
  destruct H as (C & F & G). set (cs := chunks (length l) b l) in *. clearbody cs. rewrite C. clear C.
  induction cs as [|c cs IH]; [split; [constructor|]; exists []; cbn; split; [reflexivity | lia]|].
  cbn [filter concat]. apply Forall_inv in F as Fc. apply Forall_inv_tail in F. destruct cs as [|c' cs].
  - destruct (Nat.eqb_spec (length c) b) as [E|E].
    + split; [constructor; [exact E | constructor]|]. exists []. split; [cbn [filter concat]; rewrite !app_nil_r; reflexivity | cbn; lia].
    + split; [constructor|]. exists c. cbn [filter concat]. rewrite app_nil_r. split; [reflexivity | lia].
  - cbn [removelast] in G. apply Forall_inv in G as Gc. apply Forall_inv_tail in G. destruct (IH F G) as (I1 & rest & I2 & I3).
    rewrite (proj2 (Nat.eqb_eq _ _) Gc). split; [constructor; assumption|]. exists rest. rewrite I2. cbn [concat]. split; [apply app_assoc | exact I3].
Qed.

Lemma all_ok_spec {A B} (f : A -> res B) l : forall l', all_ok f l = Ok l' -> Forall2 (fun a b => f a = Ok b) l l'.
Proof.
  induction l as [|a l IH]; intros l' H; cbn [all_ok] in H; [injection H as <-; constructor|]. destruct (f a) as [b|] eqn:E; [|discriminate]. cbn [rthen] in H.
  destruct (all_ok f l) as [bs|]; [|discriminate]. cbn [rthen] in H. injection H as <-. constructor; [exact E | apply IH; reflexivity].
Qed.

Lemma Forall2_imp {A B} (P Q : A -> B -> Prop) l l' : (forall a b, P a b -> Q a b) -> Forall2 P l l' -> Forall2 Q l l'.
Proof. intros H. induction 1; constructor; auto. Qed.

Section Items.
  Variables X Y W : Type.
  Variable cast : X -> X.
  Variable castY : Y -> Y.
  Variable coords : Y -> list R.
  Variable emb : W -> X -> list R.
  Variable draws : bool -> nat -> nat -> nat -> nat.
  Variable unif : bool -> nat -> nat -> R.
  Variable fuel : nat.
  Variable perm : nat -> nat -> list nat.

  Lemma pick_some {A} (l : list A) i x : pick l i = Ok x -> nth_error l i = Some x.
  Proof. unfold pick. destruct (nth_error l i); [intros H; injection H as <-; reflexivity | discriminate]. Qed.
  Lemma nth_map {A B} (f : A -> B) l i y : nth_error (map f l) i = Some y -> exists x, nth_error l i = Some x /\ y = f x.
  Proof. rewrite nth_error_map. destruct (nth_error l i) as [x|]; [|discriminate]. cbn. intros H. injection H as <-. eauto. Qed.
  Lemma target_says M w i t : says Y (target_kind Y M w i t) t.
  Proof. unfold target_kind, says. destruct w as [w0|]; [|now left]. destruct (nth_error M i) as [r|]; [|now left]. destruct (trues r <? 2); [now left | now right]. Qed.

  Lemma item_shows tr e k w xs l d i it : Fits X Y k xs l -> make X Y cast castY k w xs l = Ok d -> get_item X Y draws unif fuel tr e d i = Ok it -> Shows X Y cast castY k xs l i it.
  Proof.
    intros HF HM HG. destruct k, l as [M|ys]; cbn [make] in HM; try discriminate.
    - injection HM as <-. cbn [get_item] in HG. rewrite map_length in HG. destruct (siamese _ _ _ _ _ _ _) as [[[a b] t]|] eqn:E; [|discriminate].
      destruct (C48_siamese _ _ _ _ _ _ _ _ _ _ HF E) as (-> & Hb & _ & HE).
      destruct (pick (map cast xs) i) as [x1|] eqn:E1; [|discriminate]. destruct (pick (map cast xs) b) as [x2|] eqn:E2; [|discriminate]. cbn [rthen] in HG. injection HG as <-.
      apply pick_some, nth_map in E1. apply pick_some, nth_map in E2. destruct E1 as (x & E1 & ->), E2 as (y & E2 & ->).
      exists b, x, y, t. split; [exact Hb|]. split; [exact E1|]. split; [exact E2|]. split; [exact HE|]. split; [reflexivity | apply target_says].
    - injection HM as <-. cbn [get_item] in HG. rewrite map_length in HG. destruct (M_Similarity.triplet _ _ _ _ _) as [[[a p] m]|] eqn:E; [|discriminate].
      destruct (C48_triplet _ _ _ _ _ _ _ _ HF E) as (H1 & H2 & _ & H3 & H4 & k0 & H5 & H6 & H7).
      destruct (pick (map cast xs) a) as [x1|] eqn:E1; [|discriminate]. destruct (pick (map cast xs) p) as [x2|] eqn:E2; [|discriminate]. destruct (pick (map cast xs) m) as [x3|] eqn:E3; [|discriminate].
      cbn [rthen] in HG. injection HG as <-.
      apply pick_some, nth_map in E1. apply pick_some, nth_map in E2. apply pick_some, nth_map in E3. destruct E1 as (x & E1 & ->), E2 as (y & E2 & ->), E3 as (z & E3 & ->).
      exists a, p, m, x, y, z. split; [exact H1|]. split; [exact E1|]. split; [exact E2|]. split; [exact E3|]. split; [exact H3|]. split; [exact H4|]. split; [reflexivity|].
      intros Ha n Hn. destruct H5 as (r & Hr & Hk), Hn as (r' & Hr' & Hn). rewrite Hr in Hr'. injection Hr' as <-. destruct (Nat.lt_ge_cases n 2) as [|Hge]; [assumption|]. exfalso. apply Ha, H6. congruence.
    - destruct (negb (length xs =? length ys)); [discriminate|]. injection HM as <-. cbn [get_item] in HG.
      destruct (pick (map cast xs) i) as [x1|] eqn:E1; [|discriminate]. destruct (pick (map castY ys) i) as [y1|] eqn:E2; [|discriminate]. cbn [rthen] in HG. injection HG as <-.
      apply pick_some, nth_map in E1. apply pick_some, nth_map in E2. destruct E1 as (x & E1 & ->), E2 as (y & E2 & ->). exists x, y. split; [exact E1|]. split; [exact E2 | reflexivity].
  Qed.
  Lemma make_len k w xs l d : make X Y cast castY k w xs l = Ok d -> dlen X Y d = length xs.
  Proof.
    destruct k, l as [M|ys]; cbn [make]; try discriminate; [intros H; injection H as <-; apply map_length..|].
    destruct (Nat.eqb_spec (length xs) (length ys)) as [E|E]; cbn [negb]; [|discriminate]. intros H. injection H as <-. cbn [dlen]. rewrite map_length. symmetry. exact E.
  Qed.
  Lemma load_pass tr e k w xs l d ld bs : 0 < l_batch ld -> Fits X Y k xs l -> make X Y cast castY k w xs l = Ok d -> load X Y perm draws unif fuel tr ld d e = Ok bs ->
    Pass X Y cast castY k xs l (l_batch ld) (l_drop ld) (if l_shuffle ld then perm e (length xs) else seq 0 (length xs)) e bs.
  Proof.
    intros Hb HF HM HL. unfold load in HL. rewrite (make_len _ _ _ _ _ HM) in HL. apply all_ok_spec in HL. eexists. split; [apply pieces_spec; exact Hb|].
    eapply Forall2_imp; [|exact HL]. intros is bt H. cbn beta in H. destruct (all_ok _ is) as [b|] eqn:E; [|discriminate]. cbn [rthen] in H.
    assert (Hc : collate X Y b = Ok b \/ exists e, collate X Y b = Err e).
    { unfold collate. destruct b as [|[x [ |t|t|y]] rest]; try (left; reflexivity). match goal with |- context [existsb ?f rest] => destruct (existsb f rest) end; [right; eauto | left; reflexivity]. }
    destruct Hc as [Hc|(e0 & Hc)]; rewrite Hc in H; [|discriminate]. cbn [rthen] in H. injection H as <-. cbn [fst snd]. split; [reflexivity|].
    apply all_ok_spec in E. eapply Forall2_imp; [|exact E]. intros i it Hi. exact (item_shows tr e k w xs l d i it HF HM Hi).
  Qed.

  (** *** Losses *)
  Lemma total_concat (l : list (list R)) : total (concat l) = total (map total l).
  Proof. induction l as [|a l IH]; [reflexivity|]. cbn [concat map]. rewrite total_app, total_cons, IH. reflexivity. Qed.
  Lemma length_concat_const {A} (l : list (list A)) q : Forall (fun x => length x = q) l -> length (concat l) = length l * q.
  Proof. induction 1 as [|a l Ha H IH]; [reflexivity|]. cbn [concat length]. rewrite app_length, IH, Ha. lia. Qed.
  Definition shape (k : kind) (it : item X Y) : Prop :=
    match k, it with Contrastive, ([_; _], TensorT _ _) | Contrastive, ([_; _], IntT _ _) => True | Triplet, ([_; _; _], _) => True | FP, ([_], Par _ _) => True | _, _ => False end.
  Lemma shows_shape k xs l i it : Shows X Y cast castY k xs l i it -> shape k it.
  Proof.
    destruct k, l as [M|ys]; cbn [Shows]; try contradiction.
    - intros (j & x & y & t & _ & _ & _ & _ & H1 & H2). destruct it as [ins tg]. cbn [fst snd] in *. subst ins. destruct H2 as [->| ->]; exact I.
    - intros (a & p & m & x & y & z & _ & _ & _ & _ & _ & _ & -> & _). exact I.
    - intros (x & y & _ & _ & ->). exact I.
  Qed.
  Lemma combine_map2 {A B C} (f : A -> B) (g : A -> C) l : combine (map f l) (map g l) = map (fun a => (f a, g a)) l.
  Proof. induction l as [|a l IH]; [reflexivity|]. cbn [map combine]. rewrite IH. reflexivity. Qed.
  Lemma loss_spec k margin w b q : 0 < q -> (forall x, length (emb w x) = q) -> (forall y, length (coords y) = q) -> b <> [] -> Forall (shape k) b ->
    loss_of X Y coords k margin (emb w) b = batch_loss X Y W coords emb k margin b w.
  Proof.
    intros Hq He Hc Hb HF. unfold batch_loss.
    destruct k; cbn [loss_of].
    - unfold reduce. assert (E : contrastive_rows margin (map (input X Y 0 (emb w)) b) (map (input X Y 1 (emb w)) b) (map (fun it => bit Y (snd it)) b) = map (item_loss X Y coords Contrastive margin (emb w)) b).
      { unfold contrastive_rows. rewrite combine_map2, combine_map2, map_map. apply map_ext_in. intros it Hit. rewrite Forall_forall in HF. specialize (HF it Hit).
        destruct it as [[|x [|y [|z l]]] [ |t|t|y0]]; cbn [shape] in HF; try contradiction; cbn [item_loss input fst snd nth_error bit]; rewrite sqdist_dist2, eps_val; unfold pair_loss, relu; destruct t; field. }
      rewrite E. destruct b; [congruence|]. reflexivity.
    - unfold reduce. assert (E : triplet_rows margin (map (input X Y 0 (emb w)) b) (map (input X Y 1 (emb w)) b) (map (input X Y 2 (emb w)) b) = map (item_loss X Y coords Triplet margin (emb w)) b).
      { unfold triplet_rows. rewrite combine_map2, combine_map2, map_map. apply map_ext_in. intros it Hit. rewrite Forall_forall in HF. specialize (HF it Hit).
        destruct it as [[|x [|y [|z [|u l]]]] t]; cbn [shape] in HF; try contradiction. cbn [item_loss input fst snd nth_error]. unfold triplet_loss, relu. rewrite !sqdist_dist2, (dist2_sym (emb w y)), (dist2_sym (emb w z)). reflexivity. }
      rewrite E. destruct b; [congruence|]. reflexivity.
    - set (rows := map (fun it => map (fun ab => ((fst ab - snd ab) * (fst ab - snd ab))%R) (combine (input X Y 0 (emb w) it) (row Y coords (snd it)))) b).
      assert (Hlen : Forall (fun r => length r = q) rows).
      { unfold rows. apply Forall_map. apply Forall_forall. intros it Hit. rewrite Forall_forall in HF. specialize (HF it Hit). destruct it as [[|x [|y l]] [ |t|t|y0]]; cbn [shape] in HF; try contradiction.
        rewrite map_length, combine_length. cbn [input fst snd nth_error row]. rewrite He, Hc. apply Nat.min_id. }
      assert (Hl2 : length rows = length b) by (unfold rows; apply map_length).
      assert (Hne : concat rows <> []). { intros E. apply (f_equal (@length R)) in E. rewrite (length_concat_const _ q Hlen), Hl2 in E. destruct b; [congruence|]. cbn in E. lia. }
      unfold reduce. assert (Ht : total (concat rows) = (total (map (item_loss X Y coords FP margin (emb w)) b) * INR q)%R).
      { rewrite total_concat. unfold rows. rewrite map_map. clear rows Hlen Hl2 Hne Hb. induction b as [|it b IH]; [cbn; ring|]. cbn [map]. rewrite !total_cons. rewrite Rmult_plus_distr_r, <- IH by (apply Forall_inv_tail in HF; exact HF). f_equal.
        apply Forall_inv in HF. destruct it as [[|x [|y l]] [ |t|t|y0]]; cbn [shape] in HF; try contradiction. cbn [input fst snd nth_error row item_loss]. rewrite Hc.
        replace (dist2 (emb w x) (coords y0) / INR q * INR q)%R with (dist2 (emb w x) (coords y0)) by (field; apply not_0_INR; lia).
        unfold dist2. f_equal. apply map_ext. intros [u v]. cbn [fst snd]. ring. }
      rewrite <- Ht || idtac. change rtotal with total. destruct (concat rows) as [|r0 rs] eqn:Er; [congruence|]. f_equal. unfold average. rewrite map_length.
      rewrite <- Er in *. rewrite Ht, (length_concat_const _ q Hlen), Hl2, mult_INR. field. split; apply not_0_INR; [|lia]. destruct b; [congruence|discriminate].
  Qed.
End Items.
