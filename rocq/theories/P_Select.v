(** C46: labels and choice in model selection by random forests. *)
From Coq Require Import Reals Sorted.
From Verif Require Import M_Base M_Num M_XReal M_Stats M_Journal L_Journal2 M_Select.
Open Scope nat_scope.

(** One draw of a multinomial distribution: counts of which exactly one is 1, the others 0. *)
Definition one_draw (m : nat) (counts : list nat) (j : nat) : Prop :=
  length counts = m /\ nth_error counts j = Some 1 /\ forall i c, nth_error counts i = Some c -> i <> j -> c = 0.
Lemma total0 : forall counts a m, (forall i c, nth_error counts i = Some c -> c = 0) -> list_sum (map (fun ic => fst ic * snd ic) (combine (seq a m) counts)) = 0.
Proof.
  induction counts as [|c counts IH]; intros a [|m] H; cbn; try reflexivity. rewrite (H 0 c eq_refl), Nat.mul_0_r. apply (IH (S a) m). intros i c' Hi. apply (H (S i) c' Hi).
Qed.
(** The index computed from the counts is the position of the 1, so always a candidate. *)
Theorem C46_drawn : forall m counts j, one_draw m counts j -> drawn_index m counts = j /\ j < m.
Proof.
  intros m counts j (Hl & Hj & Ho). split; [|rewrite <- Hl; apply nth_error_Some; congruence]. unfold drawn_index.
  assert (G : forall counts a m j, length counts = m -> nth_error counts j = Some 1 -> (forall i c, nth_error counts i = Some c -> i <> j -> c = 0) -> list_sum (map (fun ic => fst ic * snd ic) (combine (seq a m) counts)) = a + j).
  { clear. induction counts as [|c counts IH]; intros a m j Hl Hj Ho; [destruct j; discriminate|]. destruct m as [|m]; [discriminate|]. cbn [seq combine map fst snd]. change (list_sum (?x :: ?l)) with (x + list_sum l). destruct j as [|j].
    - cbn in Hj. injection Hj as ->. rewrite total0; [lia|]. intros i c Hi. apply (Ho (S i) c Hi). lia.
    - rewrite (Ho 0 c eq_refl) by lia. rewrite (IH (S a) m j); [lia | now injection Hl | exact Hj|]. intros i c' Hi Hn. apply (Ho (S i) c' Hi). lia. }
  apply (G counts 0 m j Hl Hj Ho).
Qed.
Print Assumptions C46_drawn.

(** The label is the last position of the object among the candidates, 0 if it is none of them. *)
Definition last_at (ms : list nat) (o j : nat) : Prop := nth_error ms j = Some o /\ forall i, nth_error ms i = Some o -> i <= j.
Lemma label_gen o ms : forall a lab, let r := fold_left (fun lab io => if o =? snd io then fst io else lab) (combine (seq a (length ms)) ms) lab in
  (~ In o ms -> r = lab) /\ (In o ms -> exists j, r = a + j /\ last_at ms o j).
Proof.
  induction ms as [|x ms IH]; intros a lab; cbn; [split; [reflexivity | intros []]|]. destruct (IH (S a) (if o =? x then a else lab)) as (A & B). split.
  - intros H. rewrite A by tauto. destruct (Nat.eqb_spec o x); [subst; exfalso; apply H; now left | reflexivity].
  - intros H. destruct (in_dec Nat.eq_dec o ms) as [Hi|Hn].
    + destruct (B Hi) as (j & E & L1 & L2). exists (S j). split; [rewrite E; lia|]. split; [exact L1|]. intros [|i] Hi'; [lia|]. cbn in Hi'. apply L2 in Hi'. lia.
    + destruct H as [->|H]; [|contradiction]. rewrite (A Hn), Nat.eqb_refl. exists 0. split; [lia|]. split; [reflexivity|]. intros [|i] Hi'; [lia|]. cbn in Hi'. exfalso. apply Hn. eapply nth_error_In. exact Hi'.
Qed.
Theorem C46_label : forall ms o, (In o ms -> last_at ms o (label_of ms o)) /\ (~ In o ms -> label_of ms o = 0).
Proof.
  intros ms o. destruct (label_gen o ms 0 0) as (A & B). split; [|exact A]. intros H. destruct (B H) as (j & E & L). unfold label_of, indexed. cbv zeta in E. rewrite E. exact L.
Qed.
Print Assumptions C46_label.
Lemma label_nodup ms o j : NoDup ms -> nth_error ms j = Some o -> label_of ms o = j.
Proof.
  intros Hnd Hj. destruct (C46_label ms o) as (H & _). destruct (H (nth_error_In _ _ Hj)) as (H1 & _). eapply NoDup_nth_error; [exact Hnd | apply nth_error_Some; congruence | congruence].
Qed.

Lemma F2n {A B} (R : A -> B -> Prop) l l' : Forall2 R l l' -> length l = length l' /\ forall i y, nth_error l' i = Some y -> exists x, nth_error l i = Some x /\ R x y.
Proof.
  intros H. induction H as [|x y l l' Hxy _ (IH1 & IH2)]; [split; [reflexivity | intros [|i] y E; discriminate]|]. split; [cbn; congruence|]. intros [|i] z E; [exists x; injection E as <-; now split | apply (IH2 i z E)].
Qed.
Lemma nth_indexed {A} (l : list A) : forall i, nth_error (indexed l) i = match nth_error l i with Some x => Some (i, x) | None => None end.
Proof.
  unfold indexed. assert (G : forall a i, nth_error (combine (seq a (length l)) l) i = match nth_error l i with Some x => Some (a + i, x) | None => None end).
  { induction l as [|x l IH]; intros a [|i]; cbn; try reflexivity; [now rewrite Nat.add_0_r|]. rewrite (IH (S a) i). now rewrite Nat.add_succ_r. }
  intros i. apply (G 0 i).
Qed.

Section Props.
  Variables (G Clf : Type) (randints : G -> nat -> G * list Z) (multinomial : nat -> Z -> list nat) (fuel : nat).
  Variables (train : nat -> list (list xr) -> list nat -> res Clf) (predict : Clf -> list xr -> nat) (proba : Clf -> list xr -> nat -> xr) (regress : list (list xr) -> list xr -> list xr -> xr).
  Notation bld := (build G randints multinomial).
  Notation slct := (fun sim ship => select_model G randints multinomial sim fuel ship Clf train predict).
  Notation post := (fun sim ship => posterior_probability G randints multinomial sim fuel ship Clf train proba regress).

  (** the first attempt that gives data *)
  Definition first_success (sim : nat -> nat -> Z -> nat -> option (pydata * list pydata)) (o k : nat) (seed : Z) (y : pydata) : Prop :=
    exists a rest, sim o k seed a = Some (y, rest) /\ forall b, b < a -> sim o k seed b = None.
  Lemma attempts_spec sim o k seed y : forall f a, attempts sim o k seed f a = Ok y -> exists b rest, a <= b /\ sim o k seed b = Some (y, rest) /\ forall c, a <= c -> c < b -> sim o k seed c = None.
  Proof.
    induction f as [|f IH]; intros a H; [discriminate|]. cbn in H. destruct (sim o k seed a) as [[y' rest]|] eqn:E.
    - injection H as ->. exists a, rest. split; [lia|]. split; [exact E | intros; lia].
    - destruct (IH (S a) H) as (b & rest & Hb & Hs & Hn). exists b, rest. split; [lia|]. split; [exact Hs|]. intros c H1 H2. destruct (Nat.eq_dec c a) as [->|]; [exact E | apply Hn; lia].
  Qed.
  Lemma task_spec sim ms sc k seed o y m : (forall c, exists j, one_draw (length ms) (multinomial (length ms) c) j) -> simulate_model_data multinomial sim fuel ms sc k seed = Ok (o, y, m) ->
    exists j, one_draw (length ms) (multinomial (length ms) seed) j /\ nth_error ms j = Some o /\ first_success sim o k seed y /\ statistics sc y = Ok m.
  Proof.
    intros Hm H. destruct (Hm seed) as (j & Hj). exists j. split; [exact Hj|]. unfold simulate_model_data in H. destruct ms as [|o0 ms]; [discriminate|]. set (l := o0 :: ms) in *. rewrite (proj1 (C46_drawn _ _ _ Hj)) in H.
    destruct (nth_error l j) as [o'|]; [|discriminate]. destruct (attempts sim o' k seed fuel 0) as [y'|e] eqn:Ea; [|discriminate]. destruct (statistics sc y') as [m'|e] eqn:Es; [|discriminate]. injection H as -> -> ->.
    split; [reflexivity|]. split; [|exact Es]. destruct (attempts_spec sim o k seed y fuel 0 Ea) as (a & rest & _ & Hs & Hn). exists a, rest. split; [exact Hs|]. intros b Hb. apply Hn; lia.
  Qed.
  Lemma build_spec sim ship s n k s' t : stable G s = None -> (forall c, exists j, one_draw (length (marr G s)) (multinomial (length (marr G s)) c) j) ->
    bld sim fuel ship s n k = (s', Ok t) ->
    exists rows, Forall2 (fun seed r => simulate_model_data multinomial sim fuel (marr G s) (scalc G s) k seed = Ok r) (snd (randints (srng G s) n)) rows
      /\ vstack (map snd rows) = Ok (tstats t) /\ tmodels t = map (fun io => ship (fst io) (snd io)) (indexed (map (fun r => fst (fst r)) rows)) /\ tdata t = map (fun r => snd (fst r)) rows
      /\ s' = mksel G (marr G s) (scalc G s) (fst (randints (srng G s) n)) (Some t) /\ 1 < n.
  Proof.
    intros Hs Hm H. unfold build in H. rewrite Hs in H. destruct (n <=? 1) eqn:En; cbn [orb] in H; [discriminate|]. destruct (2147483648 <? Z.of_nat n * Z.of_nat n)%Z; [discriminate|]. destruct (randints (srng G s) n) as [g' seeds]. cbn [fst snd].
    destruct (mapR _ seeds) as [rows|e] eqn:Er; [|discriminate]. destruct (vstack (map snd rows)) as [m|e] eqn:Ev; [|discriminate]. injection H as <- <-. exists rows. split; [now apply mapR_Ok|]. cbn [tstats tmodels tdata].
    split; [exact Ev|]. do 3 (split; [reflexivity|]). apply Nat.leb_gt in En. exact En.
  Qed.

  (** Sequential backend: entry i of the reference table is a candidate drawn with seed i, its label is its position among the candidates, and its data are the first
      simulation that succeeded. *)
  Theorem C46_table : forall sim s n k s' t,
    (forall g i, length (snd (randints g i)) = i) -> (forall c, exists j, one_draw (length (marr G s)) (multinomial (length (marr G s)) c) j) -> NoDup (marr G s) ->
    stable G s = None -> bld sim fuel (fun _ o => o) s n k = (s', Ok t) ->
    length (tmodels t) = n /\ length (tdata t) = n /\ length (labels (marr G s) t) = n /\ stable G s' = Some t
    /\ forall i, i < n -> exists seed j o y m, nth_error (snd (randints (srng G s) n)) i = Some seed /\ one_draw (length (marr G s)) (multinomial (length (marr G s)) seed) j
         /\ nth_error (marr G s) j = Some o /\ nth_error (tmodels t) i = Some o /\ nth_error (labels (marr G s) t) i = Some j
         /\ first_success sim o k seed y /\ nth_error (tdata t) i = Some y /\ statistics (scalc G s) y = Ok m.
  Proof.
    intros sim s n k s' t Hr Hm Hnd Hs H. destruct (build_spec sim _ s n k s' t Hs Hm H) as (rows & HF & Hv & Ht & Hd & -> & Hn). destruct (F2n _ _ _ HF) as (Hl & Hx). rewrite Hr in Hl.
    assert (L : forall {A B} (f : nat * A -> B) (l : list A), length (map f (indexed l)) = length l). { intros A B f l. unfold indexed. rewrite map_length, combine_length, seq_length. lia. }
    split; [rewrite Ht, L, map_length; lia|]. split; [rewrite Hd, map_length; lia|]. split; [unfold labels; rewrite map_length, Ht, L, map_length; lia|]. split; [reflexivity|].
    intros i Hi. destruct (nth_error rows i) as [[[o y] m]|] eqn:Ei; [|apply nth_error_None in Ei; lia]. destruct (Hx i _ Ei) as (seed & Hseed & Htask). destruct (task_spec sim _ _ _ _ _ _ _ Hm Htask) as (j & Hj & Ho & Hfs & Hst).
    assert (Hti : nth_error (tmodels t) i = Some o). { rewrite Ht, nth_error_map, nth_indexed, nth_error_map, Ei. reflexivity. }
    exists seed, j, o, y, m. split; [exact Hseed|]. split; [exact Hj|]. split; [exact Ho|]. split; [exact Hti|]. split; [unfold labels; rewrite nth_error_map, Hti; cbn; f_equal; now apply label_nodup|]. split; [exact Hfs|]. split; [rewrite Hd, nth_error_map, Ei; reflexivity | exact Hst].
  Qed.

  (** A forest predicts classes it has seen. *)
  Definition sound_forest : Prop := forall p rows labs c row, train p rows labs = Ok c -> In (predict c row) labs.
  Lemma select_inv sim ship s obs n k s' o : slct sim ship s obs n k = (s', Ok o) ->
    exists t c m row, bld sim fuel ship s n k = (s', Ok t) /\ train (mcols (tstats t)) (mrows (tstats t)) (labels (marr G s) t) = Ok c /\ statistics (scalc G s) obs = Ok m /\ mrows m = [row] /\ nth_error (marr G s) (predict c row) = Some o.
  Proof.
    unfold select_model. destruct (bld sim fuel ship s n k) as [s1 [t|e]] eqn:E; [|intros H; discriminate]. unfold fit. destruct (_ =? _); [|intros H; discriminate]. destruct (train _ _ _) as [c|e] eqn:Ec; [|intros H; discriminate].
    destruct (statistics _ obs) as [m|e] eqn:Em; [|intros H; discriminate]. destruct (mrows m) as [|row [|]] eqn:Erow; try (intros H; discriminate). destruct (nth_error _ _) as [o'|] eqn:Eo; [|intros H; discriminate]. intros H. injection H as -> ->. exists t, c, m, row. now repeat (split; [assumption || reflexivity|]).
  Qed.
  (** The model returned is a candidate that occurs in the reference table, at the position the forest predicts. *)
  Theorem C46_selected : forall sim s obs n k s' o, sound_forest ->
    (forall c, exists j, one_draw (length (marr G s)) (multinomial (length (marr G s)) c) j) -> NoDup (marr G s) -> stable G s = None ->
    slct sim (fun _ o => o) s obs n k = (s', Ok o) -> exists t, stable G s' = Some t /\ In o (tmodels t) /\ In o (marr G s).
  Proof.
    intros sim s obs n k s' o Hsf Hm Hnd Hs H. destruct (select_inv _ _ _ _ _ _ _ _ H) as (t & c & m & row & Hb & Hc & _ & _ & Ho). destruct (build_spec sim _ s n k s' t Hs Hm Hb) as (rows & HF & _ & Ht & _ & Es & _).
    exists t. split; [rewrite Es; reflexivity|]. split; [|apply (nth_error_In _ _ Ho)]. pose proof (Hsf _ _ _ _ row Hc) as Hp. unfold labels in Hp. apply in_map_iff in Hp. destruct Hp as (o' & Hl & Hi).
    assert (Hi' : In o' (marr G s)).
    { rewrite Ht in Hi. apply in_map_iff in Hi. destruct Hi as ([i x] & <- & Hi). cbn [fst snd]. unfold indexed in Hi. apply in_combine_r in Hi. apply in_map_iff in Hi. destruct Hi as ([[x' y] mm] & Hxx & Hi). cbn in Hxx. subst x'.
      apply In_nth_error in Hi. destruct Hi as (q & Hi). destruct (F2n _ _ _ HF) as (_ & Hx). destruct (Hx q _ Hi) as (seed & _ & Htask). destruct (task_spec sim _ _ _ _ _ _ _ Hm Htask) as (j & _ & Hj & _). apply (nth_error_In _ _ Hj). }
    destruct (C46_label (marr G s) o') as (L & _). destruct (L Hi') as (L1 & _). rewrite Hl in L1. congruence.
  Qed.
  (** With a backend that copies results none of the objects in the table is a candidate: every label is 0 and the first candidate is selected, whatever the data. *)
  Theorem C46_pickled_refuted : forall sim ship s obs n k s' o, sound_forest ->
    (forall c, exists j, one_draw (length (marr G s)) (multinomial (length (marr G s)) c) j) -> stable G s = None -> (forall i x, ~ In (ship i x) (marr G s)) ->
    slct sim ship s obs n k = (s', Ok o) -> exists t, stable G s' = Some t /\ (forall l, In l (labels (marr G s) t) -> l = 0) /\ nth_error (marr G s) 0 = Some o.
  Proof.
    intros sim ship s obs n k s' o Hsf Hm Hs Hship H. destruct (select_inv _ _ _ _ _ _ _ _ H) as (t & c & m & row & Hb & Hc & _ & _ & Ho). destruct (build_spec sim _ s n k s' t Hs Hm Hb) as (rows & HF & _ & Ht & _ & Es & _).
    exists t. split; [rewrite Es; reflexivity|]. assert (Z : forall l, In l (labels (marr G s) t) -> l = 0).
    { intros l Hl. unfold labels in Hl. apply in_map_iff in Hl. destruct Hl as (o' & <- & Hi). apply C46_label. rewrite Ht in Hi. apply in_map_iff in Hi. destruct Hi as ([i x] & <- & _). apply Hship. }
    split; [exact Z|]. rewrite (Z _ (Hsf _ _ _ _ row Hc)) in Ho. exact Ho.
  Qed.
  (** Once there is a table, the numbers of samples asked for later are ignored and no random number is drawn. *)
  Theorem C46_table_reused : forall sim ship s t obs n k n' k', stable G s = Some t ->
    slct sim ship s obs n k = slct sim ship s obs n' k' /\ fst (slct sim ship s obs n k) = s /\ post sim ship s obs n k = post sim ship s obs n' k' /\ fst (post sim ship s obs n k) = s.
  Proof. intros sim ship s t obs n k n' k' H. unfold select_model, posterior_probability, build. rewrite H. repeat split; reflexivity. Qed.
  (** Sizes that are refused. *)
  Theorem C46_refused_sizes : forall sim ship s obs n k, stable G s = None -> n <= 1 \/ (46341 <= Z.of_nat n)%Z -> snd (slct sim ship s obs n k) = Err ValueError /\ snd (post sim ship s obs n k) = Err ValueError.
  Proof.
    intros sim ship s obs n k Hs Hn. assert (E : (n <=? 1) || (2147483648 <? Z.of_nat n * Z.of_nat n)%Z = true).
    { destruct Hn as [Hn|Hn]; [apply Nat.leb_le in Hn; now rewrite Hn|]. apply orb_true_iff. right. apply Z.ltb_lt. nia. }
    unfold select_model, posterior_probability, build. rewrite Hs, E. split; reflexivity.
  Qed.
  (** Of several data sets simulated for a parameter only the first is used. *)
  Theorem C46_first_data_set_only : forall sim sim' ship s n k,
    (forall o seed a, match sim o k seed a, sim' o k seed a with Some (y, _), Some (y', _) => y = y' | None, None => True | _, _ => False end) -> bld sim fuel ship s n k = bld sim' fuel ship s n k.
  Proof.
    intros sim sim' ship s n k H. assert (A : forall o seed f a, attempts sim o k seed f a = attempts sim' o k seed f a).
    { intros o seed. induction f as [|f IH]; intros a; [reflexivity|]. cbn. specialize (H o seed a). destruct (sim o k seed a) as [[y r]|], (sim' o k seed a) as [[y' r']|]; try contradiction; [now subst | apply IH]. }
    assert (T : forall ms sc seeds, mapR (simulate_model_data multinomial sim fuel ms sc k) seeds = mapR (simulate_model_data multinomial sim' fuel ms sc k) seeds).
    { intros ms sc seeds. induction seeds as [|seed seeds IH]; [reflexivity|]. cbn. rewrite IH. assert (E : simulate_model_data multinomial sim fuel ms sc k seed = simulate_model_data multinomial sim' fuel ms sc k seed).
      { unfold simulate_model_data. destruct ms as [|o0 ms]; [reflexivity|]. destruct (nth_error _ _) as [o|]; [|reflexivity]. now rewrite A. }
      now rewrite E. }
    unfold build. destruct (stable G s); [reflexivity|]. destruct (_ || _); [reflexivity|]. destruct (randints (srng G s) n) as [g' seeds]. now rewrite T.
  Qed.
  (** Models whose data have several entries: the statistics calculator reads each entry as an observation and training fails. *)
  Theorem C46_vector_data_refuted : forall sim s obs n k d,
    (forall g i, length (snd (randints g i)) = i) -> (forall c, exists j, one_draw (length (marr G s)) (multinomial (length (marr G s)) c) j) -> stable G s = None -> d <> 1 ->
    (forall o seed a y rest m, sim o k seed a = Some (y, rest) -> statistics (scalc G s) y = Ok m -> length (mrows m) = d) ->
    forall s' r, slct sim (fun _ o => o) s obs n k = (s', r) -> exists e, r = Err e.
  Proof.
    intros sim s obs n k d Hr Hm Hs Hd Hsim s' r H. destruct r as [o|e]; [|now exists e]. exfalso. unfold select_model in H. destruct (bld sim fuel (fun _ o => o) s n k) as [s1 [t|e]] eqn:E; [|discriminate]. destruct (build_spec sim _ s n k s1 t Hs Hm E) as (rows & HF & Hv & Ht & Hdt & _ & Hn).
    assert (Hlen : length (mrows (tstats t)) = n * d).
    { destruct (F2n _ _ _ HF) as (Hl & Hx). rewrite Hr in Hl. assert (Hall : forall r, In r rows -> length (mrows (snd r)) = d).
      { intros [[o' y] m] Hin. apply In_nth_error in Hin. destruct Hin as (q & Hq). destruct (Hx q _ Hq) as (seed & _ & Htask). destruct (task_spec sim _ _ _ _ _ _ _ Hm Htask) as (j & _ & _ & (a & rest & Ha & _) & Hst). apply (Hsim o' seed a y rest m Ha Hst). }
      unfold vstack in Hv. destruct (map snd rows) as [|m0 ms0] eqn:Em; [discriminate|]. rewrite <- Em in Hv. destruct (forallb _ ms0); [|discriminate]. injection Hv as <-. cbn [mrows]. rewrite Hl. clear -Hall. induction rows as [|r rows IH]; [reflexivity|]. cbn [map flat_map length]. rewrite app_length, IH by (intros r' Hr'; apply Hall; now right). rewrite (Hall r (or_introl eq_refl)). cbn. reflexivity. }
    assert (Hlab : length (labels (marr G s) t) = n). { unfold labels. rewrite map_length, Ht. unfold indexed. rewrite map_length, combine_length, seq_length, map_length. destruct (F2n _ _ _ HF) as (Hl & _). rewrite Hr in Hl. lia. }
    unfold fit in H. rewrite Hlen, Hlab in H. destruct (Nat.eqb_spec (n * d) n) as [En|]; [|discriminate]. apply Hd. nia.
  Qed.

  (** *** Columns of predict_proba *)
  Lemma classes_In labs l : In l (classes labs) <-> In l labs.
  Proof.
    unfold classes. rewrite filter_In, in_seq, existsb_exists. split; [intros (_ & x & Hx & E); apply Nat.eqb_eq in E; now subst|]. intros H. split; [|exists l; split; [exact H | apply Nat.eqb_refl]].
    split; [lia|]. cbn. assert (l <= list_max labs); [|lia]. pose proof (proj1 (list_max_le labs (list_max labs)) (le_n _)) as F. rewrite Forall_forall in F. now apply F.
  Qed.
  Lemma list_max_in : forall l : list nat, l <> [] -> In (list_max l) l.
  Proof.
    induction l as [|a l IH]; [congruence|]. intros _. change (list_max (a :: l)) with (Nat.max a (list_max l)). destruct l as [|b l]; [left; cbn; lia|].
    destruct (Nat.max_spec a (list_max (b :: l))) as [(H & ->)|(H & ->)]; [right; apply IH; congruence | now left].
  Qed.
  (** positions in a filtered interval *)
  Lemma filter_seq_nth (P : nat -> bool) : forall n a l, l < n -> (forall x, a <= x <= a + l -> P x = true) -> nth_error (filter P (seq a n)) l = Some (a + l).
  Proof.
    induction n as [|n IH]; intros a l Hl HP; [lia|]. cbn [seq filter]. rewrite (HP a) by lia. destruct l as [|l]; [cbn; f_equal; lia|]. cbn [nth_error]. rewrite (IH (S a) l); [f_equal; lia | lia|]. intros x Hx. apply HP. lia.
  Qed.
  Lemma filter_seq_len (P : nat -> bool) : forall n a x, a <= x < a + n -> P x = false -> length (filter P (seq a n)) < n.
  Proof.
    assert (L : forall n a, length (filter P (seq a n)) <= n). { induction n as [|n IH]; intros a; [reflexivity|]. cbn [seq filter]. specialize (IH (S a)). destruct (P a); cbn [length]; lia. }
    induction n as [|n IH]; intros a x Hx HP; [lia|]. cbn [seq filter]. destruct (Nat.eq_dec x a) as [->|Hne].
    - rewrite HP. specialize (L n (S a)). lia.
    - specialize (IH (S a) x ltac:(lia) HP). destruct (P a); cbn [length]; lia.
  Qed.
  (** If every smaller label occurs too, the value read is the probability of the entry's own model. *)
  Theorem C46_own_probability : forall c sc labs y l m row rows, statistics sc y = Ok m -> mrows m = row :: rows -> (forall l', l' <= l -> In l' labs) ->
    own_probability Clf proba c sc labs (y, l) = Ok (proba c row l).
  Proof.
    intros c sc labs y l m row rows Hs Hr Hl. unfold own_probability. cbn [fst snd]. rewrite Hs, Hr, nth_error_map. unfold classes. rewrite (filter_seq_nth _ _ 0 l); [reflexivity| |].
    - pose proof (proj1 (list_max_le labs (list_max labs)) (le_n _)) as F. rewrite Forall_forall in F. specialize (F l (Hl l (le_n _))). lia.
    - intros x Hx. apply existsb_exists. exists x. split; [apply Hl; lia | apply Nat.eqb_refl].
  Qed.
  (** The posterior probability returned for each row of observed statistics is one minus the value of the regression trained on the statistics of the table, with response at each entry one minus the
      probability which the classifier gives to the entry's own label (all labels up to the largest occur). *)
  Theorem C46_posterior : forall sim ship s obs n k t ps, stable G s = Some t -> length (tdata t) = length (tmodels t) ->
    (forall l l', In l (labels (marr G s) t) -> l' <= l -> In l' (labels (marr G s) t)) -> snd (post sim ship s obs n k) = Ok ps ->
    exists c m errs, fit Clf train t (labels (marr G s) t) = Ok c /\ statistics (scalc G s) obs = Ok m /\ length errs = length (tmodels t)
      /\ (forall i y l, nth_error (tdata t) i = Some y -> nth_error (labels (marr G s) t) i = Some l ->
            exists my row rows, statistics (scalc G s) y = Ok my /\ mrows my = row :: rows /\ nth_error errs i = Some (xsub (XR 1) (proba c row l)))
      /\ length ps = length (mrows m) /\ forall j row, nth_error (mrows m) j = Some row -> nth_error ps j = Some (xsub (XR 1) (regress (mrows (tstats t)) errs row)).
  Proof.
    intros sim ship s obs n k t ps Hs Hlen Hdown H. unfold posterior_probability, build in H. rewrite Hs in H. cbn [snd] in H. set (labs := labels (marr G s) t) in *.
    destruct (fit _ _ t labs) as [c|] eqn:Ef; [|discriminate]. destruct (pred_error _ _ c (scalc G s) labs (tdata t)) as [errs|] eqn:E; [|discriminate].
    destruct (statistics (scalc G s) obs) as [m|] eqn:Em; [|discriminate]. injection H as <-. exists c, m, errs. split; [reflexivity|]. split; [reflexivity|].
    unfold pred_error in E. apply mapR_Ok in E. destruct (F2n _ _ _ E) as (Hle & Hx). assert (Hll : length labs = length (tdata t)). { unfold labs, labels. now rewrite map_length. }
    rewrite combine_length, Hll, Nat.min_id in Hle. split; [congruence|]. split; [|split; [now rewrite map_length|]].
    - intros i y l Hy Hi. assert (Hz : exists z, nth_error errs i = Some z). { destruct (nth_error errs i) eqn:En; [eauto|]. apply nth_error_None in En. assert (i < length (tdata t)) by (apply nth_error_Some; congruence). lia. }
      destruct Hz as (z & Hz). destruct (Hx i z Hz) as (dl & Hdl & Ht).
      assert (Hc : nth_error (combine (tdata t) labs) i = Some (y, l)). { clear -Hi Hy. revert i Hi Hy. generalize (tdata t). induction labs as [|x ls IH]; intros [|d ds] [|i] H1 H2; cbn in *; try discriminate; [congruence | now apply IH]. }
      rewrite Hc in Hdl. injection Hdl as <-. destruct (statistics (scalc G s) y) as [my|e] eqn:Ey; [|exfalso; unfold own_probability in Ht; cbn [fst snd] in Ht; rewrite Ey in Ht; discriminate].
      destruct (mrows my) as [|row rows] eqn:Er; [exfalso; unfold own_probability in Ht; cbn [fst snd] in Ht; rewrite Ey, Er in Ht; discriminate|].
      rewrite (C46_own_probability c _ labs y l my row rows Ey Er) in Ht; [|intros l' Hl'; apply (Hdown l); [eapply nth_error_In; exact Hi | exact Hl']]. injection Ht as <-. exists my, row, rows. split; [reflexivity|]. split; [exact Er | exact Hz].
    - intros j row Hj. rewrite nth_error_map, Hj. reflexivity.
  Qed.
  (** Refuted: the number of data sets per parameter is used.  posterior_probability ignores it: only single data sets are ever simulated. *)
  Theorem C46_one_data_set_refuted : forall sim sim' ship s obs n k k', (forall o seed a, sim o 1 seed a = sim' o 1 seed a) -> post sim ship s obs n k = post sim' ship s obs n k'.
  Proof.
    intros sim sim' ship s obs n k k' H. assert (E : build G randints multinomial sim fuel ship s n 1 = build G randints multinomial sim' fuel ship s n 1).
    { assert (Ea : forall f o seed a, attempts sim o 1 seed f a = attempts sim' o 1 seed f a). { induction f as [|f IH]; intros o seed a; cbn [attempts]; [reflexivity|]. rewrite H. destruct (sim' o 1 seed a) as [[y r]|]; [reflexivity | apply IH]. }
      assert (Es : forall l, mapR (simulate_model_data multinomial sim fuel (marr G s) (scalc G s) 1) l = mapR (simulate_model_data multinomial sim' fuel (marr G s) (scalc G s) 1) l).
      { induction l as [|x l IH]; [reflexivity|]. cbn [mapR]. rewrite IH. replace (simulate_model_data multinomial sim fuel (marr G s) (scalc G s) 1 x) with (simulate_model_data multinomial sim' fuel (marr G s) (scalc G s) 1 x); [reflexivity|]. unfold simulate_model_data. destruct (marr G s); [reflexivity|]. destruct (nth_error _ _); [|reflexivity]. now rewrite Ea. }
      unfold build. destruct (stable G s); [reflexivity|]. destruct (_ || _)%bool; [reflexivity|]. destruct (randints _ _) as [g seeds]. now rewrite Es. }
    unfold posterior_probability. rewrite E. reflexivity.
  Qed.
  (** If a candidate before the last one drawn does not occur in the table, the posterior probability cannot be computed. *)
  Theorem C46_absent_model_refuted : forall sim ship s obs n k t l0, stable G s = Some t -> length (tdata t) = length (tmodels t) ->
    (forall y, In y (tdata t) -> exists m row rows, statistics (scalc G s) y = Ok m /\ mrows m = row :: rows) ->
    ~ In l0 (labels (marr G s) t) -> l0 < list_max (labels (marr G s) t) -> exists e, snd (post sim ship s obs n k) = Err e.
  Proof.
    intros sim ship s obs n k t l0 Hs Hlen Hst Hn Hlt. unfold posterior_probability, build. rewrite Hs. cbn [snd]. set (labs := labels (marr G s) t) in *. destruct (fit _ _ t labs) as [c|e]; [|now exists e].
    destruct (pred_error _ _ c (scalc G s) labs (tdata t)) as [errs|e] eqn:E; [|now exists e]. exfalso. unfold pred_error in E. apply mapR_Ok in E.
    assert (Hmax : In (list_max labs) labs).
    { apply list_max_in. intros E0. rewrite E0 in Hlt. cbn in Hlt. lia. }
    apply In_nth_error in Hmax. destruct Hmax as (i & Hi). assert (Hll : length labs = length (tdata t)). { unfold labs, labels. now rewrite map_length. }
    destruct (nth_error (tdata t) i) as [y|] eqn:Ey; [|apply nth_error_None in Ey; assert (i < length labs) by (apply nth_error_Some; congruence); lia].
    assert (Hc : nth_error (combine (tdata t) labs) i = Some (y, list_max labs)).
    { clear -Hi Ey. revert Hi. generalize (list_max labs). intros z Hi. revert i Hi Ey. generalize (tdata t). induction labs as [|x l IH]; intros [|d ds] [|i] H1 H2; cbn in *; try discriminate; [congruence | now apply IH]. }
    destruct (F2n _ _ _ E) as (Hle & _). assert (Hx : exists z, nth_error errs i = Some z). { destruct (nth_error errs i) eqn:En; [eauto|]. apply nth_error_None in En. assert (i < length (combine (tdata t) labs)) by (apply nth_error_Some; congruence). lia. }
    destruct Hx as (z & Hz). destruct (F2n _ _ _ E) as (_ & Hx). destruct (Hx i z Hz) as (dl & Hdl & Ht). rewrite Hc in Hdl. injection Hdl as <-. unfold own_probability in Ht. cbn [fst snd] in Ht. destruct (Hst y (nth_error_In _ _ Ey)) as (m & row & rows & Hm & Hrow). rewrite Hm, Hrow in Ht.
    rewrite (proj2 (nth_error_None _ _)) in Ht; [discriminate|]. rewrite map_length. unfold classes. pose proof (filter_seq_len (fun c => existsb (Nat.eqb c) labs) (S (list_max labs)) 0 l0 ltac:(lia)) as F. apply Nat.lt_succ_r. apply F.
    destruct (existsb _ labs) eqn:Ex; [|reflexivity]. apply existsb_exists in Ex. destruct Ex as (x & Hxx & Eq). apply Nat.eqb_eq in Eq. subst x. contradiction.
  Qed.
  (** ... and before that, a label with a missing predecessor reads the probability of another model. *)
  Theorem C46_other_column_refuted : exists labs l l', In l labs /\ In l' labs /\ l <> l' /\
    forall c sc y m row rows, statistics sc y = Ok m -> mrows m = row :: rows -> own_probability Clf proba c sc labs (y, l) = Ok (proba c row l').
  Proof.
    exists [1; 2], 1, 2. split; [now left|]. split; [right; now left|]. split; [lia|]. intros c sc y m row rows Hs Hr. unfold own_probability. cbn [fst snd]. rewrite Hs, Hr. reflexivity.
  Qed.
End Props.
Print Assumptions C46_table. Print Assumptions C46_selected. Print Assumptions C46_pickled_refuted. Print Assumptions C46_table_reused. Print Assumptions C46_refused_sizes.
Print Assumptions C46_first_data_set_only. Print Assumptions C46_vector_data_refuted. Print Assumptions C46_own_probability. Print Assumptions C46_posterior. Print Assumptions C46_one_data_set_refuted. Print Assumptions C46_absent_model_refuted. Print Assumptions C46_other_column_refuted.

(** Candidates at addresses 10 and 20; the seeds 5, 6, 7 draw the candidates 1, 0, 1; the forest predicts the label of the first row of its table. *)
Module Toy.
  Definition rnd (g : nat) (n : nat) : nat * list Z := (S g, map (fun i => Z.of_nat (5 + i)) (seq 0 n)).
  Definition mult (m : nat) (seed : Z) : list nat := if Z.even seed then 1 :: repeat 0 (m - 1) else repeat 0 (m - 1) ++ [1].
  Definition simu (o k : nat) (seed : Z) (a : nat) : option (pydata * list pydata) := match a with 0 => None | _ => Some (PList [Num (XR (INR o))], []) end.
  Definition idst : stats := mkstats Ident 1 false None None.
  Definition start : sel nat := mksel nat [10; 20] idst 0 None.
  Definition trn (p : nat) (rows : list (list xr)) (labs : list nat) : res nat := match labs with [] => Err ValueError | l :: _ => Ok l end.
  Definition prd (c : nat) (row : list xr) : nat := c.
  Definition run := select_model nat rnd mult simu 5 (fun _ o => o) nat trn prd start (PList [Num (XR 3)]) 3 1.
End Toy.
Example C46_case : snd Toy.run = Ok 20
  /\ (exists t, stable nat (fst Toy.run) = Some t /\ tmodels t = [20; 10; 20] /\ labels [10; 20] t = [1; 0; 1])
  /\ NoDup (marr nat Toy.start) /\ (forall g i, length (snd (Toy.rnd g i)) = i)
  /\ (forall c, exists j, one_draw 2 (Toy.mult 2 c) j) /\ sound_forest nat Toy.trn Toy.prd
  /\ snd (select_model nat Toy.rnd Toy.mult Toy.simu 5 (fun i o => 100 + i) nat Toy.trn Toy.prd Toy.start (PList [Num (XR 3)]) 3 1) = Ok 10.
Proof.
  split; [reflexivity|]. split; [eexists; split; [reflexivity|]; split; reflexivity|]. split; [repeat constructor; cbn; intuition lia|]. split; [intros g i; cbn; now rewrite map_length, seq_length|].
  split. { intros c. unfold Toy.mult. destruct (Z.even c); [exists 0 | exists 1]; (split; [reflexivity|]; split; [reflexivity|]; intros [|[|i]] x H Hn; cbn in H; try congruence; destruct i; discriminate). }
  split; [|reflexivity]. intros p rows [|l labs] c row H; [discriminate|]. cbn in H. injection H as ->. now left.
Qed.

(** The same table with a classifier giving its label 3/4 and a regression returning its first response: 1 - (1 - 3/4) = 3/4 for an observation. *)
Module ToyPost.
  Definition prb (c : nat) (row : list xr) (l : nat) : xr := if l =? c then XR (3 / 4) else XR (1 / 4).
  Definition rgr (rows : list (list xr)) (errs : list xr) (row : list xr) : xr := match errs with e :: _ => e | [] => XNaN end.
  Definition tb : table := mktable [20; 10; 20] [PList [Num (XR 2)]; PList [Num (XR 1)]; PList [Num (XR 2)]] (mkmat 1 [[XR 2]; [XR 1]; [XR 2]]).
  Definition st : sel nat := mksel nat [10; 20] Toy.idst 0 (Some tb).
  Definition ask := posterior_probability nat Toy.rnd Toy.mult Toy.simu 5 (fun _ o => o) nat Toy.trn prb rgr st (PList [Num (XR 3)]) 3 1.
End ToyPost.
Example C46_posterior_case : snd ToyPost.ask = Ok [XR (1 - (1 - 3 / 4))]
  /\ (forall l l', In l (labels (marr nat ToyPost.st) ToyPost.tb) -> l' <= l -> In l' (labels (marr nat ToyPost.st) ToyPost.tb)).
Proof. split; [reflexivity|]. intros l l' Hl Hle. cbn in *. lia. Qed.
