(** C63: training by score matching. *)
From Coq Require Import Permutation Lqa.
From Verif Require Import M_Base M_Num M_Infer M_Trainer P_Trainer M_ScoreTrain.
Open Scope nat_scope.

(** *** Batches *)
Definition count (bs n : nat) : nat := (n + bs - 1) / bs.
Definition batches (bs : nat) (l : list nat) : list (list nat) := map (fun i => slice bs i l) (seq 0 (count bs (length l))).
Lemma count_lt bs n i : 0 < bs -> i < count bs n <-> bs * i < n.
Proof.
  intros Hb. unfold count. split; intros H.
  - destruct (Nat.lt_ge_cases (bs * i) n) as [|Hge]; [assumption|]. assert ((n + bs - 1) / bs < S i) by (apply Nat.div_lt_upper_bound; [lia | nia]). lia.
  - assert (S i <= (n + bs - 1) / bs); [|lia]. apply Nat.div_le_lower_bound; [lia | nia].
Qed.
Lemma slice_len bs i l : length (slice bs i l) = Nat.min bs (length l - bs * i).
Proof. unfold slice. now rewrite firstn_length, skipn_length. Qed.
Lemma skipn_add {A} a b (l : list A) : skipn a (skipn b l) = skipn (b + a) l.
Proof. revert l. induction b as [|b IH]; intros l; [reflexivity|]. destruct l as [|x l]; [now rewrite !skipn_nil|]. cbn [skipn Nat.add]. apply IH. Qed.
Lemma slices_concat bs l : forall k, concat (map (fun i => slice bs i l) (seq 0 k)) = firstn (bs * k) l.
Proof.
  induction k as [|k IH]; [now rewrite Nat.mul_0_r|]. rewrite seq_S, map_app, concat_app, IH. cbn [map concat]. rewrite app_nil_r. unfold slice. cbn [Nat.add]. rewrite <- (firstn_skipn (bs * k) (firstn (bs * S k) l)). rewrite firstn_firstn, Nat.min_l by nia. f_equal.
  rewrite skipn_firstn_comm. f_equal. nia.
Qed.
(** The batches of an epoch split the samples: none is lost or used twice; every batch is full except possibly the last one, which is not empty. *)
Theorem C63_batches :
  forall bs l, 0 < bs -> concat (batches bs l) = l
  /\ (forall i b, nth_error (batches bs l) i = Some b -> 0 < length b <= bs /\ (S i < length (batches bs l) -> length b = bs))
  /\ bs * (length (batches bs l) - 1) <= length l <= bs * length (batches bs l)
  /\ (forall n, Permutation (seq 0 n) l -> NoDup (concat (batches bs l)) /\ forall x, In x (concat (batches bs l)) <-> x < n).
Proof.
  intros bs l Hb. assert (E : concat (batches bs l) = l).
  { unfold batches. rewrite slices_concat. apply firstn_all2. destruct (Nat.lt_ge_cases (bs * count bs (length l)) (length l)) as [H|H]; [|lia]. apply (count_lt bs) in H; lia. }
  split; [exact E|]. assert (EL : length (batches bs l) = count bs (length l)) by (unfold batches; now rewrite map_length, seq_length). rewrite EL. split; [|split].
  - intros i b Hi. unfold batches in Hi. rewrite nth_error_map in Hi. destruct (nth_error (seq 0 (count bs (length l))) i) as [x|] eqn:Ex; [|discriminate]. cbn in Hi. injection Hi as <-. assert (Hlt : i < count bs (length l)). { rewrite <- (seq_length (count bs (length l)) 0). apply nth_error_Some. congruence. }
    apply (nth_error_nth _ _ 0) in Ex. rewrite seq_nth in Ex by exact Hlt. cbn in Ex. subst x. rewrite slice_len. pose proof (proj1 (count_lt bs (length l) i Hb) Hlt). split; [lia|]. intros Hs. apply (count_lt bs (length l) (S i) Hb) in Hs. nia.
  - split.
    + destruct (count bs (length l)) as [|c] eqn:Ec; [lia|]. assert (c < count bs (length l)) by lia. apply (count_lt bs) in H; [|exact Hb]. replace (S c - 1) with c by lia. lia.
    + destruct (Nat.lt_ge_cases (bs * count bs (length l)) (length l)) as [H|H]; [|lia]. apply (count_lt bs) in H; lia.
  - intros n HP. rewrite E. split; [apply (Permutation_NoDup HP), seq_NoDup|]. intros x. split; intros H; [apply (Permutation_in _ (Permutation_sym HP)) in H; apply in_seq in H; lia | apply (Permutation_in _ HP), in_seq; lia].
Qed.
Print Assumptions C63_batches.

(** *** Runs *)
Section Spec.
  Variables W G : Type.
  Variable stp : nat -> W -> list nat -> W * num.
  Variable rf : W -> list nat -> W.
  Variable tls : W -> list nat -> num.
  Variable permutation : G -> nat -> G * list nat.
  Variables (n bs : nat) (nval : option nat) (refr : bool).
  (** weights after, and losses met on, a list of batches *)
  Fixpoint walk (c : nat) (bl : list (list nat)) (w : W) : W * list num :=
    match bl with [] => (w, []) | b :: bl' => let (w1, l) := stp c w b in let (w2, ls) := walk c bl' w1 in (w2, l :: ls) end.
  Definition refreshed (w : W) : W := match nval with Some _ => if refr then fold_left rf (batches bs (seq 0 n)) w else w | None => w end.
  (** weights and generator after k epochs, the first with number [start] *)
  Fixpoint state (w : W) (g : G) (start k : nat) : W * G :=
    match k with
    | 0 => (w, g)
    | S k' => let (w1, g1) := state w g start k' in let (g2, idx) := permutation g1 n in (refreshed (fst (walk (start + k') (batches bs idx) w1)), g2)
    end.
  (** what is reported for a list of batch losses: their sum divided by one more than their number *)
  Definition reported (l : list num) : num := ndiv (fold_left nadd l (Fin 0)) (Fin (inject_Z (Z.of_nat (length l + 1)))).
  Definition train_loss (w : W) (g : G) (start k : nat) : num := let (w1, g1) := state w g start k in reported (snd (walk (start + k) (batches bs (snd (permutation g1 n))) w1)).
  Definition val_loss (nv : nat) (w : W) (g : G) (start k : nat) : num := reported (map (tls (fst (state w g start (S k)))) (batches bs (seq 0 nv))).
  (** Epoch start + k + 1 stops the training: a multiple of the interval, past the given epoch, and worse than the epoch one interval before *)
  Definition stops (nv : nat) (w : W) (g : G) (start interval start_es k : nat) : Prop :=
    (start + S k) mod interval = 0 /\ start_es < start + S k /\ interval <= k /\ nlt (val_loss nv w g start (k - interval)) (val_loss nv w g start k) = true.
End Spec.

Section Proofs.
  Variables W G : Type.
  Variable stp : nat -> W -> list nat -> W * num.
  Variable rf : W -> list nat -> W.
  Variable tls : W -> list nat -> num.
  Variable permutation : G -> nat -> G * list nat.
  Variable step : nat -> W -> list nat -> res (W * num).
  Variable refresh : W -> list nat -> res W.
  Variable tloss : W -> list nat -> res num.
  (** batch sizes on which the networks can be trained *)
  Variable fine : nat -> Prop.
  Hypothesis step_ok : forall c w b, fine (length b) -> step c w b = Ok (stp c w b).
  Hypothesis refresh_ok : forall w b, fine (length b) -> refresh w b = Ok (rf w b).
  Hypothesis tloss_ok : forall w b, tloss w b = Ok (tls w b).
  Hypothesis perm_ok : forall g n, Permutation (seq 0 n) (snd (permutation g n)).

  Lemma walk_len c bl : forall w, length (snd (walk W stp c bl w)) = length bl.
  Proof. induction bl as [|b bl IH]; intros w; [reflexivity|]. cbn [walk]. destruct (stp c w b) as [w1 l]. specialize (IH w1). destruct (walk W stp c bl w1) as [w2 ls]. cbn in *. congruence. Qed.
  Lemma train_loop_spec c bs n idx : 0 < bs -> length idx = n -> (forall i, bs * i < n -> fine (length (slice bs i idx))) ->
    forall k i fuel w tot, i + k = count bs n -> k <= fuel ->
    train_loop W step fuel c bs i n idx w tot = Ok (fst (walk W stp c (map (fun j => slice bs j idx) (seq i k)) w), fold_left nadd (snd (walk W stp c (map (fun j => slice bs j idx) (seq i k)) w)) tot, count bs n).
  Proof.
    intros Hb Hl Hf. induction k as [|k IH]; intros i fuel w tot Hi Hfu.
    - assert (E : bs * i <? n = false). { apply Nat.ltb_ge. destruct (Nat.lt_ge_cases (bs * i) n) as [H|H]; [|exact H]. apply (count_lt bs) in H; lia. }
      destruct fuel; cbn [train_loop seq map walk fst snd fold_left]; rewrite E; f_equal; f_equal; lia.
    - assert (Hlt : bs * i < n) by (apply (count_lt bs); lia). destruct fuel as [|f]; [lia|]. cbn [train_loop]. rewrite (proj2 (Nat.ltb_lt _ _) Hlt). rewrite step_ok by (apply Hf; exact Hlt). cbn [seq map walk]. destruct (stp c w (slice bs i idx)) as [w1 l]. rewrite (IH (S i) f w1 (nadd tot l)) by lia. destruct (walk W stp c (map (fun j => slice bs j idx) (seq (S i) k)) w1) as [w2 ls]. reflexivity.
  Qed.
  Lemma refresh_loop_spec bs n : 0 < bs -> (forall i, bs * i < n -> fine (length (slice bs i (seq 0 n)))) -> forall k i fuel w, i + k = count bs n -> k <= fuel ->
    refresh_loop W refresh fuel bs i n w = Ok (fold_left rf (map (fun j => slice bs j (seq 0 n)) (seq i k)) w).
  Proof.
    intros Hb Hf. induction k as [|k IH]; intros i fuel w Hi Hfu.
    - assert (E : bs * i <? n = false). { apply Nat.ltb_ge. destruct (Nat.lt_ge_cases (bs * i) n) as [H|H]; [|exact H]. apply (count_lt bs) in H; lia. }
      destruct fuel; cbn [refresh_loop seq map fold_left]; rewrite E; reflexivity.
    - assert (Hlt : bs * i < n) by (apply (count_lt bs); lia). destruct fuel as [|f]; [lia|]. cbn [refresh_loop]. rewrite (proj2 (Nat.ltb_lt _ _) Hlt). rewrite refresh_ok by (apply Hf; exact Hlt). cbn [seq map fold_left]. apply (IH (S i) f); lia.
  Qed.
  Lemma test_loop_spec bs n w : 0 < bs -> forall k i fuel tot, i + k = count bs n -> k <= fuel ->
    test_loop W tloss fuel bs i n w tot = Ok (fold_left nadd (map (tls w) (map (fun j => slice bs j (seq 0 n)) (seq i k))) tot, count bs n).
  Proof.
    intros Hb. induction k as [|k IH]; intros i fuel tot Hi Hfu.
    - assert (E : bs * i <? n = false). { apply Nat.ltb_ge. destruct (Nat.lt_ge_cases (bs * i) n) as [H|H]; [|exact H]. apply (count_lt bs) in H; lia. }
      destruct fuel; cbn [test_loop seq map fold_left]; rewrite E; f_equal; f_equal; lia.
    - assert (Hlt : bs * i < n) by (apply (count_lt bs); lia). destruct fuel as [|f]; [lia|]. cbn [test_loop]. rewrite (proj2 (Nat.ltb_lt _ _) Hlt), tloss_ok. cbn [seq map fold_left]. apply (IH (S i) f); lia.
  Qed.
  Lemma count_le bs n : 0 < bs -> count bs n <= n.
  Proof. intros Hb. destruct (Nat.le_gt_cases (count bs n) n) as [|H]; [assumption|]. apply (count_lt bs) in H; [nia | exact Hb]. Qed.
  (** sizes that occur *)
  Definition sizes_fine (n bs : nat) : Prop := (bs <= n -> fine bs) /\ (n mod bs <> 0 -> fine (n mod bs)).
  Lemma slices_fine n bs l : 0 < bs -> length l = n -> sizes_fine n bs -> forall i, bs * i < n -> fine (length (slice bs i l)).
  Proof.
    intros Hb Hl (H1 & H2) i Hi. rewrite slice_len, Hl. destruct (Nat.le_gt_cases bs (n - bs * i)) as [H|H].
    - rewrite Nat.min_l by exact H. apply H1. lia.
    - rewrite Nat.min_r by lia. assert (E : n - bs * i = n mod bs). { pose proof (Nat.div_mod n bs ltac:(lia)). assert (n / bs = i). { symmetry. apply (Nat.div_unique n bs i (n - bs * i)); lia. } nia. }
      rewrite E. apply H2. lia.
  Qed.

  Variables (n bs : nat) (nval : option nat) (refr early : bool).
  Notation stt := (state W G stp rf permutation n bs nval refr).
  Notation trl := (train_loss W G stp rf permutation n bs nval refr).
  Notation vls := (val_loss W G stp rf tls permutation n bs nval refr).
  Notation stp_at := (stops W G stp rf tls permutation n bs nval refr).
  Hypothesis Hbs : 0 < bs.
  Hypothesis Hsizes : sizes_fine n bs.

  Definition inv (w : W) (g : G) (start interval k : nat) (s : sst W G) : Prop :=
    heap W G s 0 = fst (stt w g start k) /\ rng W G s = snd (stt w g start k) /\ tl W G s = map (trl w g start) (seq 0 k) /\ nsched W G s = start + k
    /\ forall nv, nval = Some nv -> vl W G s = map (vls nv w g start) (seq 0 k) /\ (early = true -> sd W G s = match cps start interval k with [] => None | _ => Some 0 end).
  Lemma mapseqS {A} (f : nat -> A) k : map f (seq 0 k) ++ [f k] = map f (seq 0 (S k)).
  Proof. now rewrite seq_S, map_app. Qed.
  Lemma from_end_map (f : nat -> num) k d : d <= k -> from_end (map f (seq 0 (S k))) (1 + d) = Ok (f (k - d)).
  Proof.
    intros H. unfold from_end. rewrite map_length, seq_length. rewrite (proj2 (Nat.ltb_ge _ _)) by lia. rewrite nth_error_map. replace (S k - (1 + d)) with (k - d) by lia. rewrite (nth_error_nth' (seq 0 (S k)) 0) by (rewrite seq_length; lia). rewrite seq_nth by lia. reflexivity.
  Qed.

  Definition outcome (w : W) (g : G) (start interval start_es tot : nat) (s' : sst W G) : Prop :=
    exists m, m <= tot /\ heap W G s' 0 = fst (stt w g start m) /\ rng W G s' = snd (stt w g start m) /\ tl W G s' = map (trl w g start) (seq 0 m) /\ (forall nv, nval = Some nv -> vl W G s' = map (vls nv w g start) (seq 0 m))
      /\ ((m = tot /\ (forall nv j, nval = Some nv -> early = true -> j < m -> ~ stp_at nv w g start interval start_es j))
          \/ exists nv, nval = Some nv /\ early = true /\ 0 < m /\ stp_at nv w g start interval start_es (m - 1) /\ forall j, j < m - 1 -> ~ stp_at nv w g start interval start_es j).

  Lemma epochs_spec w g start interval start_es : (early = true -> nval <> None -> 0 < interval) ->
    forall r k s, inv w g start interval k s -> (forall nv j, nval = Some nv -> early = true -> j < k -> ~ stp_at nv w g start interval start_es j) ->
    exists s', epochs W G step refresh tloss permutation n bs nval refr early interval start_es r (start + k) s = Ok s' /\ outcome w g start interval start_es (k + r) s'.
  Proof.
    intros He. induction r as [|r IH]; intros k s Hi Hn.
    - exists s. split; [reflexivity|]. destruct Hi as (I1 & I2 & I3 & I4 & I5). exists k. split; [lia|]. split; [exact I1|]. split; [exact I2|]. split; [exact I3|]. split; [intros nv E; apply (I5 nv E)|]. left. split; [lia | exact Hn].
    - destruct Hi as (I1 & I2 & I3 & I4 & I5). cbn [epochs]. rewrite I1, I2, I4. destruct (stt w g start k) as [w1 g1] eqn:Est. cbn [fst snd]. pose proof (perm_ok g1 n) as HP. destruct (permutation g1 n) as [g2 idx] eqn:Ep. cbn [snd] in HP.
      assert (Li : length idx = n) by (rewrite <- (Permutation_length HP); apply seq_length).
      rewrite (train_loop_spec (start + k) bs n idx Hbs Li (slices_fine n bs idx Hbs Li Hsizes) (count bs n) 0 (S n) w1 (Fin 0)) by (pose proof (count_le bs n Hbs); lia).
      assert (Eb : map (fun j => slice bs j idx) (seq 0 (count bs n)) = batches bs idx) by (unfold batches; now rewrite Li). rewrite Eb. set (wk := walk W stp (start + k) (batches bs idx) w1).
      assert (Etl : over (fold_left nadd (snd wk) (Fin 0)) (count bs n + 1) = trl w g start k).
      { unfold train_loss. rewrite Est, Ep. cbn [snd]. fold wk. unfold reported, over. assert (Ewl : length (snd wk) = count bs n). { unfold wk. rewrite walk_len. unfold batches. now rewrite map_length, seq_length, Li. } now rewrite Ewl. }
      rewrite Etl. assert (ESt : stt w g start (S k) = (refreshed W rf n bs nval refr (fst wk), g2)). { cbn [state]. rewrite Est, Ep. reflexivity. }
      assert (Next : forall h d v, (forall nv, nval = Some nv -> early = true -> ~ stp_at nv w g start interval start_es k) -> inv w g start interval (S k) (mksst W G h g2 d (tl W G s ++ [trl w g start k]) v (S (start + k))) ->
        exists s', epochs W G step refresh tloss permutation n bs nval refr early interval start_es r (S (start + k)) (mksst W G h g2 d (tl W G s ++ [trl w g start k]) v (S (start + k))) = Ok s' /\ outcome w g start interval start_es (k + S r) s').
      { intros h d v Hk Hinv. destruct (IH (S k) _ Hinv) as (s' & E & Ho).
        - intros nv j Ev Ee Hj. destruct (Nat.eq_dec j k) as [->|]; [now apply Hk | apply (Hn nv j Ev Ee); lia].
        - exists s'. replace (S (start + k)) with (start + S k) by lia. replace (start + S k) with (S (start + k)) in * by lia. split; [exact E|]. replace (k + S r) with (S k + r) by lia. exact Ho. }
      cbv zeta. case_eq nval; [intros nv Env | intros Env]; cbv match; rewrite <- Env.
      + assert (Eref : (if refr then refresh_loop W refresh (S n) bs 0 n (fst wk) else Ok (fst wk)) = Ok (fst (stt w g start (S k)))).
        { rewrite ESt. unfold refreshed. rewrite Env. cbn [fst]. destruct refr; [|reflexivity]. rewrite (refresh_loop_spec bs n Hbs (slices_fine n bs _ Hbs (seq_length n 0) Hsizes) (count bs n) 0 (S n)) by (pose proof (count_le bs n Hbs); lia). unfold batches. now rewrite seq_length. }
        rewrite Eref. set (w2 := fst (stt w g start (S k))) in *. rewrite (test_loop_spec bs nv w2 Hbs (count bs nv) 0 (S nv)) by (pose proof (count_le bs nv Hbs); lia).
        assert (Evl : over (fold_left nadd (map (tls w2) (map (fun j => slice bs j (seq 0 nv)) (seq 0 (count bs nv)))) (Fin 0)) (count bs nv + 1) = vls nv w g start k).
        { unfold val_loss, reported, over. fold w2. unfold batches. now rewrite !map_length, !seq_length. }
        rewrite Evl. clear Eref Evl. destruct (I5 nv Env) as (I6' & I6). clear I5. rename I6' into I5.
        assert (Hinv : forall d, (early = true -> d = match cps start interval (S k) with [] => None | _ => Some 0 end) -> inv w g start interval (S k) (mksst W G (hupd W (heap W G s) 0 w2) g2 d (tl W G s ++ [trl w g start k]) (vl W G s ++ [vls nv w g start k]) (S (start + k)))).
        { intros d Hd. unfold inv. cbn [heap rng tl vl sd nsched]. split; [unfold hupd; reflexivity|]. split; [rewrite ESt; reflexivity|]. split; [rewrite I3; apply mapseqS|]. split; [lia|]. intros nv' E. assert (nv' = nv) as -> by congruence. split; [rewrite I5; apply mapseqS | exact Hd]. }
        destruct early eqn:Ee.
        * pose proof (He eq_refl ltac:(congruence)) as Hi0. destruct interval as [|i0] eqn:Ei; [lia|]. rewrite <- Ei in *. clear Ei i0. replace (S (start + k)) with (start + S k) in * by lia.
          destruct (Nat.eqb_spec ((start + S k) mod interval) 0) as [Em|Em].
          -- pose proof (cps_prev start interval k Hi0 Em) as Hp. assert (Hd0 : Some 0 = match cps start interval (S k) with [] => None | _ => Some 0 end) by (cbn [cps]; rewrite (proj2 (Nat.eqb_eq _ _) Em); reflexivity).
             destruct (Nat.ltb_spec start_es (start + S k)) as [Hse|Hse].
             ++ rewrite (I6 eq_refl). destruct (cps start interval k) as [|j0 l] eqn:Ec.
                ** apply Next; [|apply Hinv; intros _; exact Hd0]. intros nv' E _ (_ & _ & Hlt & _). lia.
                ** destruct Hp as (Hp1 & Hp2). subst j0. rewrite I5, mapseqS. change 1 with (1 + 0) at 1. rewrite (from_end_map _ k 0) by lia. rewrite (from_end_map _ k interval) by exact Hp1. rewrite Nat.sub_0_r.
                   destruct (nlt (vls nv w g start (k - interval)) (vls nv w g start k)) eqn:Enl.
                   --- eexists. split; [reflexivity|]. exists (S k). split; [lia|]. cbn [heap rng tl vl]. split; [unfold hupd; reflexivity|]. split; [rewrite ESt; reflexivity|]. split; [rewrite I3; apply mapseqS|]. split; [intros nv' E; assert (nv' = nv) as -> by congruence; reflexivity|].
                       right. exists nv. split; [exact Env|]. split; [first [exact Ee | reflexivity]|]. split; [lia|]. replace (S k - 1) with k by lia. split; [split; [exact Em|]; split; [exact Hse|]; split; [exact Hp1 | exact Enl]|]. intros j Hj. now apply Hn.
                   --- rewrite <- mapseqS, <- I5. apply Next; [|apply Hinv; intros _; exact Hd0]. intros nv' E _ (_ & _ & _ & Hlt). assert (nv' = nv) as -> by congruence. congruence.
             ++ apply Next; [|apply Hinv; intros _; exact Hd0]. intros nv' E _ (_ & Hge & _). lia.
          -- apply Next; [intros nv' E _ (Hm & _); contradiction|]. apply Hinv. intros _. cbn [cps]. rewrite (proj2 (Nat.eqb_neq _ _) Em). now apply I6.
        * apply Next; [discriminate|]. apply Hinv. discriminate.
      + apply Next; [congruence|]. split; [rewrite ESt; unfold refreshed; rewrite Env; reflexivity|]. split; [rewrite ESt; reflexivity|]. cbn [tl nsched]. split; [rewrite I3; apply mapseqS|]. split; [lia | congruence].
  Qed.

  (** A run with a positive batch size: every epoch goes through the batches of a fresh permutation; training ends after the last epoch or at the first epoch that stops; the
      comparison never reaches outside the list of losses; the weights returned are those of the last epoch that was run. *)
  Theorem C63_run : forall w g b n_epochs start interval start_es, match b with Some x => x | None => n end = bs -> (early = true -> nval <> None -> 0 < interval) ->
    exists m, train W G step refresh tloss permutation w g n b nval refr early n_epochs start interval start_es
      = Ok (fst (stt w g start m), snd (stt w g start m), map (trl w g start) (seq 0 m), match nval with None => None | Some nv => Some (map (vls nv w g start) (seq 0 m)) end)
    /\ m <= n_epochs - start
    /\ ((m = n_epochs - start /\ forall nv j, nval = Some nv -> early = true -> j < m -> ~ stp_at nv w g start interval start_es j)
        \/ exists nv, nval = Some nv /\ early = true /\ 0 < m /\ stp_at nv w g start interval start_es (m - 1) /\ forall j, j < m - 1 -> ~ stp_at nv w g start interval start_es j).
  Proof.
    intros w g b n_epochs start interval start_es Eb He. unfold train. rewrite Eb. destruct (epochs_spec w g start interval start_es He (n_epochs - start) 0 (mksst W G (fun _ => w) g None [] [] start)) as (s & E & m & Hm & H1 & H2 & H3 & H4 & H5).
    - unfold inv. cbn [heap rng tl vl sd nsched]. split; [reflexivity|]. split; [reflexivity|]. split; [reflexivity|]. split; [lia|]. intros nv _. split; [reflexivity|]. intros _. reflexivity.
    - intros; lia.
    - rewrite Nat.add_0_r in E. rewrite E. exists m. split.
      + rewrite H1, H2, H3. destruct nval as [nv|]; [rewrite (H4 nv eq_refl); reflexivity | reflexivity].
      + split; [lia|]. destruct H5 as [(A1 & A2)|A]; [left; split; [lia | exact A2] | right; exact A].
  Qed.
End Proofs.
Print Assumptions C63_run.

(** The reported loss of an epoch is smaller than the mean over its batches: with k finite batch losses it is k/(k+1) times the mean. *)
Theorem C63_reported_refuted :
  forall qs : list Q, qs <> [] -> exists r, reported (map Fin qs) = Fin r
  /\ (r * inject_Z (Z.of_nat (length qs + 1)) == fold_right Qplus 0 qs)%Q
  /\ forall m : Q, (m * inject_Z (Z.of_nat (length qs)) == fold_right Qplus 0 qs -> ~ m == 0 -> ~ r == m)%Q.
Proof.
  intros qs Hn. assert (G : forall l a, exists t, fold_left nadd (map Fin l) (Fin a) = Fin t /\ (t == a + fold_right Qplus 0 l)%Q).
  { induction l as [|x l IH]; intros a; [exists a; split; [reflexivity | cbn; lra]|]. cbn [map fold_left fold_right]. destruct (IH (a + x)%Q) as (t & E & Et). exists t. split; [exact E | rewrite Et; lra]. }
  destruct (G qs 0%Q) as (t & E & Et). unfold reported. rewrite E, map_length. set (k := inject_Z (Z.of_nat (length qs + 1))). assert (Hk : (k == inject_Z (Z.of_nat (length qs)) + 1)%Q). { unfold k. rewrite Nat2Z.inj_add, inject_Z_plus. reflexivity. }
  assert (Hl : (1 <= inject_Z (Z.of_nat (length qs)))%Q). { change 1%Q with (inject_Z 1). rewrite <- Zle_Qle. destruct qs; [congruence | cbn [length]; lia]. }
  assert (Hkp : (0 < k)%Q) by (rewrite Hk; lra).
  exists (t / k)%Q. unfold ndiv. destruct (Qeq_bool k 0) eqn:Ek; [apply Qeq_bool_iff in Ek; lra|].
  split; [reflexivity|]. assert (Er : (t / k * k == t)%Q) by (field; lra). split; [rewrite Er, Et; lra|]. intros m Hm Hm0 Hr. apply Hm0. set (L := inject_Z (Z.of_nat (length qs))) in *. assert (A1 : (t / k * L == fold_right Qplus 0 qs)%Q) by (rewrite Hr; exact Hm). assert (A2 : (t / k * (L + 1) == t)%Q) by (transitivity (t / k * k)%Q; [rewrite Hk; reflexivity | exact Er]). assert (A3 : (t / k * (L + 1) == t / k * L + t / k)%Q) by ring. lra.
Qed.
Print Assumptions C63_reported_refuted.

(** A network that cannot be trained on one sample (batch normalisation) fails in the first epoch whenever one sample is left over. *)
Theorem C63_left_over : forall W G (step : nat -> W -> list nat -> res (W * num)) refresh tloss permutation w g n bs nval refr early n_epochs start interval start_es,
  (forall g n, Permutation (seq 0 n) (snd (permutation g n))) -> (forall c w b, length b = 1 -> step c w b = Err ValueError) -> (forall c w b, length b <> 1 -> exists o, step c w b = Ok o) ->
  0 < bs -> n mod bs = 1 \/ (bs = 1 /\ 0 < n) -> start < n_epochs ->
  train W G step refresh tloss permutation w g n (Some bs) nval refr early n_epochs start interval start_es = Err ValueError.
Proof.
  intros W G step refresh tloss permutation w g n bs nval refr early n_epochs start interval start_es HP H1 H2 Hb Hm Hs.
  assert (HL : forall idx k i fuel w tot, length idx = n -> i + k = count bs n -> k <= fuel -> 0 < k -> train_loop W step fuel start bs i n idx w tot = Err ValueError).
  { intros idx. induction k as [|k IH]; intros i fuel w0 tot Li Hi Hfu Hk; [lia|]. assert (Hlt : bs * i < n) by (apply (count_lt bs); lia). destruct fuel as [|f]; [lia|]. cbn [train_loop]. rewrite (proj2 (Nat.ltb_lt _ _) Hlt).
    destruct (Nat.eq_dec (length (slice bs i idx)) 1) as [E|E]; [now rewrite H1|]. destruct (H2 start w0 _ E) as ([w1 l] & ->). apply IH; try lia. destruct k as [|k]; [|lia]. exfalso.
    assert (Hge : n <= bs * S i). { destruct (Nat.lt_ge_cases (bs * S i) n) as [H|H]; [|lia]. apply (count_lt bs) in H; lia. }
    apply E. rewrite slice_len, Li. destruct Hm as [Hm|(-> & _)]; [|lia]. pose proof (Nat.div_mod n bs ltac:(lia)) as D. rewrite Hm in D. assert (bs <> 1) by (intros ->; rewrite Nat.mod_1_r in Hm; discriminate). assert (n / bs = i) by nia. nia. }
  unfold train. replace (n_epochs - start) with (S (n_epochs - start - 1)) by lia. cbn [epochs rng heap nsched]. pose proof (HP g n) as Hp. destruct (permutation g n) as [g2 idx]. cbn [snd] in Hp. assert (Li : length idx = n) by (rewrite <- (Permutation_length Hp); apply seq_length).
  assert (Hn : 0 < n). { destruct n; [destruct Hm as [Hm|(_ & Hm)]; [rewrite Nat.mod_0_l in Hm by lia; discriminate | exact Hm] | lia]. }
  assert (0 < count bs n) by (apply (count_lt bs); lia). rewrite (HL idx (count bs n) 0 (S n) w (Fin 0) Li); [reflexivity | lia | | assumption].
  destruct (Nat.le_gt_cases (count bs n) n) as [|H0]; [lia|]. apply (count_lt bs) in H0; [nia | exact Hb].
Qed.
Print Assumptions C63_left_over.
(** Batch size 0: the loop over the batches never ends, whatever the number of rounds one waits. *)
Theorem C63_endless : forall W (stp : nat -> W -> list nat -> W * num) fuel c n idx w tot i, 0 < n -> train_loop W (fun c w b => Ok (stp c w b)) fuel c 0 i n idx w tot = Err OutOfFuel.
Proof. intros W stp fuel c n idx. induction fuel as [|f IH]; intros w tot i Hn; cbn [train_loop Nat.mul]; rewrite (proj2 (Nat.ltb_lt _ _) Hn); [reflexivity|]. destruct (stp c w (slice 0 i idx)) as [w1 l]. now apply IH. Qed.
Print Assumptions C63_endless.

(** Weights are a counter of epochs' batches; the validation loss is |w - 2|; three samples in batches of two. *)
Module ToySM.
  Definition stp (c : nat) (w : nat) (b : list nat) : nat * num := (S w, Fin (inject_Z (Z.of_nat (length b)))).
  Definition rf (w : nat) (b : list nat) : nat := w.
  Definition tls (w : nat) (b : list nat) : num := Fin (Qabs.Qabs (inject_Z (Z.of_nat w) - 2)).
  Definition perm (g : unit) (n : nat) : unit * list nat := (tt, rev (seq 0 n)).
End ToySM.
(** On early stopping the weights of the better epoch are not restored. *)
Theorem C63_restored_refuted :
  exists out best tr te, train nat unit (fun c w b => Ok (ToySM.stp c w b)) (fun w b => Ok (ToySM.rf w b)) (fun w b => Ok (ToySM.tls w b)) ToySM.perm 0 tt 3 (Some 2) (Some 1) false true 10 0 1 0 = Ok (out, tt, tr, Some te)
  /\ length te = 2 /\ best = fst (state nat unit ToySM.stp ToySM.rf ToySM.perm 3 2 (Some 1) false 0 tt 0 1) /\ out <> best /\ nlt (ToySM.tls best [0]) (ToySM.tls out [0]) = true.
Proof. eexists _, _, _, _. split; [vm_compute; reflexivity|]. split; [reflexivity|]. split; [reflexivity|]. split; [vm_compute; lia | vm_compute; reflexivity]. Qed.
Print Assumptions C63_restored_refuted.
Example C63_case : sizes_fine (fun k => 0 < k) 3 2 /\ batches 2 [2; 0; 1] = [[2; 0]; [1]]
  /\ (forall g n, Permutation (seq 0 n) (snd (ToySM.perm g n)))
  /\ stops nat unit ToySM.stp ToySM.rf ToySM.tls ToySM.perm 3 2 (Some 1) false 1 0 tt 0 1 0 1.
Proof. split; [split; [lia | cbn; lia]|]. split; [reflexivity|]. split; [intros g n; apply Permutation_rev|]. split; [reflexivity|]. split; [lia|]. split; [lia | vm_compute; reflexivity]. Qed.
