(** C60: training with early stopping. *)
From Coq Require Import Qabs.
From Verif Require Import M_Base M_Num M_Infer M_Trainer.
Open Scope nat_scope.

(** *** Specification *)
Section Spec.
  Variables W B : Type.
  Variable step : W -> B -> W * num.
  Variable vloss : W -> B -> num.
  Variable tbatches : nat -> list B.
  (** weights before batch number j of the list, losses met on the way *)
  Definition after (bs : list B) (w : W) : W := fold_left (fun w b => fst (step w b)) bs w.
  Fixpoint losses (bs : list B) (w : W) : list num := match bs with [] => [] | b :: bs' => snd (step w b) :: losses bs' (fst (step w b)) end.
  Definition mean (l : list num) : num := ndiv (fold_left nadd l (Fin 0)) (Fin (inject_Z (Z.of_nat (length l)))).
  (** weights after training epochs start, start + 1, ..., start + k - 1 *)
  Fixpoint trained (w : W) (start k : nat) : W := match k with 0 => w | S k' => after (tbatches (start + k')) (trained w start k') end.
  Definition tloss (w : W) (start k : nat) : num := mean (losses (tbatches (start + k)) (trained w start k)).
  (** validation loss after k + 1 epochs *)
  Definition val_loss (vb : nat -> list B) (w : W) (start k : nat) : num := mean (map (vloss (trained w start (S k))) (vb (start + k))).
  (** Epoch number e = start + k + 1 stops the training: a multiple of the interval, late enough, with an earlier checkpoint e - interval whose loss was smaller. *)
  Definition stops (vb : nat -> list B) (w : W) (start interval start_es k : nat) : Prop :=
    (start + S k) mod interval = 0 /\ start_es <= start + S k /\ interval <= k /\ nlt (val_loss vb w start (k - interval)) (val_loss vb w start k) = true.
End Spec.

Section Proofs.
  Variables W B : Type.
  Variable step : W -> B -> W * num.
  Variable vloss : W -> B -> num.
  Variable tbatches : nat -> list B.
  Notation trn := (trained W B step tbatches).
  Notation tls := (tloss W B step tbatches).
  Notation vls := (val_loss W B step vloss tbatches).

  Lemma train_epoch_spec bs w : bs <> [] -> train_epoch W B step bs w = (after W B step bs w, Ok (mean (losses W B step bs w))).
  Proof.
    intros Hb. unfold train_epoch, mean. assert (G : forall bs w t, fold_left (fun wt b => let (w2, l) := step (fst wt) b in (w2, nadd (snd wt) l)) bs (w, t) = (after W B step bs w, fold_left nadd (losses W B step bs w) t) /\ length (losses W B step bs w) = length bs).
    { clear. induction bs as [|b bs IH]; intros w t; [split; reflexivity|]. cbn [fold_left losses after fst snd length]. destruct (step w b) as [w2 l] eqn:E. cbn [fst snd]. destruct (IH w2 (nadd t l)) as (A1 & A2). rewrite A1, A2. split; reflexivity. }
    destruct (G bs w (Fin 0)) as (-> & ->). destruct bs; [congruence | reflexivity].
  Qed.
  Lemma test_epoch_spec bs w : bs <> [] -> test_epoch W B vloss bs w = Ok (mean (map (vloss w) bs)).
  Proof.
    intros Hb. unfold test_epoch, mean. rewrite map_length. assert (G : forall bs t, fold_left (fun t b => nadd t (vloss w b)) bs t = fold_left nadd (map (vloss w) bs) t). { clear. induction bs as [|b bs IH]; intros t; [reflexivity | apply IH]. }
    rewrite G. destruct bs; [congruence | reflexivity].
  Qed.

  (** the checkpoints after k epochs, newest first, as numbers of epochs done before them *)
  Fixpoint cps (start interval k : nat) : list nat := match k with 0 => [] | S k' => if (start + S k') mod interval =? 0 then k' :: cps start interval k' else cps start interval k' end.
  Lemma cps_spec start i : 0 < i -> forall k, match cps start i k with
    | [] => forall j, j < k -> (start + S j) mod i <> 0
    | j0 :: _ => j0 < k /\ (start + S j0) mod i = 0 /\ forall j, j0 < j -> j < k -> (start + S j) mod i <> 0 end.
  Proof.
    intros Hi. induction k as [|k IH]; [cbn; intros; lia|]. cbn [cps]. destruct (Nat.eqb_spec ((start + S k) mod i) 0) as [E|E].
    - split; [lia|]. split; [exact E | intros; lia].
    - destruct (cps start i k) as [|j0 l].
      + intros j Hj. destruct (Nat.eq_dec j k) as [->|]; [exact E | apply IH; lia].
      + destruct IH as (A1 & A2 & A3). split; [lia|]. split; [exact A2|]. intros j H1 H2. destruct (Nat.eq_dec j k) as [->|]; [exact E | apply A3; lia].
  Qed.
  Lemma mod_sub a i : 0 < i -> i <= a -> (a - i) mod i = a mod i.
  Proof. intros Hi Ha. rewrite <- (Nat.mod_add (a - i) 1 i) by lia. f_equal. lia. Qed.
  (** at a checkpoint, the previous one is one interval back *)
  Lemma cps_prev start i k : 0 < i -> (start + S k) mod i = 0 -> match cps start i k with [] => k < i | j0 :: _ => i <= k /\ j0 = k - i end.
  Proof.
    intros Hi E. pose proof (cps_spec start i Hi k) as H. destruct (cps start i k) as [|j0 l].
    - destruct (Nat.lt_ge_cases k i) as [|Hge]; [assumption|]. exfalso. apply (H (k - i)); [lia|]. replace (start + S (k - i)) with (start + S k - i) by lia. rewrite mod_sub by lia. exact E.
    - destruct H as (H1 & H2 & H3). assert (Hk : i <= k).
      { apply Nat.mod_divides in E; [|lia]. apply Nat.mod_divides in H2; [|lia]. destruct E as (a & Ea), H2 as (b & Eb). assert (i * a - i * b = k - j0) by lia. assert (b < a) by nia. nia. }
      split; [exact Hk|]. destruct (Nat.lt_trichotomy j0 (k - i)) as [Hl|[He|Hg]]; [|exact He|].
      + exfalso. apply (H3 (k - i) Hl); [lia|]. replace (start + S (k - i)) with (start + S k - i) by lia. rewrite mod_sub by lia. exact E.
      + exfalso. apply Nat.mod_divides in E; [|lia]. apply Nat.mod_divides in H2; [|lia]. destruct E as (a & Ea), H2 as (b & Eb). assert (i * a - i * b = k - j0) by lia. assert (b < a) by nia. nia.
  Qed.

  Notation st := (mktst W).
  (** the state after k epochs that did not stop *)
  Definition inv (vb : option (nat -> list B)) (w : W) (start interval : nat) (early : bool) (k : nat) (s : tst W) : Prop :=
    heap W s 0 = trn w start k /\ tl W s = map (tls w start) (seq 0 k) /\ nsched W s = start + k
    /\ match vb with None => vl W s = [] | Some v => vl W s = map (vls v w start) (seq 0 k) /\
         (early = true -> es W s = map (vls v w start) (cps start interval k) /\ net_sd W s = match cps start interval k with [] => None | _ => Some 0 end) end.
  Lemma map_seq_S {A} (f : nat -> A) k : map f (seq 0 k) ++ [f k] = map f (seq 0 (S k)).
  Proof. now rewrite seq_S, map_app. Qed.

  Lemma epochs_spec vb w start interval start_es early : (forall e, tbatches e <> []) -> (forall v e, vb = Some v -> v e <> []) -> (early = true -> 0 < interval /\ vb <> None) ->
    forall r k s, inv vb w start interval early k s -> (forall v j, vb = Some v -> early = true -> j < k -> ~ stops W B step vloss tbatches v w start interval start_es j) ->
    exists s' m, epochs W B step vloss (fun e => Ok (tbatches e)) (option_map (fun v e => Ok (v e)) vb) early interval start_es r (start + k) s = Ok s' /\ m <= k + r
      /\ heap W s' 0 = trn w start m /\ tl W s' = map (tls w start) (seq 0 m) /\ (forall v, vb = Some v -> vl W s' = map (vls v w start) (seq 0 m))
      /\ ((m = k + r /\ nsched W s' = start + m /\ (forall v j, vb = Some v -> early = true -> j < m -> ~ stops W B step vloss tbatches v w start interval start_es j))
          \/ exists v, vb = Some v /\ early = true /\ 0 < m /\ nsched W s' = start + (m - 1) /\ stops W B step vloss tbatches v w start interval start_es (m - 1) /\ forall j, j < m - 1 -> ~ stops W B step vloss tbatches v w start interval start_es j).
  Proof.
    intros Ht Hv He. induction r as [|r IH]; intros k s Hi Hn.
    - exists s, k. destruct Hi as (I1 & I2 & I3 & I4). cbn [epochs]. split; [reflexivity|]. split; [lia|]. split; [exact I1|]. split; [exact I2|]. split; [intros v E; subst vb; apply I4|].
      left. split; [lia|]. split; [exact I3 | exact Hn].
    - cbn [epochs]. destruct Hi as (I1 & I2 & I3 & I4). rewrite train_epoch_spec by apply Ht. rewrite I1. change (after W B step (tbatches (start + k)) (trn w start k)) with (trn w start (S k)). fold (tls w start k).
      assert (Next : forall s1, inv vb w start interval early (S k) s1 -> (forall v, vb = Some v -> early = true -> ~ stops W B step vloss tbatches v w start interval start_es k) ->
        exists s' m, epochs W B step vloss (fun e => Ok (tbatches e)) (option_map (fun v e => Ok (v e)) vb) early interval start_es r (S (start + k)) s1 = Ok s' /\ m <= k + S r
          /\ heap W s' 0 = trn w start m /\ tl W s' = map (tls w start) (seq 0 m) /\ (forall v, vb = Some v -> vl W s' = map (vls v w start) (seq 0 m))
          /\ ((m = k + S r /\ nsched W s' = start + m /\ (forall v j, vb = Some v -> early = true -> j < m -> ~ stops W B step vloss tbatches v w start interval start_es j))
          \/ exists v, vb = Some v /\ early = true /\ 0 < m /\ nsched W s' = start + (m - 1) /\ stops W B step vloss tbatches v w start interval start_es (m - 1) /\ forall j, j < m - 1 -> ~ stops W B step vloss tbatches v w start interval start_es j)).
      { intros s1 Hs1 Hk. destruct (IH (S k) s1 Hs1) as (s' & m & E & Hm & R).
        - intros v j Ev Ee Hj. destruct (Nat.eq_dec j k) as [->|]; [now apply Hk | apply (Hn v j Ev Ee); lia].
        - exists s', m. replace (S (start + k)) with (start + S k) by lia. split; [exact E|]. split; [lia|]. replace (k + S r) with (S k + r) by lia. exact R. }
      destruct vb as [v|]; cbn [option_map].
      + rewrite test_epoch_spec by (apply (Hv v); reflexivity). fold (vls v w start k). destruct I4 as (I4 & I5). cbv zeta. cbn [heap net_sd tl vl es nsched]. destruct early.
        * destruct (He eq_refl) as (Hi0 & _). destruct (I5 eq_refl) as (I6 & I7). destruct interval as [|i0] eqn:Ei; [lia|]. rewrite <- Ei in *. clear Ei i0. replace (S (start + k)) with (start + S k) by lia.
          destruct (Nat.eqb_spec ((start + S k) mod interval) 0) as [Em|Em].
          -- pose proof (cps_prev start interval k Hi0 Em) as Hp. rewrite I6.
             assert (Step : forall s1, heap W s1 0 = trn w start (S k) -> tl W s1 = map (tls w start) (seq 0 k) ++ [tls w start k] -> vl W s1 = map (vls v w start) (seq 0 k) ++ [vls v w start k] -> es W s1 = vls v w start k :: map (vls v w start) (cps start interval k) -> net_sd W s1 = Some 0 -> nsched W s1 = S (start + k) -> inv (Some v) w start interval true (S k) s1).
             { intros s1 A1 A2 A3 A4 A5 A6. split; [exact A1|]. split; [rewrite A2; apply map_seq_S|]. split; [rewrite A6; lia|]. split; [rewrite A3; apply map_seq_S|]. intros _. cbn [cps]. rewrite (proj2 (Nat.eqb_eq _ _) Em). split; [exact A4 | exact A5]. }
             destruct (cps start interval k) as [|j0 l] eqn:Ec; cbn [map].
             ++ unfold state_dict. cbn [heap net_sd tl vl es nsched]. rewrite I2, I3, I4. replace (start + S k) with (S (start + k)) by lia. apply Next; [apply Step; reflexivity|].
                intros v' E _ (_ & _ & Hlt & _). injection E as <-. lia.
             ++ destruct Hp as (Hp1 & ->). destruct ((start_es <=? start + S k) && nlt (vls v w start (k - interval)) (vls v w start k)) eqn:Es.
                ** apply andb_true_iff in Es. destruct Es as (Es1 & Es2). apply Nat.leb_le in Es1. rewrite I7. eexists _, (S k). split; [reflexivity|]. split; [lia|]. cbn [heap tl vl nsched].
                   split; [unfold load_state_dict, hupd; rewrite Nat.eqb_refl; reflexivity|]. split; [rewrite I2; apply map_seq_S|]. split; [intros v' E; injection E as <-; rewrite I4; apply map_seq_S|].
                   right. exists v. split; [reflexivity|]. split; [reflexivity|]. split; [lia|]. replace (S k - 1) with k by lia. split; [exact I3|]. split; [split; [exact Em|]; split; [exact Es1|]; split; [exact Hp1 | exact Es2]|].
                   intros j Hj. apply (Hn v j eq_refl eq_refl Hj).
                ** unfold state_dict. cbn [heap net_sd tl vl es nsched]. rewrite I2, I3, I4. replace (start + S k) with (S (start + k)) by lia. apply Next; [apply Step; reflexivity|].
                   intros v' E _ (_ & Hge & _ & Hlt). injection E as <-. apply Nat.leb_le in Hge. rewrite Hge, Hlt in Es. discriminate.
          -- replace (start + S k) with (S (start + k)) by lia. apply Next.
             ++ split; [unfold hupd; reflexivity|]. cbn [tl nsched vl es net_sd]. split; [rewrite I2; apply map_seq_S|]. split; [lia|]. split; [rewrite I4; apply map_seq_S|]. intros _. cbn [cps]. rewrite (proj2 (Nat.eqb_neq _ _) Em). split; assumption.
             ++ intros v' E _ (Hm & _). contradiction.
        * apply Next; [|discriminate]. split; [unfold hupd; reflexivity|]. cbn [tl nsched vl es net_sd]. split; [rewrite I2; apply map_seq_S|]. split; [lia|]. split; [rewrite I4; apply map_seq_S | discriminate].
      + cbv zeta. apply Next; [|discriminate]. split; [unfold hupd; reflexivity|]. cbn [heap tl nsched vl es net_sd]. split; [rewrite I2; apply map_seq_S|]. split; [lia | exact I4].
  Qed.

  (** A run: losses and weights of every epoch until the last one or the first one that stops the training.  The weights returned are always those of the last epoch run: on
      early stopping they are the ones just found worse than those of the previous checkpoint. *)
  Theorem C60_run : forall vb w n start interval start_es early,
    (forall e, tbatches e <> []) -> (forall v e, vb = Some v -> v e <> []) -> (early = true -> 0 < interval /\ vb <> None) ->
    exists m k, fit W B step vloss (fun e => Ok (tbatches e)) (option_map (fun v e => Ok (v e)) vb) w n start interval start_es early
      = Ok (trn w start m, map (tls w start) (seq 0 m), match vb with None => None | Some v => Some (map (vls v w start) (seq 0 m)) end, k)
    /\ m <= n - start
    /\ ((m = n - start /\ k = start + m /\ forall v j, vb = Some v -> early = true -> j < m -> ~ stops W B step vloss tbatches v w start interval start_es j)
        \/ exists v, vb = Some v /\ early = true /\ 0 < m /\ k = start + (m - 1) /\ stops W B step vloss tbatches v w start interval start_es (m - 1)
                     /\ forall j, j < m - 1 -> ~ stops W B step vloss tbatches v w start interval start_es j).
  Proof.
    intros vb w n start interval start_es early Ht Hv He. unfold fit. destruct (epochs_spec vb w start interval start_es early Ht Hv He (n - start) 0 (st (fun _ => w) None [] [] [] start)) as (s & m & E & Hm & H1 & H2 & H3 & H4).
    - split; [reflexivity|]. split; [reflexivity|]. split; [cbn; lia|]. destruct vb; [|reflexivity]. split; [reflexivity|]. intros _. split; reflexivity.
    - intros; lia.
    - rewrite Nat.add_0_r in E. rewrite E. exists m, (nsched W s). split.
      + destruct early, vb as [v|]; rewrite ?H1, ?H2; try (rewrite (H3 v eq_refl)); try reflexivity. exfalso. now apply (proj2 (He eq_refl)).
      + split; [lia|]. destruct H4 as [(A1 & A2 & A3)|(v & A1 & A2 & A3 & A4 & A5 & A6)]; [left; split; [lia|]; split; assumption | right; exists v; tauto].
  Qed.
  (** Requests that are refused. *)
  Theorem C60_refused : forall w n start interval start_es vb early,
    fit W B step vloss (fun e => Ok (tbatches e)) None w n start interval start_es true = Err RuntimeError
    /\ (start < n -> tbatches start = [] -> (early = true -> vb <> None) -> fit W B step vloss (fun e => Ok (tbatches e)) (option_map (fun v e => Ok (v e)) vb) w n start interval start_es early = Err UnboundLocalError)
    /\ (start < n -> (forall e, tbatches e <> []) -> forall v, (forall e, v e <> []) -> fit W B step vloss (fun e => Ok (tbatches e)) (Some (fun e => Ok (v e))) w n start 0 start_es true = Err ZeroDivisionError).
  Proof.
    intros w n start interval start_es vb early. split; [reflexivity|]. split.
    - intros Hn Hb Hv. unfold fit. replace (n - start) with (S (n - start - 1)) by lia. cbn [epochs heap]. rewrite Hb. cbn. destruct early, vb; try reflexivity. exfalso. now apply Hv.
    - intros Hn Ht v Hv. unfold fit. replace (n - start) with (S (n - start - 1)) by lia. cbn [epochs heap]. rewrite train_epoch_spec by apply Ht. rewrite test_epoch_spec by apply Hv. reflexivity.
  Qed.
End Proofs.
Print Assumptions C60_run. Print Assumptions C60_refused.

(** Weights are a number that grows by one per epoch; the validation loss is |w - 2|. *)
Module Toy.
  Definition step (w : nat) (b : unit) : nat * num := (S w, Fin (inject_Z (Z.of_nat w))).
  Definition vloss (w : nat) (b : unit) : num := Fin (Qabs (inject_Z (Z.of_nat w) - 2)).
  Definition one (e : nat) : list unit := [tt].
End Toy.
(** Training is stopped after the third epoch because the loss has grown; the weights of the second epoch, which the previous state dictionary was to restore, are lost. *)
Theorem C60_restored_refuted :
  exists W B step vloss tb vb w n interval start_es best out tr te k,
  fit W B step vloss (fun e => Ok (tb e)) (Some (fun e => Ok (vb e))) w n 0 interval start_es true = Ok (out, tr, Some te, k)
  /\ stops W B step vloss tb vb w 0 interval start_es 2 /\ length tr = 3 /\ best = trained W B step tb w 0 2 /\ out <> best
  /\ nlt (mean (map (vloss best) (vb 2))) (mean (map (vloss out) (vb 2))) = true.
Proof.
  exists nat, unit, Toy.step, Toy.vloss, Toy.one, Toy.one, 0, 10, 1, 1, 2, 3. eexists _, _, _. split; [vm_compute; reflexivity|]. split; [split; [reflexivity|]; split; [lia|]; split; [lia | reflexivity]|].
  split; [reflexivity|]. split; [reflexivity|]. split; [lia | reflexivity].
Qed.
Print Assumptions C60_restored_refuted.
Example C60_case : fit nat unit Toy.step Toy.vloss (fun e => Ok (Toy.one e)) (Some (fun e => Ok (Toy.one e))) 0 10 0 1 1 true = Ok (3, map (fun z => ndiv (Fin (0 + z)) (Fin 1)) [0; 1; 2]%Q, Some (map (fun z => ndiv (Fin (0 + z)) (Fin 1)) [1; 0; 1]%Q), 2)
  /\ (forall e, Toy.one e <> []).
Proof. split; [vm_compute; reflexivity | discriminate]. Qed.
