(** C99: the plot of the losses. *)
From Coq Require Import String.
From Verif Require Import M_Base M_Num M_Infer M_Trainer M_ScoreTrain M_LossPlot.
Open Scope nat_scope.

(** *** Specification *)
(** A line through the losses of a training, the first one at abscissa 1, the second one at 2, and so on. *)
Definition Line (c : curve) (label colour : string) (losses : list num) : Prop :=
  c_label c = label /\ c_colour c = colour /\ length (c_points c) = length losses
  /\ forall j x, nth_error losses j = Some x -> nth_error (c_points c) j = Some (S j, x).
(** What is drawn of the losses of a training, with [test = None] if there was no validation set. *)
Definition Drawn (which : string) (train : list num) (test : option (list num)) (out : list curve * bool) : Prop :=
  (which = "train"%string -> exists c, out = ([c], false) /\ Line c "Train loss" "C0" train)
  /\ (which = "test"%string -> match test with Some l => exists c, out = ([c], false) /\ Line c "Test loss" "C1" l | None => out = ([], true) end)
  /\ (which = "both"%string -> match test with
        | Some l => exists c d, out = ([c; d], false) /\ Line c "Train loss" "C0" train /\ Line d "Test loss" "C1" l
        | None => exists c, out = ([c], true) /\ Line c "Train loss" "C0" train end).
Definition Choice (which : string) : Prop := which = "both"%string \/ which = "train"%string \/ which = "test"%string.

Lemma numbered_line : forall l, length (numbered (length l) l) = length l /\ forall j x, nth_error l j = Some x -> nth_error (numbered (length l) l) j = Some (S j, x).
Proof.
  intros l. unfold numbered. split; [rewrite combine_length, map_length, seq_length; lia|].
  assert (G : forall (l : list num) k j x, nth_error l j = Some x -> nth_error (combine (map (fun i => i + 1) (seq k (length l))) l) j = Some (S (k + j), x)).
  { clear. induction l as [|a l IH]; intros k [|j] x H; try discriminate H; cbn [length seq map combine nth_error].
    - injection H as ->. do 2 f_equal. lia.
    - cbn [nth_error] in H. rewrite (IH (S k) j x H). do 2 f_equal. lia. }
  intros j x H. rewrite (G l 0 j x H). reflexivity.
Qed.
Lemma line_of : forall label colour l, Line (mkcurve label colour (numbered (length l) l)) label colour l.
Proof. intros label colour l. split; [reflexivity|]. split; [reflexivity|]. apply numbered_line. Qed.
Lemma drawn : forall which train test, Choice which -> (forall l, test = Some l -> length l = length train) -> exists out, plot_losses which train test = Ok out /\ Drawn which train test out.
Proof.
  intros which train test W L.
  assert (T : forall l, test = Some l -> Line (mkcurve "Test loss" "C1" (numbered (length train) l)) "Test loss" "C1" l) by (intros l E; rewrite <- (L l E); apply line_of).
  destruct W as [-> | [-> | ->]]; unfold plot_losses; cbn [existsb orb negb String.eqb Ascii.eqb Bool.eqb].
  - destruct test as [l|].
    + rewrite (L l eq_refl), Nat.eqb_refl. cbn [negb]. eexists. split; [reflexivity|]. split; [discriminate|]. split; [discriminate|]. intros _. eexists _, _. split; [reflexivity|]. split; [apply line_of | apply T; reflexivity].
    + eexists. split; [reflexivity|]. split; [discriminate|]. split; [discriminate|]. intros _. eexists. split; [reflexivity | apply line_of].
  - eexists. split; [reflexivity|]. split; [|split; discriminate]. intros _. eexists. split; [reflexivity | apply line_of].
  - destruct test as [l|].
    + rewrite (L l eq_refl), Nat.eqb_refl. cbn [negb]. eexists. split; [reflexivity|]. split; [discriminate|]. split; [|discriminate]. intros _. eexists. split; [reflexivity | apply T; reflexivity].
    + eexists. split; [reflexivity|]. split; [discriminate|]. split; [reflexivity | discriminate].
Qed.

Section Fit.
  Variables W B : Type.
  Variable step : W -> B -> W * num.
  Variable vloss : W -> B -> num.
  Variable tb : nat -> res (list B).
  Variable vb : option (nat -> res (list B)).
  Lemma fit_lengths : forall early interval start_es k epoch s s', length (M_Trainer.vl W s) = (match vb with Some _ => length (M_Trainer.tl W s) | None => 0 end) ->
    M_Trainer.epochs W B step vloss tb vb early interval start_es k epoch s = Ok s' -> length (M_Trainer.vl W s') = (match vb with Some _ => length (M_Trainer.tl W s') | None => 0 end).
  Proof.
    intros early interval start_es. induction k as [|k IH]; intros epoch s s' L E; cbn [M_Trainer.epochs] in E; [injection E as <-; exact L|].
    destruct (match tb epoch with Err e => (M_Trainer.heap W s 0, Err e) | Ok bs => train_epoch W B step bs (M_Trainer.heap W s 0) end) as [w' [l|e]]; [|discriminate E].
    cbv zeta in E. cbn [M_Trainer.heap M_Trainer.net_sd M_Trainer.tl M_Trainer.vl M_Trainer.es M_Trainer.nsched] in E. destruct vb as [v|] eqn:Ev; [|apply IH in E; [exact E | exact L]].
    destruct (match v epoch with Err e => Err e | Ok bs => test_epoch W B vloss bs w' end) as [x|e]; [|discriminate E].
    assert (L' : length (M_Trainer.vl W s ++ [x]) = length (M_Trainer.tl W s ++ [l])) by (rewrite !app_length, L; reflexivity).
    destruct early; [|apply IH in E; [exact E | exact L']]. destruct interval as [|i]; [discriminate E|].
    destruct (S epoch mod S i =? 0); [|apply IH in E; [exact E | exact L']].
    unfold state_dict in E. destruct (M_Trainer.es W s) as [|v' r]; [apply IH in E; [exact E | exact L']|].
    destruct ((start_es <=? S epoch) && nlt v' x); [|apply IH in E; [exact E | exact L']].
    destruct (M_Trainer.net_sd W s) as [a|]; [|discriminate E]. injection E as <-. exact L'.
  Qed.

  (** C99.  After a training by [fit] that has ended, whatever it did: an admissible choice draws the losses of the epochs that were run, one
      point per epoch at 1, 2, 3, ..., and warns exactly if test losses are asked for and there was no validation set; no choice fails on the lengths of the lists. *)
  Theorem C99_fit : forall w n start interval start_es early w' train test k, M_Trainer.fit W B step vloss tb vb w n start interval start_es early = Ok (w', train, test, k) ->
    (test = None <-> vb = None) /\ forall which, (Choice which -> exists out, plot_losses which train test = Ok out /\ Drawn which train test out)
    /\ (~ Choice which -> plot_losses which train test = Err NotImplementedError).
  Proof.
    intros w n start interval start_es early w' train test k E. unfold M_Trainer.fit in E.
    assert (G : exists s, M_Trainer.epochs W B step vloss tb vb early interval start_es (n - start) start (M_Trainer.mktst W (fun _ => w) None [] [] [] start) = Ok s
              /\ train = M_Trainer.tl W s /\ test = match vb with None => None | Some _ => Some (M_Trainer.vl W s) end).
    { destruct early, vb as [v|]; try discriminate E;
        (destruct (M_Trainer.epochs W B step vloss tb _ _ interval start_es (n - start) start _) as [s|e]; [|discriminate E]; injection E as _ <- <- _; exists s; split; [reflexivity|]; split; reflexivity). }
    destruct G as (s & Es & -> & ->). apply fit_lengths in Es; [|destruct vb; reflexivity]. split; [destruct vb; split; congruence|]. intros which. split.
    - intros C. apply drawn; [exact C|]. intros l El. destruct vb; [|discriminate El]. injection El as <-. exact Es.
    - intros C. unfold plot_losses. cbn [existsb]. destruct (String.eqb_spec which "both") as [->|N1]; [exfalso; apply C; left; reflexivity|].
      destruct (String.eqb_spec which "train") as [->|N2]; [exfalso; apply C; right; left; reflexivity|]. destruct (String.eqb_spec which "test") as [->|N3]; [exfalso; apply C; right; right; reflexivity|]. reflexivity.
  Qed.
End Fit.
Print Assumptions C99_fit.

Section Score.
  Variables W G : Type.
  Variable step : nat -> W -> list nat -> res (W * num).
  Variable refresh : W -> list nat -> res W.
  Variable tloss : W -> list nat -> res num.
  Variable permutation : G -> nat -> G * list nat.
  Lemma score_lengths : forall n bs nval refr early interval start_es k epoch s s', length (M_ScoreTrain.vl W G s) = (match nval with Some _ => length (M_ScoreTrain.tl W G s) | None => 0 end) ->
    M_ScoreTrain.epochs W G step refresh tloss permutation n bs nval refr early interval start_es k epoch s = Ok s' -> length (M_ScoreTrain.vl W G s') = (match nval with Some _ => length (M_ScoreTrain.tl W G s') | None => 0 end).
  Proof.
    intros n bs nval refr early interval start_es. induction k as [|k IH]; intros epoch s s' L E; cbn [M_ScoreTrain.epochs] in E; [injection E as <-; exact L|].
    destruct (permutation (rng W G s) n) as [g' idx]. destruct (train_loop W step (S n) _ bs 0 n idx _ (Fin 0)) as [[[w' tot] i]|e]; [|discriminate E]. cbv zeta in E.
    destruct nval as [nv|]; [|apply IH in E; [exact E | exact L]].
    destruct (if refr then refresh_loop W refresh (S n) bs 0 n w' else Ok w') as [w''|e]; [|discriminate E].
    destruct (test_loop W tloss (S nv) bs 0 nv w'' (Fin 0)) as [[ttot ti]|e]; [|discriminate E].
    assert (L' : forall x y, length (M_ScoreTrain.vl W G s ++ [x]) = length (M_ScoreTrain.tl W G s ++ [y])) by (intros x y; rewrite !app_length, L; reflexivity).
    destruct early; [|apply IH in E; [exact E | apply L']]. destruct interval as [|j]; [discriminate E|].
    destruct (S epoch mod S j =? 0); [|apply IH in E; [exact E | apply L']].
    destruct (if start_es <? S epoch then sd W G s else None) as [a|]; [|apply IH in E; [exact E | apply L']].
    destruct (from_end _ 1) as [x|e]; [|discriminate E]. destruct (from_end _ (1 + S j)) as [y|e]; [|discriminate E].
    destruct (nlt y x); [injection E as <-; apply L' | apply IH in E; [exact E | apply L']].
  Qed.
  (** C99.  The same for the networks trained by score matching. *)
  Theorem C99_score : forall w g n bs nval refr early n_epochs start interval start_es w' g' train test,
    M_ScoreTrain.train W G step refresh tloss permutation w g n bs nval refr early n_epochs start interval start_es = Ok (w', g', train, test) ->
    (test = None <-> nval = None) /\ forall which, (Choice which -> exists out, plot_losses which train test = Ok out /\ Drawn which train test out)
    /\ (~ Choice which -> plot_losses which train test = Err NotImplementedError).
  Proof.
    intros w g n bs nval refr early n_epochs start interval start_es w' g' train test E. unfold M_ScoreTrain.train in E.
    destruct (M_ScoreTrain.epochs W G step refresh tloss permutation n _ nval refr early interval start_es (n_epochs - start) start _) as [s|e] eqn:Es; [|discriminate E].
    injection E as _ _ <- <-. apply score_lengths in Es; [|destruct nval; reflexivity]. split; [destruct nval; split; congruence|]. intros which. split.
    - intros C. apply drawn; [exact C|]. intros l El. destruct nval; [|discriminate El]. injection El as <-. exact Es.
    - intros C. unfold plot_losses. cbn [existsb]. destruct (String.eqb_spec which "both") as [->|N1]; [exfalso; apply C; left; reflexivity|].
      destruct (String.eqb_spec which "train") as [->|N2]; [exfalso; apply C; right; left; reflexivity|]. destruct (String.eqb_spec which "test") as [->|N3]; [exfalso; apply C; right; right; reflexivity|]. reflexivity.
  Qed.
End Score.
Print Assumptions C99_score.

(** C99 (refuted).  "The abscissa is the training epoch", as the axis is labelled.  If training starts at epoch number start > 0, the first epoch run has the number
    start + 1 in the log (trainer.py 38) and uses the batches of epoch start, but it is drawn at 1, and no curve reaches the number of epochs asked for. *)
Theorem C99_epochs_refuted : forall W B (step : W -> B -> W * num) vloss (tb : nat -> res (list B)) w n start interval start_es w' train test k,
  0 < start -> start < n -> M_Trainer.fit W B step vloss tb None w n start interval start_es false = Ok (w', train, test, k) ->
  exists c l, plot_losses "train" train test = Ok ([c], false) /\ nth_error (c_points c) 0 = Some (1, l)
  /\ (exists bs, tb start = Ok bs /\ snd (train_epoch W B step bs w) = Ok l) /\ 1 <> start + 1 /\ forall e x, In (e, x) (c_points c) -> e < n.
Proof.
  intros W B step vloss tb w n start interval start_es w' train test k Hs Hn E. unfold M_Trainer.fit in E.
  destruct (M_Trainer.epochs W B step vloss tb None false interval start_es (n - start) start _) as [s|e] eqn:Es; [|discriminate E]. injection E as _ <- <- _.
  assert (T : forall k epoch s s', M_Trainer.epochs W B step vloss tb None false interval start_es k epoch s = Ok s' -> exists r, M_Trainer.tl W s' = M_Trainer.tl W s ++ r /\ length r = k).
  { clear. induction k as [|k IH]; intros epoch s s' E; cbn [M_Trainer.epochs] in E; [injection E as <-; exists []; rewrite app_nil_r; split; reflexivity|].
    destruct (match tb epoch with Err e => (M_Trainer.heap W s 0, Err e) | Ok bs => train_epoch W B step bs (M_Trainer.heap W s 0) end) as [w' [l|e]]; [|discriminate E]. cbv zeta in E.
    apply IH in E. destruct E as (r & Er & Lr). cbn [M_Trainer.tl] in Er. exists (l :: r). rewrite Er, <- app_assoc. split; [reflexivity | cbn; congruence]. }
  replace (n - start) with (S (n - start - 1)) in Es by lia. cbn [M_Trainer.epochs M_Trainer.heap] in Es. destruct (tb start) as [bs|e] eqn:Eb; [|discriminate Es].
  destruct (train_epoch W B step bs w) as [w2 [l|e]] eqn:Et; [|discriminate Es]. cbv zeta in Es. apply T in Es. destruct Es as (r & Er & Lr). cbn [M_Trainer.tl app] in Er.
  eexists _, l. split; [reflexivity|]. cbn [c_points]. rewrite Er. split; [apply numbered_line; reflexivity|]. split; [exists bs; split; [reflexivity|]; rewrite Et; reflexivity|]. split; [lia|].
  intros e x H. unfold numbered in H. apply in_combine_l, in_map_iff in H. destruct H as (i & <- & Hi). apply in_seq in Hi. cbn [length] in Hi. lia.
Qed.
Print Assumptions C99_epochs_refuted.

(** A training of two epochs from epoch 3 on with one batch each and a validation set. *)
Example C99_case : exists train test out, M_Trainer.fit nat unit (fun w _ => (S w, Fin 7)) (fun w _ => Fin 5) (fun _ => Ok [tt]) (Some (fun _ => Ok [tt])) 0 5 3 1 1 false = Ok (2, train, test, 5)
  /\ plot_losses "both" train test = Ok out /\ map (fun c => map fst (c_points c)) (fst out) = [[1; 2]; [1; 2]] /\ Choice "test" /\ ~ Choice "validation"
  /\ plot_losses "test" train None = Ok ([], true).
Proof. eexists _, _, _. split; [vm_compute; reflexivity|]. split; [vm_compute; reflexivity|]. split; [reflexivity|]. split; [right; right; reflexivity|]. split; [intros [H | [H | H]]; discriminate H | reflexivity]. Qed.
Example C99_epochs_case : exists w train k, M_Trainer.fit nat unit (fun w _ => (S w, Fin 7)) (fun w _ => Fin 5) (fun _ => Ok [tt]) None 0 5 3 1 1 false = Ok (w, train, None, k).
Proof. eexists _, _, _. vm_compute. reflexivity. Qed.
