(** Property C34: perturb.  The state is the parameter vector of the graph and the generator; [Try] is one kernel proposal with its
    assignment, [Refused k] k refused ones in a row. *)
From Verif Require Import M_Base M_Num M_Infer S_Infer L_Infer M_Graph S_Graph L_Graph4 L_Graph2 L_Graph3 L_Graph M_GraphEx.
Open Scope nat_scope.

(** C34, exactly what the code does.  perturb never raises for a positive number of epochs; it reports success with th when th was the
    first accepted proposal, except after exactly ten refusals; but also when all [epochs] proposals were refused, th being the last. *)
Theorem C34_success :
  forall (Theta Rng Pop : Type) (setp : Theta -> Theta -> bool * Theta) (kupd : Pop -> nat -> Rng -> Rng * Theta) epochs p i cur r cur' r' th, 10 < epochs ->
  (perturb Theta Rng Pop setp kupd epochs p i cur r = Ok (cur', r', Some th) <->
   (exists k st1, k < epochs /\ k <> 10 /\ Refused setp kupd p i k (cur, r) st1 /\ Try setp kupd p i st1 (cur', r') th true)
   \/ (exists st1, Refused setp kupd p i (epochs - 1) (cur, r) st1 /\ Try setp kupd p i st1 (cur', r') th false)).
Proof. exact perturb_some. Qed.
Print Assumptions C34_success.
(** It reports failure exactly when the first accepted proposal was the eleventh. *)
Theorem C34_failure :
  forall (Theta Rng Pop : Type) (setp : Theta -> Theta -> bool * Theta) (kupd : Pop -> nat -> Rng -> Rng * Theta) epochs p i cur r cur' r', 10 < epochs ->
  (perturb Theta Rng Pop setp kupd epochs p i cur r = Ok (cur', r', None) <->
   exists st1 th, Refused setp kupd p i 10 (cur, r) st1 /\ Try setp kupd p i st1 (cur', r') th true).
Proof. exact perturb_none. Qed.
Print Assumptions C34_failure.
Theorem C34_total :
  forall (Theta Rng Pop : Type) (setp : Theta -> Theta -> bool * Theta) (kupd : Pop -> nat -> Rng -> Rng * Theta) epochs p i cur r, 0 < epochs ->
  exists x, perturb Theta Rng Pop setp kupd epochs p i cur r = Ok x.
Proof. exact perturb_no_error. Qed.
Print Assumptions C34_total.

(** a generator that counts; parameters below k are refused *)
Definition cset (k : nat) (th cur : nat) : bool * nat := if th <? k then (false, cur) else (true, th).
Definition cupd (p : unit) (i : nat) (r : nat) : nat * nat := (S r, r).
Example C34_case : perturb nat nat unit (cset 3) cupd 100 tt 0 77 0 = Ok (3, 4, Some 3).
Proof. reflexivity. Qed.
(** So both halves of the claim are false: success is reported for parameters the graph refused and does not hold, ... *)
Theorem C34_success_refuted : exists setp kupd cur (r : nat) cur' r' th,
  perturb nat nat unit setp kupd 100 tt 0 cur r = Ok (cur', r', Some th) /\ cur' <> th /\ fst (setp th cur') = false /\ Refused setp kupd tt 0 100 (cur, r) (cur', r').
Proof.
  exists (cset 200), cupd, 500, 0, 500, 100, 99. split; [reflexivity|]. split; [discriminate|]. split; [reflexivity|].
  assert (H : forall k r, r + k <= 100 -> Refused (cset 200) cupd tt 0 k (500, r) (500, r + k)).
  { induction k as [|k IH]; intros r Hr; [rewrite Nat.add_0_r; constructor|]. rewrite Nat.add_succ_r. change (S (r + k)) with (S r + k).
    eapply refS with (th := r); [|apply IH; lia]. split; [reflexivity|]. cbn [fst]. unfold cset. destruct (Nat.ltb_spec r 200); [reflexivity | lia]. }
  exact (H 100 0 (le_n _)).
Qed.
Print Assumptions C34_success_refuted.
(** ... and failure is reported although the eleventh proposal was accepted and is installed. *)
Theorem C34_failure_refuted : exists setp kupd cur (r : nat) cur' r',
  perturb nat nat unit setp kupd 100 tt 0 cur r = Ok (cur', r', None) /\ setp 10 cur = (true, 10) /\ cur' = 10.
Proof. exists (cset 10), cupd, 500, 0, 10, 11. repeat split. Qed.
Print Assumptions C34_failure_refuted.

(** The loop "perturb until the prior density is not 0": if no 100 proposals in a row are refused, the parameters returned are installed
    in the graph and have prior density other than 0. *)
Theorem C34_proposal_installed :
  forall (Theta Rng Pop : Type) (setp : Theta -> Theta -> bool * Theta) (kupd : Pop -> nat -> Rng -> Rng * Theta) pdfv fuel, set_ok setp ->
  forall p i, (forall st st', ~ Refused setp kupd p i 100 st st') -> forall cur r cur' r' th,
  propose Theta Rng Pop setp kupd pdfv fuel p i cur r = Ok (cur', r', th) -> cur' = th /\ neqb (pdfv th th) (Fin 0) = false.
Proof. exact propose_installed. Qed.
Print Assumptions C34_proposal_installed.
Example C34_proposal_case : set_ok (cset 3) /\ propose nat nat unit (cset 3) cupd (fun th _ => if th <? 5 then Fin 0 else Fin 1) 10 tt 0 77 0 = Ok (5, 6, 5).
Proof.
  split; [|reflexivity]. split.
  - intros th cur cur'. unfold cset. destruct (th <? 3); congruence.
  - intros th. unfold cset. destruct (th <? 3); reflexivity.
Qed.

(** [set_ok] is what C06 says of the graph: an accepted assignment installs the vector, and assigning the stored vector again changes no
    value, accepted or not. *)
Theorem C34_graph_set_ok :
  forall g, wf g -> forall roots params s o,
  indep g roots -> clean g roots s -> vals_ok g s -> ParamOrder g roots o ->
  Forall2 (fun n v => length v = gdim g n) o params ->
  exists b j s', set_parameters g roots params s = (s', Ok (b, j))
    /\ (b = true -> map (val s') o = map Some params)
    /\ (map (val s) o = map Some params -> forall n, val s' n = val s n).
Proof.
  intros g Hwf roots params s o Hi Hc Hv Ho Hd.
  destruct (set_outcome g Hwf roots params s o Hi Hc Hv Ho Hd) as (b & j & s' & Hs & _ & _ & Hj & Hin & Hout & Hb).
  exists b, j, s'. split; [exact Hs|].
  assert (Hlen : length o = length params) by (clear - Hd; induction Hd; cbn; congruence). split.
  - intros ->. subst j. apply nth_ext with (d := None) (d' := None); [rewrite !map_length; exact Hlen|]. intros i Hi'. rewrite map_length in Hi'.
    destruct (nth_error o i) as [n|] eqn:En; [|apply nth_error_None in En; lia]. specialize (Hin i n En).
    destruct (Nat.ltb_spec i (length o)); [|lia]. erewrite nth_error_nth; [|apply map_nth_error; exact En]. rewrite Hin.
    destruct (nth_error params i) as [v|] eqn:Ev; [|apply nth_error_None in Ev; lia]. symmetry. erewrite nth_error_nth; [reflexivity|]. apply (map_nth_error Some). exact Ev.
  - intros Hsame n. destruct (in_dec Nat.eq_dec n o) as [Hn|Hn]; [|apply Hout; exact Hn].
    apply In_nth_error in Hn. destruct Hn as [i En]. rewrite (Hin i n En). destruct (i <? j); [|reflexivity].
    assert (H1 : nth_error (map (val s) o) i = Some (val s n)) by (apply map_nth_error; exact En). rewrite Hsame in H1.
    destruct (nth_error params i) as [v|] eqn:Ev; [|apply nth_error_None in Ev; assert (i < length o) by (apply nth_error_Some; congruence); lia].
    rewrite (map_nth_error Some i params Ev) in H1. congruence.
Qed.
Print Assumptions C34_graph_set_ok.
Example C34_graph_case : exists s', set_parameters g1 [5] [[8]; [11]]%Q s1 = (s', Ok (false, 1)).
Proof. eexists. vm_compute. reflexivity. Qed.
