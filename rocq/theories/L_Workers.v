(** The law of the results of independent workers, from the law of one (C86). *)
From Coq Require Import Reals Lra Lia.
From Verif Require Import M_Base M_Num L_Num M_Journal M_PMCABC M_XReal M_Stats L_PMC S_Stats L_Stats L_Distance L_PosDef S_Law P_Law L_Law L_Gen S_Consist.
Open Scope R_scope.

Section Workers.
Variable A : Type.
Variable outs : list A.
Variable p : A -> R.
Hypothesis law : Law outs p.
Notation mean := (mean outs p).

Lemma mean_app a : forall b F, mean (a + b) F = mean a (fun l1 => mean b (fun l2 => F (l1 ++ l2))).
Proof. induction a as [|a IH]; intros b F; [reflexivity|]. cbn [Nat.add S_Law.mean]. apply expect_ext. intros x _. rewrite IH. reflexivity. Qed.
Lemma mean_ext_len k F G : (forall l, length l = k -> F l = G l) -> mean k F = mean k G.
Proof. apply mean_ext. Qed.
Lemma chunk_first k (l1 l2 : list A) : length l1 = k -> chunk k 0 (l1 ++ l2) = l1.
Proof. intros <-. unfold chunk. cbn [Nat.mul skipn]. rewrite firstn_app, Nat.sub_diag, firstn_all. cbn [firstn]. apply app_nil_r. Qed.
Lemma chunk_next k i (l1 l2 : list A) : length l1 = k -> chunk k (S i) (l1 ++ l2) = chunk k i l2.
Proof. intros <-. unfold chunk. rewrite skipn_app. replace (S i * length l1 - length l1)%nat with (i * length l1)%nat by lia. rewrite skipn_all2 by lia. reflexivity. Qed.

(** one worker: X results, C what is left in the shared object, B the outcomes of its law *)
Variables X C B : Type.
Variable xs : list B.
Variable mu : B -> R.
Variable r : B -> X * C.
Variable W : nat -> list A -> C -> res (X * C).
(** whatever is done with the result of the worker, also depending on the number of draws *)
Definition Worker (c : C) : Prop := forall (G : nat -> X * C -> R) (G' : X * C -> R) Bd, (forall k x, Rabs (G k x) <= Bd) -> (forall b, In b xs -> Un_cv (fun k => G k (r b)) (G' (r b))) ->
  Un_cv (fun k => mean k (fun l => match W k l c with Ok x => G k x | Err _ => 0 end)) (expect xs mu (fun b => G' (r b))).
Hypothesis worker : forall c, Worker c.
Definition all_workers (H : list X -> R) (n k : nat) (c : C) : R := mean (n * k) (fun l => match mapT (fun i c => W k (chunk k i l) c) (seq 0 n) c with Ok (ys, _) => H ys | Err _ => 0 end).
Lemma mapT_ext {U V T} (f g : U -> T -> res (V * T)) l : (forall x c, In x l -> f x c = g x c) -> forall c, mapT f l c = mapT g l c.
Proof. induction l as [|x l IH]; intros H c; [reflexivity|]. cbn [mapT]. rewrite H by (left; reflexivity). destruct (g x c) as [[y c']|]; [|reflexivity]. rewrite IH by (intros; apply H; right; assumption). reflexivity. Qed.
Lemma mapT_map {U U' V T} (h : U' -> U) (f : U -> T -> res (V * T)) l : forall c, mapT f (map h l) c = mapT (fun x => f (h x)) l c.
Proof. induction l as [|x l IH]; intros c; [reflexivity|]. cbn [map mapT]. destruct (f (h x) c) as [[y c']|]; [|reflexivity]. rewrite IH. reflexivity. Qed.
Lemma all_bound H Bd : 0 <= Bd -> (forall ys, Rabs (H ys) <= Bd) -> forall n k c, Rabs (all_workers H n k c) <= Bd.
Proof.
  intros B0 Hb n k c. unfold all_workers. eapply Rle_trans; [apply (mean_abs _ outs p law _ _ (fun _ => Bd))|rewrite (mean_const _ outs p law); lra]. intros l _. destruct (mapT _ _ _) as [[ys c']|]; [apply Hb|rewrite Rabs_R0; exact B0].
Qed.
Theorem workers_law : forall n (H : list X -> R) Bd c, (forall ys, Rabs (H ys) <= Bd) -> Un_cv (fun k => all_workers H n k c) (S_Law.mean xs mu n (fun bs => H (map (fun b => fst (r b)) bs))).
Proof.
  induction n as [|n IH]; intros H Bd c Hb; cbn [S_Law.mean].
  - apply (cv_ext (fun _ => H [])); [intros k; reflexivity|apply cv_const].
  - assert (B0 : 0 <= Bd) by (eapply Rle_trans; [apply Rabs_pos|apply (Hb [])]).
    pose (G := fun (k : nat) (x : X * C) => all_workers (fun ys => H (fst x :: ys)) n k (snd x)).
    pose (G' := fun x : X * C => S_Law.mean xs mu n (fun bs => H (fst x :: map (fun b => fst (r b)) bs))).
    apply (cv_ext (fun k => mean k (fun l => match W k l c with Ok x => G k x | Err _ => 0 end))).
    + intros k. unfold all_workers. cbn [Nat.mul]. rewrite mean_app. apply mean_ext_len. intros l1 Hl1. rewrite (mean_ext_len (n * k) _ (fun l2 => match W k l1 c with Ok x => match mapT (fun i c => W k (chunk k i l2) c) (seq 0 n) (snd x) with Ok (ys, _) => H (fst x :: ys) | Err _ => 0 end | Err _ => 0 end)).
      * destruct (W k l1 c) as [x|]; [reflexivity|]. symmetry. apply (mean_const _ outs p law).
      * intros l2 _. cbn [seq mapT]. rewrite (chunk_first k l1 l2 Hl1). destruct (W k l1 c) as [[y c']|]; [|reflexivity]. cbn [fst snd]. rewrite <- seq_shift, mapT_map. rewrite (mapT_ext _ (fun i c => W k (chunk k i l2) c)) by (intros; rewrite (chunk_next k _ l1 l2 Hl1); reflexivity).
        destruct (mapT _ _ _) as [[ys c'']|]; reflexivity.
    + apply (worker c G G' Bd).
      * intros k x. apply all_bound; [exact B0|]. intros ys. apply Hb.
      * intros b _. unfold G, G'. apply (IH (fun ys => H (fst (r b) :: ys)) Bd). intros ys. apply Hb.
Qed.
End Workers.
