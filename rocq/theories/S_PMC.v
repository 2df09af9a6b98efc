(** What a run of PMC is. *)
From Coq Require Import Reals.
From Verif Require Import M_Base M_Num M_Infer M_PMCABC M_RSMCABC M_XReal M_PMC.
Open Scope nat_scope.

Section Spec.
Variables Theta Rng Y : Type.
Variable setp : Theta -> Theta -> bool * Theta.
Variable pdfv : Theta -> Theta -> num.
Variable kupd : wpop Theta -> nat -> Rng -> Rng * Theta.
Variable kpdf : wpop Theta -> Theta -> Theta -> xr.
Variable simc : Theta -> Rng -> Rng * option Y.
Variable loglik : Y -> xr.
Variable choiceN : nat -> nat -> list xr -> Rng -> res (Rng * list nat).
Variables n per : nat.

(** th is a perturbation of member i with non-zero prior density *)
Definition Perturbed (p : wpop Theta) (i : nat) (th : Theta) : Prop := exists r0 r1 c, kupd p i r0 = (r1, th) /\ neqb (pdfv th c) (Fin 0) = false.
(** l is log prior + log likelihood of data simulated from th (or from what a refused assignment of it left) *)
Definition LogPost (th : Theta) (l : xr) : Prop :=
  exists c r r' y c', simc c r = (r', Some y) /\ (c = th \/ exists c0, setp th c0 = (false, c)) /\ l = xadd (xlog (toX (pdfv th c'))) (loglik y).
(** v is prior density over the mixture density of the previous population *)
Definition Ratio (p : wpop Theta) (th : Theta) (v : xr) : Prop :=
  exists c, v = xdiv (xmul (XR 1) (toX (pdfv th c))) (xsum (map (fun wr => xmul (fst wr) (kpdf p (snd wr) th)) (combine (wp_w p) (firstn n (wp_rows p))))).
(** n proposals from members chosen with the weights; the new weights are exp(log v + l - max), normalised *)
Definition PIter (p p' : wpop Theta) : Prop :=
  exists r0 r1 idx vls m, choiceN (length (wp_rows p)) n (wp_w p) r0 = Ok (r1, idx) /\ n <= length idx /\ length (wp_w p) = n /\ n <= length (wp_rows p)
  /\ Forall2 (Perturbed p) (firstn n idx) (wp_rows p')
  /\ Forall2 (fun th vl => Ratio p th (fst vl) /\ LogPost th (snd vl)) (wp_rows p') vls
  /\ (let logs := map (fun vl => xadd (xlog (fst vl)) (snd vl)) vls in
      match logs with [] => False | x :: l => m = xmax x l end
      /\ (let ws := map (fun a => xexp (xsub a m)) logs in wp_w p' = map (fun w => xdiv w (xsum ws)) ws)).
Inductive PmRun : wpop Theta -> nat -> list (wrec Theta) -> Prop :=
| pm_end p count : PmRun p count []
| pm_more p count p' rs : PIter p p' -> PmRun p' (count + n * per) rs -> PmRun p count (mkwr (wp_rows p') (wp_w p') (count + n * per) :: rs).
End Spec.
Arguments Perturbed {Theta Rng} pdfv kupd p i th.
Arguments LogPost {Theta Rng Y} setp pdfv simc loglik th l.
Arguments Ratio {Theta} pdfv kpdf n p th v.
Arguments PIter {Theta Rng Y} setp pdfv kupd kpdf simc loglik choiceN n p p'.
Arguments PmRun {Theta Rng Y} setp pdfv kupd kpdf simc loglik choiceN n per _ _ _.
