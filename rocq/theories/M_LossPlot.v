(** The plot of the losses after training a network: abcpy/statisticslearning.py 224-263 (class StatisticsLearningWithLosses). *)
From Coq Require Import String.
From Verif Require Import M_Base M_Num.
Open Scope nat_scope.

(** One call of ax.plot: the label, the colour and the points joined by the line (epoch number, loss). *)
Record curve := mkcurve { c_label : string; c_colour : string; c_points : list (nat * num) }.
(** np.arange(len(l)) + 1 against [l] *)
Definition numbered (n : nat) (l : list num) : list (nat * num) := combine (map (fun i => i + 1) (seq 0 n)) l.
(* 228-263 plot_losses: the curves drawn, and whether the warning about missing test losses was logged.  [train], [test]: the attributes train_losses and
   test_losses.  Axis labels, legend and figure size are not modelled. *)
Definition plot_losses (which : string) (train : list num) (test : option (list num)) : res (list curve * bool) :=
  if negb (existsb (String.eqb which) ["both"; "train"; "test"]%string) then Err NotImplementedError
  else
    let tr := if existsb (String.eqb which) ["both"; "train"]%string then [mkcurve "Train loss" "C0" (numbered (length train) train)] else [] in
    if existsb (String.eqb which) ["both"; "test"]%string then
      match test with
      | Some l => if negb (length l =? length train) then Err RuntimeError else Ok (tr ++ [mkcurve "Test loss" "C1" (numbered (length train) l)], false)
      | None => Ok (tr, true)
      end
    else Ok (tr, false).
