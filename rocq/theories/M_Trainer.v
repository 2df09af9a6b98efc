(** Training of a network with early stopping: abcpy/NN_utilities/trainer.py. *)
From Verif Require Import M_Base M_Num M_Infer.
Open Scope nat_scope.

Section Trainer.
  (** Weights of the network and batches. *)
  Variables W B : Type.
  (** one optimisation step on a batch: the new weights and loss.item(), computed before the step (70-91) *)
  Variable step : W -> B -> W * num.
  (** the loss of a validation batch (110-131), without changing the weights *)
  Variable vloss : W -> B -> num.
  (** what the loaders yield in an epoch (the training loader shuffles; the pair data sets draw at random), or the exception of an item or of the collation of a batch
      (it ends the call, so the steps done on the batches before it are not recorded); no validation loader: [None] *)
  Variable tbatches : nat -> res (list B).
  Variable vbatches : option (nat -> res (list B)).

  (** Storage of tensors.  The parameters of the network live at address 0. *)
  Record tst := mktst { heap : nat -> W; net_sd : option nat; tl : list num; vl : list num; es : list num; nsched : nat }.
  Definition hupd (h : nat -> W) (a : nat) (w : W) : nat -> W := fun b => if b =? a then w else h b.
  (* torch's Module.state_dict: a dictionary of references to the live tensors, no copy *)
  Definition state_dict (h : nat -> W) : (nat -> W) * nat := (h, 0).
  (* torch's Module.load_state_dict: copies the given tensors into the parameters *)
  Definition load_state_dict (h : nat -> W) (a : nat) : nat -> W := hupd h 0 (h a).

  (* 62-95  train_epoch: the mean over the batches; batch_idx is unbound if there is no batch *)
  Definition train_epoch (bs : list B) (w : W) : W * res num :=
    let (w', total) := fold_left (fun wt b => let (w2, l) := step (fst wt) b in (w2, nadd (snd wt) l)) bs (w, Fin 0) in
    (w', match bs with [] => Err UnboundLocalError | _ => Ok (ndiv total (Fin (inject_Z (Z.of_nat (length bs))))) end).
  (* 98-133  test_epoch *)
  Definition test_epoch (bs : list B) (w : W) : res num :=
    match bs with [] => Err UnboundLocalError | _ => Ok (ndiv (fold_left (fun t b => nadd t (vloss w b)) bs (Fin 0)) (Fin (inject_Z (Z.of_nat (length bs))))) end.

  (* 33-60  the loop, for the remaining [k] epochs from [epoch] on.  [es]: early_stopping_loss_list, newest first. *)
  Fixpoint epochs (early : bool) (interval start_es : nat) (k epoch : nat) (s : tst) : res tst :=
    match k with
    | 0 => Ok s
    | S k' =>
        match (match tbatches epoch with Err e => (heap s 0, Err e) | Ok bs => train_epoch bs (heap s 0) end) with
        | (_, Err e) => Err e
        | (w', Ok l) =>
            let s1 := mktst (hupd (heap s) 0 w') (net_sd s) (tl s ++ [l]) (vl s) (es s) (nsched s) in
            let next (s : tst) := epochs early interval start_es k' (S epoch) (mktst (heap s) (net_sd s) (tl s) (vl s) (es s) (S (nsched s))) in
            match vbatches with
            | None => next s1
            | Some vb =>
                match (match vb epoch with Err e => Err e | Ok bs => test_epoch bs w' end) with
                | Err e => Err e
                | Ok v =>
                    let s2 := mktst (heap s1) (net_sd s1) (tl s1) (vl s1 ++ [v]) (es s1) (nsched s1) in
                    if early then
                      match interval with
                      | 0 => Err ZeroDivisionError
                      | _ =>
                          if (S epoch) mod interval =? 0 then
                            let s3 := mktst (heap s2) (net_sd s2) (tl s2) (vl s2) (v :: es s2) (nsched s2) in
                            let go (_ : unit) := let (h, a) := state_dict (heap s3) in next (mktst h (Some a) (tl s3) (vl s3) (es s3) (nsched s3)) in
                            match es s2 with
                            | v' :: _ =>
                                if (start_es <=? S epoch) && nlt v' v then
                                  match net_sd s3 with
                                  | Some a => Ok (mktst (load_state_dict (heap s3) a) (net_sd s3) (tl s3) (vl s3) (es s3) (nsched s3))
                                  | None => Err UnboundLocalError
                                  end
                                else go tt
                            | [] => go tt
                            end
                          else next s2
                      end
                    else next s2
                end
            end
        end
    end.
  (* 7-60  fit: the final weights, the two lists and the number of calls of scheduler.step() *)
  Definition fit (w : W) (n_epochs start interval start_es : nat) (early : bool) : res (W * list num * option (list num) * nat) :=
    match early, vbatches with
    | true, None => Err RuntimeError
    | _, _ =>
        match epochs early interval start_es (n_epochs - start) start (mktst (fun _ => w) None [] [] [] start) with
        | Err e => Err e
        | Ok s => Ok (heap s 0, tl s, match vbatches with None => None | Some _ => Some (vl s) end, nsched s)
        end
    end.
End Trainer.
