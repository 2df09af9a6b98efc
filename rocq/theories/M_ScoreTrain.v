(** Training of the exponential family by score matching: abcpy/statisticslearning.py 1540-1751 ([_train]). *)
From Verif Require Import M_Base M_Num M_Infer.
Open Scope nat_scope.

Section ScoreTrain.
  (** The weights of the two networks together with the running means of a batch normalisation layer; the generator self.rng. *)
  Variables W G : Type.
  (** One optimisation step (1640-1671): the number of scheduler steps taken so far (it fixes the learning rates), the weights, the positions of the samples of the batch; the new
      weights and batch_loss.item().  In training mode a batch normalisation layer raises ValueError on a batch of one sample. *)
  Variable step : nat -> W -> list nat -> res (W * num).
  (** The forward pass of a training batch through the parameters network, in training mode (1684-1686): only running means change. *)
  Variable refresh : W -> list nat -> res W.
  (** The loss of a batch of validation samples, in evaluation mode (1697-1706). *)
  Variable tloss : W -> list nat -> res num.
  (** rng.permutation(n_theta) (1631) *)
  Variable permutation : G -> nat -> G * list nat.

  (* l[bs*i : bs*(i+1)] *)
  Definition slice (bs i : nat) (l : list nat) : list nat := firstn bs (skipn (bs * i) l).
  (* 1636-1673  the loop over batches; [n]: n_theta.  The fuel is enough whenever the batch size is not 0. *)
  Fixpoint train_loop (fuel c bs i n : nat) (idx : list nat) (w : W) (tot : num) : res (W * num * nat) :=
    if bs * i <? n then
      match fuel with
      | 0 => Err OutOfFuel
      | S f => match step c w (slice bs i idx) with Err e => Err e | Ok (w', l) => train_loop f c bs (S i) n idx w' (nadd tot l) end
      end
    else Ok (w, tot, i).
  (* 1681-1687 *)
  Fixpoint refresh_loop (fuel bs i n : nat) (w : W) : res W :=
    if bs * i <? n then
      match fuel with
      | 0 => Err OutOfFuel
      | S f => match refresh w (slice bs i (seq 0 n)) with Err e => Err e | Ok w' => refresh_loop f bs (S i) n w' end
      end
    else Ok w.
  (* 1694-1708 *)
  Fixpoint test_loop (fuel bs i n : nat) (w : W) (tot : num) : res (num * nat) :=
    if bs * i <? n then
      match fuel with
      | 0 => Err OutOfFuel
      | S f => match tloss w (slice bs i (seq 0 n)) with Err e => Err e | Ok l => test_loop f bs (S i) n w (nadd tot l) end
      end
    else Ok (tot, i).
  Definition over (t : num) (i : nat) : num := ndiv t (Fin (inject_Z (Z.of_nat i))).

  (** Tensors: the parameters of the networks live at address 0; [sd] is the saved state dictionary, which refers to tensors (as in M_Trainer). *)
  Record sst := mksst { heap : nat -> W; rng : G; sd : option nat; tl : list num; vl : list num; nsched : nat }.
  Definition hupd (h : nat -> W) (a : nat) (w : W) : nat -> W := fun b => if b =? a then w else h b.
  (* list[-k] *)
  Definition from_end (l : list num) (k : nat) : res num := if length l <? k then Err IndexError else match nth_error l (length l - k) with Some x => Ok x | None => Err IndexError end.

  (* 1624-1741 for the remaining [k] epochs from [epoch] on; [nval]: number of validation samples, [None] without validation set.  Both schedulers, where enabled, are stepped at
     the same places; [nsched] counts these. *)
  Fixpoint epochs (n bs : nat) (nval : option nat) (refr early : bool) (interval start_es : nat) (k epoch : nat) (s : sst) : res sst :=
    match k with
    | 0 => Ok s
    | S k' =>
        let (g', idx) := permutation (rng s) n in
        match train_loop (S n) (nsched s) bs 0 n idx (heap s 0) (Fin 0) with
        | Err e => Err e
        | Ok (w', tot, i) =>
            let next (h : nat -> W) (d : option nat) (v : list num) := epochs n bs nval refr early interval start_es k' (S epoch) (mksst h g' d (tl s ++ [over tot (i + 1)]) v (S (nsched s))) in
            match nval with
            | None => next (hupd (heap s) 0 w') (sd s) (vl s)
            | Some nv =>
                match (if refr then refresh_loop (S n) bs 0 n w' else Ok w') with
                | Err e => Err e
                | Ok w'' =>
                    let h := hupd (heap s) 0 w'' in
                    match test_loop (S nv) bs 0 nv w'' (Fin 0) with
                    | Err e => Err e
                    | Ok (ttot, ti) =>
                        let v := vl s ++ [over ttot (ti + 1)] in
                        if early then
                          match interval with
                          | 0 => Err ZeroDivisionError
                          | _ =>
                              if (S epoch) mod interval =? 0 then
                                match (if start_es <? S epoch then sd s else None) with
                                | Some a =>
                                    match from_end v 1, from_end v (1 + interval) with
                                    | Ok x, Ok y =>
                                        if nlt y x then Ok (mksst (hupd h 0 (h a)) g' (sd s) (tl s ++ [over tot (i + 1)]) v (nsched s)) else next h (Some 0) v
                                    | _, _ => Err IndexError
                                    end
                                | None => next h (Some 0) v
                                end
                              else next h (sd s) v
                          end
                        else next h (sd s) v
                    end
                end
            end
        end
    end.
  (* 1540-1751  _train: the final weights, the generator and the two lists; batch_size=None means n_theta (1592-1593) *)
  Definition train (w : W) (g : G) (n : nat) (bs : option nat) (nval : option nat) (refr early : bool) (n_epochs start interval start_es : nat) : res (W * G * list num * option (list num)) :=
    match epochs n (match bs with Some b => b | None => n end) nval refr early interval start_es (n_epochs - start) start (mksst (fun _ => w) g None [] [] start) with
    | Err e => Err e
    | Ok s => Ok (heap s 0, rng s, tl s, match nval with None => None | Some _ => Some (vl s) end)
    end.
End ScoreTrain.
