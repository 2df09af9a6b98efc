(** Model of InputConnector (abcpy/probabilisticmodels.py:7-240). *)
From Verif Require Import M_Base.

(** The heap of models seen by a connector: [nxt] = number of the next object to be created, [hdim] =
    get_output_dimension, [hout] = get_stored_output_values.  Simplification: only what connectors read. *)
Record heap := mkheap { nxt : nat; hdim : nat -> nat; hout : nat -> option (list Q) }.

(* probabilisticmodels.py:18-22  the two arrays of an InputConnector; None = not set yet *)
Record conn := mkconn { cmodels : list (option nat); cidx : list (option Z) }.

(** What a user may put in a list of inputs; [IOther] is any other Python object. *)
Inductive item :=
| INum (q : Q)
| IModel (m : nat)
| IConn (c : conn)
| IList (l : list item)
| IOther.

(* 8-22  InputConnector(dimension) *)
Definition conn_new (dim : nat) : conn := mkconn (repeat None dim) (repeat None dim).
(* 188-199  get_parameter_count *)
Definition conn_count (c : conn) : nat := length (cmodels c).

Fixpoint list_set {A} (l : list A) (i : nat) (a : A) : list A :=
  match l, i with
  | [], _ => []
  | _ :: l', 0 => a :: l'
  | x :: l', S i' => x :: list_set l' i' a
  end.
(* 201-223  set(index, model, model_index), index past the end is an IndexError.  Simplification: the model argument
   is a model (the number case is [alloc_number] followed by this), index is not negative *)
Definition conn_set (c : conn) (i : nat) (m : option nat) (j : option Z) : res conn :=
  if i <? length (cmodels c) then Ok (mkconn (list_set (cmodels c) i m) (list_set (cidx c) i j)) else Err IndexError.

(* 744-766  Hyperparameter(number): a new object with output dimension 1 and the number as stored output *)
Definition alloc_number (q : Q) : M heap nat :=
  fun h => (mkheap (S (nxt h)) (upd (hdim h) (nxt h) 1) (upd (hout h) (nxt h) (Some [q])), Ok (nxt h)).

Definition liftR {S A} (r : res A) : M S A := match r with Ok a => ret a | Err e => raise e end.

(* 24-44  from_number *)
Definition from_number (q : Q) : M heap conn :=
  n <- alloc_number q ;;
  liftR (conn_set (conn_new 1) 0 (Some n) (Some 0%Z)).
(* 59-61  the loop of from_model *)
Fixpoint from_model_loop (m : nat) (is : list nat) (c : conn) : res conn :=
  match is with
  | [] => Ok c
  | i :: is' => match conn_set c i (Some m) (Some (Z.of_nat i)) with
                | Ok c' => from_model_loop m is' c'
                | Err e => Err e
                end
  end.
(* 46-64  from_model *)
Definition from_model (m : nat) : M heap conn :=
  fun h => (h, from_model_loop m (seq 0 (hdim h m)) (conn_new (hdim h m))).

(* 108-110  inner copy loop over pi, carrying index *)
Fixpoint copy_one (p : conn) (pis : list nat) (index : nat) (c : conn) : res (nat * conn) :=
  match pis with
  | [] => Ok (index, c)
  | pi :: pis' =>
      match nth_error (cmodels p) pi, nth_error (cidx p) pi with
      | Some m, Some j => match conn_set c index m j with
                          | Ok c' => copy_one p pis' (S index) c'
                          | Err e => Err e
                          end
      | _, _ => Err IndexError
      end
  end.
(* 107-110  outer copy loop *)
Fixpoint copy_all (ps : list conn) (index : nat) (c : conn) : res conn :=
  match ps with
  | [] => Ok c
  | p :: ps' => match copy_one p (seq 0 (conn_count p)) index c with
                | Ok (i', c') => copy_all ps' i' c'
                | Err e => Err e
                end
  end.
(* 104-111  second half of from_list *)
Definition assemble (ps : list conn) (count : nat) : res conn := copy_all ps 0 (conn_new count).

(* 88-102  first half of from_list: convert every item, counting the parameters *)
Definition items_loop (rec : item -> M heap conn) := fix items_loop (l : list item) : M heap (list conn * nat) :=
  match l with
  | [] => ret ([], 0)
  | x :: l' => c <- rec x ;; r <- items_loop l' ;; ret (c :: fst r, conn_count c + snd r)
  end.
(* 89-98  one item of the list; 66-113 from_list on a list item *)
Fixpoint from_item (x : item) : M heap conn :=
  match x with
  | INum q => from_number q
  | IModel m => from_model m
  | IConn c => ret c
  | IList l => r <- items_loop from_item l ;; liftR (assemble (fst r) (snd r))
  | IOther => raise TypeError
  end.
(* 66-113  from_list(parameters) *)
Definition from_list (x : item) : M heap conn :=
  match x with
  | IList _ => from_item x
  | _ => raise TypeError
  end.

(** Python list indexing: negative indices count from the end. *)
Definition pynth {A} (l : list A) (i : Z) : option A :=
  if (i <? 0)%Z then (if (- i <=? Z.of_nat (length l))%Z then nth_error l (Z.to_nat (Z.of_nat (length l) + i)) else None)
  else nth_error l (Z.to_nat i).

(* 133-141  __getitem__ on a number; an unset entry is None, which has no get_stored_output_values *)
Definition conn_get (h : heap) (c : conn) (i : nat) : res (option Q) :=
  match nth_error (cmodels c) i, nth_error (cidx c) i with
  | Some (Some m), Some (Some j) =>
      match hout h m with
      | None => Ok None
      | Some l => match pynth l j with Some q => Ok (Some q) | None => Err IndexError end
      end
  | Some _, Some _ => Err AttributeError
  | _, _ => Err IndexError
  end.
Fixpoint seq_res {A} (l : list (res A)) : res (list A) :=
  match l with
  | [] => Ok []
  | Ok a :: l' => match seq_res l' with Ok b => Ok (a :: b) | Err e => Err e end
  | Err e :: _ => Err e
  end.
(* 154-166  get_values *)
Definition get_values (h : heap) (c : conn) : res (list (option Q)) :=
  seq_res (map (conn_get h c) (seq 0 (conn_count c))).

(* 281-303  ProbabilisticModel.__getitem__(item) on a number *)
Definition model_getitem (h : heap) (m : nat) (j : Z) : res conn :=
  if (Z.of_nat (hdim h m) <=? j)%Z then Err IndexError
  else conn_set (conn_new 1) 0 (Some m) (Some j).
