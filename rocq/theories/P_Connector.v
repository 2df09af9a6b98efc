(** Property C07: input connectors. *)
From Verif Require Import M_Base M_Connector S_Connector L_Connector.

(** C07.  A nested list of numbers, models and connectors is flattened in order; its width is the sum of the widths;
    numbers become distinct new objects; from then on, values read are the stored outputs / the numbers. *)
Theorem C07_flatten :
  forall l h es, old (nxt h) (IList l) -> flat (hdim h) (IList l) = Some es ->
  exists h' c, from_list (IList l) h = (h', Ok c)
    /\ conn_count c = width (hdim h) (IList l)
    /\ Forall2 (realises h h') es (combine (cmodels c) (cidx c))
    /\ NoDup (flat_map (fun p => match fst p with ENum _ => [fst (snd p)] | ERef _ _ => [] end)
                       (combine es (combine (cmodels c) (cidx c))))
    /\ grows h h'
    /\ forall h2, grows h' h2 -> get_values h2 c = seq_res (map (value_of h2) es).
Proof. exact from_list_ok. Qed.
Print Assumptions C07_flatten.
Theorem C07_type_error :
  forall x h, old (nxt h) x -> (flat (hdim h) x = None \/ forall l, x <> IList l) ->
  exists h', from_list x h = (h', Err TypeError) /\ grows h h'.
Proof. exact from_list_bad. Qed.
Print Assumptions C07_type_error.

Definition hx : heap := mkheap 2 (fun m => if Nat.eqb m 1 then 2 else 1) (fun m => if Nat.eqb m 1 then Some [3; 4]%Q else None).
Definition lx : list item := [INum 7; IList [IModel 1; IList [INum 8]]; IConn (mkconn [Some 1] [Some 1%Z]); IModel 0].
Example C07_case : old (nxt hx) (IList lx)
  /\ flat (hdim hx) (IList lx) = Some [ENum 7; ERef (Some 1) (Some 0%Z); ERef (Some 1) (Some 1%Z); ENum 8;
                                       ERef (Some 1) (Some 1%Z); ERef (Some 0) (Some 0%Z)]
  /\ (exists h' c, from_list (IList lx) hx = (h', Ok c)
                   /\ get_values h' c = Ok [Some 7; Some 3; Some 4; Some 8; Some 4; None]%Q).
Proof.
  split; [cbn; repeat split; auto|]. split; [reflexivity|]. eexists _, _. split; vm_compute; reflexivity.
Qed.
Example C07_type_case : flat (hdim hx) (IList [INum 1; IList [IOther]]) = None.
Proof. reflexivity. Qed.

(** model[j] guards against an index that is too large but not against one that is too negative: construction succeeds
    and the later read raises IndexError. *)
Theorem C07_negative_index_refuted :
  exists h m j c, (j < Z.of_nat (hdim h m))%Z /\ hout h m <> None /\ model_getitem h m j = Ok c
                  /\ get_values h c = Err IndexError.
Proof. exists hx, 1, (-3)%Z. eexists. split; [reflexivity|]. split; [discriminate|]. split; vm_compute; reflexivity. Qed.
Print Assumptions C07_negative_index_refuted.
Theorem C07_getitem :
  forall h m j, (0 <= j)%Z ->
  (if (Z.of_nat (hdim h m) <=? j)%Z then model_getitem h m j = Err IndexError
   else exists c, model_getitem h m j = Ok c /\ conn_count c = 1
     /\ forall h2 l, hout h2 m = Some l -> length l = hdim h m -> exists q, nth_error l (Z.to_nat j) = Some q /\ get_values h2 c = Ok [Some q]).
Proof. exact getitem_spec. Qed.
Print Assumptions C07_getitem.
