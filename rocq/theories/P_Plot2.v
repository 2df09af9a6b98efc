(** C80: names and ranges that do not fit. *)
From Coq Require Import QArith ZArith Lia.
From Verif Require Import M_Base M_MMD M_Journal M_Kernel M_Plot S_Plot L_Plot P_Plot.
Open Scope nat_scope.

Section Unknown.
Variables Name S C D : Type.
Variable neqb : Name -> Name -> bool.
Hypothesis neqb_spec : forall a b, reflect (a = b) (neqb a b).
Lemma dget_absent {V} (d : list (Name * V)) n : ~ In n (map fst d) -> dget neqb d n = None.
Proof using neqb_spec. induction d as [|[k v] d IH]; cbn [map fst dget]; intros H; [reflexivity|]. destruct (neqb_spec n k) as [->|E]; [destruct H; left; reflexivity|]. apply IH. intros X. apply H. right. exact X. Qed.
(** A name of the first iteration that is not recorded in the iteration asked for: the trace plot ends with KeyError. *)
Theorem C80_trace_unknown : forall (j : journal Name kval S C D) show it names d n,
  Displayed j show names -> get_parameters j it = Ok d -> In n names -> ~ In n (map fst d) -> traceplot Name S C D neqb true j show it = Err KeyError.
Proof using neqb_spec.
  intros j show it names d n HD Hd Hn Hk. unfold traceplot. cbn [negb]. fold (resolved Name S C D neqb j show). rewrite (displayed_resolved Name S C D neqb neqb_spec j show names HD). cbn [rthen]. rewrite Hd. cbn [rthen].
  clear HD. induction names as [|m names IH]; [destruct Hn|]. cbn [mapR]. unfold at_key at 1. destruct (dget neqb d m) as [c|] eqn:E; cbn [rthen]; [|reflexivity].
  destruct Hn as [->|Hn]; [rewrite (dget_absent d n Hk) in E; discriminate|]. rewrite (IH Hn). reflexivity.
Qed.
End Unknown.
Print Assumptions C80_trace_unknown.

(** False: that a range with another number of limits than two is refused with TypeError, as the message of the test suggests: lists are, but tuples are not tested, and
    the plot ends with ValueError after a part of the figure has been set up. *)
Theorem C80_tuple_refuted : exists (a b c : Q),
  snd (Case.plot Case.j None (Some [(1, LList [(true, a); (true, b); (true, c)])]) None None false false true true None) = Err TypeError
  /\ snd (Case.plot Case.j None (Some [(1, LTuple [a; b; c])]) None None false false true true None) = Err ValueError
  /\ snd (Case.plot Case.j None (Some [(1, LTuple [a])]) None None true false true true None) = Err ValueError.
Proof. exists 0%Q, 5%Q, 12%Q. split; [vm_compute; reflexivity|]. split; vm_compute; reflexivity. Qed.
Print Assumptions C80_tuple_refuted.

(** Two iterations with different names *)
Definition changed : journal nat kval unit unit unit := mkj 1 [] [univariate [0; 1] Case.col; univariate [0] Case.col] [] [] [Col [1; 1]%Q; Col [1; 1]%Q] [] [] [] None false.
Example C80_trace_unknown_case : Displayed changed None [0; 1] /\ get_parameters changed None = Ok (univariate [0] Case.col)
  /\ traceplot nat unit unit unit Nat.eqb true changed None None = Err KeyError /\ snd (Case.plot changed None None None None false false true true None) = Err KeyError.
Proof.
  split; [exists (univariate [0; 1] Case.col); split; [reflexivity|reflexivity]|]. split; [reflexivity|]. split; vm_compute; reflexivity.
Qed.
