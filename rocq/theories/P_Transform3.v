(** C30: infinite values and nan. *)
From Coq Require Import Reals Lra Lia.
From Verif Require Import M_Base M_Num M_XReal M_Transform S_Transform L_Transform P_Transform.
Open Scope R_scope.

Section Infinite.
Variable f32 : R -> R.
Lemma array_scalars vs : array_from_list (map Sc vs) = Ok vs.
Proof.
  assert (E : scalars (map Sc vs) = Some vs) by (induction vs as [|v vs IH]; [reflexivity|cbn; rewrite IH; reflexivity]).
  unfold array_from_list. destruct vs as [|v vs]; [reflexivity|]. cbn [map] in *. rewrite E. reflexivity.
Qed.
(** A value that lies at an infinity beyond one of its bounds *)
Definition Beyond (b : bnd) (v : xr) : Prop := match b with (Some _, None) => v = XNInf | (Some _, Some _) => v = XNInf \/ v = XInf | _ => False end.
Lemma beyond_check b v : Beyond b v -> in_check f32 b v = false.
Proof. destruct b as [[lo|] [hi|]]; cbn [Beyond in_check]; [intros [->| ->]|intros ->|intros []|intros []]; reflexivity. Qed.
(** C30 (infinite values).  Minus infinity with a lower bound, and either infinity with two bounds, are refused like finite values on or outside the bounds, in every position and
    whatever the other values are, also nan. *)
Theorem C30_infinite : forall bs vs i b v, length vs = length bs -> nth_error bs i = Some b -> nth_error vs i = Some v -> Beyond b v ->
  transform f32 bs false (map Sc vs) = Err RuntimeError /\ jac_log_det f32 bs false (map Sc vs) = Err RuntimeError.
Proof.
  intros bs vs i b v Hl Hb Hv HB. assert (E : existsb (fun bv => negb (in_check f32 (fst bv) (snd bv))) (combine bs vs) = true).
  { apply existsb_exists. exists (b, v). split; [|cbn [fst snd]; rewrite (beyond_check b v HB); reflexivity]. revert vs i Hl Hb Hv. clear HB. induction bs as [|b' bs IH]; intros [|v' vs] [|i] Hl Hb Hv; try discriminate.
    - cbn in Hb, Hv. injection Hb as ->. injection Hv as ->. left. reflexivity.
    - right. apply (IH vs i); [cbn in Hl; congruence|exact Hb|exact Hv]. }
  unfold transform, jac_log_det. rewrite array_scalars, Hl, Nat.eqb_refl, E. split; reflexivity.
Qed.
(** False: that all values that are not inside the bounds are refused: nan passes the test for any bounds, since it compares with nothing; and plus infinity passes a lower bound, and is
    its own image. *)
Theorem C30_nan_refuted : (forall lo bs, jac_log_det f32 ((Some lo, None) :: bs) false (map Sc (repeat XNaN (S (length bs)))) = Ok XNaN)
  /\ forall lo, transform f32 [(None, None); (Some lo, None)] false [Sc (XR 1); Sc XInf] = Ok [Sc (XR 1); Sc XInf].
Proof.
  split.
  - intros lo bs.
    assert (E : existsb (fun bv => negb (in_check f32 (fst bv) (snd bv))) (combine ((Some lo, None) :: bs) (repeat XNaN (S (length bs)))) = false).
    { cbn [repeat combine existsb fst snd]. change (negb (in_check f32 (Some lo, None) XNaN)) with false. cbn [orb]. induction bs as [|b bs IH]; [reflexivity|]. cbn [length repeat combine existsb fst snd]. rewrite IH. destruct b as [[l|] [h|]]; reflexivity. }
    assert (F : forall l : list xr, xsum (XNaN :: l) = XNaN). { intros l. unfold xsum. cbn [fold_left xadd]. induction l as [|x l IH]; [reflexivity|]. exact IH. }
    unfold jac_log_det. rewrite array_scalars. cbv beta iota. match goal with |- context [existsb ?f ?l] => replace (existsb f l) with false by (symmetry; exact E) end. rewrite repeat_length. change (length ((Some lo, None) :: bs)) with (S (length bs)). rewrite Nat.eqb_refl. cbn [negb]. unfold each. cbn [repeat combine map fst snd].
    assert (G : store false (ldj_term f32 (Some lo, None) XNaN) = XNaN) by reflexivity. rewrite G, F. reflexivity.
  - intros lo. reflexivity.
Qed.
End Infinite.
Print Assumptions C30_infinite.
Print Assumptions C30_nan_refuted.
Example C30_infinite_case : Beyond (Some 0, None) XNInf /\ Beyond (Some 0, Some 1) XInf /\ ~ Beyond (Some 0, None) XInf
  /\ transform (fun r => r) [(None, None); (Some 0, Some 1)] false [Sc XNInf; Sc XInf] = Err RuntimeError.
Proof. split; [reflexivity|]. split; [right; reflexivity|]. split; [discriminate|reflexivity]. Qed.
