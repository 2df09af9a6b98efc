(** Properties C36, C37. *)
From Coq Require Import Reals Lra.
From Verif Require Import M_Base M_Num M_XReal L_PMC M_Stats S_Stats L_Stats M_Distance S_Distance L_Distance.
Open Scope nat_scope.

(** C36.  In every history of calls (of distance, or of loglikelihood: the code is the same) whose first arguments have observations of one shape and
    are not changed in place once they were passed, each call returns what a new object would return - errors included. *)
Theorem C36_transparent : forall stat V (f : mat -> mat -> res V) sh hist, FirstUniform sh hist -> NoMutation hist ->
  calls stat f hist fresh_cache = map (fun k => snd (call stat f (fst (fst k)) (snd (fst k)) (snd k) fresh_cache)) hist.
Proof. intros stat V f sh hist Hu Hm. apply (calls_spec stat f sh); [reflexivity | exact Hu | exact Hm]. Qed.
Print Assumptions C36_transparent.

(** C36.  What a new object returns: the statistics of both data sets, recomputed from the arguments, if they have the same number of columns. *)
Theorem C36_fresh : forall stat V (f : mat -> mat -> res V) h a b,
  snd (call stat f h (Some a) (Some b) fresh_cache) =
  match stat (h a) with Err e => Err e | Ok s1 => match stat (h b) with Err e => Err e | Ok s2 => if mcols s1 =? mcols s2 then f s1 s2 else Err ValueError end end
  /\ snd (call stat f h None (Some b) fresh_cache) = Err TypeError /\ snd (call stat f h (Some a) None fresh_cache) = Err TypeError.
Proof.
  intros stat V f h a b. split; [|split; reflexivity]. unfold call, calc. cbn [fresh_cache c_ref c_s1 c_same]. destruct (stat (h a)) as [s1|]; [|reflexivity].
  destruct (stat (h b)) as [s2|]; [|reflexivity]. destruct (mcols s1 =? mcols s2); reflexivity.
Qed.
Print Assumptions C36_fresh.

Definition columns (s1 s2 : mat) : res (mat * mat) := Ok (s1, s2).
Definition ident : list datum -> res mat := fun l => statistics (mkstats Ident 1 false None None) (PList l).
(** C36 is false if a list passed earlier is changed in place: the object still uses the statistics of the old contents. *)
Theorem C36_mutation_refuted : exists hist,
  calls ident columns hist fresh_cache <> map (fun k => snd (call ident columns (fst (fst k)) (snd (fst k)) (snd k) fresh_cache)) hist
  /\ FirstUniform None hist /\ Forall (fun k => snd (fst k) = Some 0) hist.
Proof.
  set (h0 := fun n : nat => match n with 0 => [Num (XR 0)] | _ => [Num (XR 1)] end). set (h1 := fun n : nat => match n with 0 => [Num (XR 7)] | _ => [Num (XR 1)] end).
  exists [(h0, Some 0, Some 1); (h1, Some 0, Some 1)]. split.
  - cbn [calls map fst snd]. cbv -[IZR]. intros E. injection E as E. lra.
  - split; [repeat constructor; discriminate | repeat constructor].
Qed.
Print Assumptions C36_mutation_refuted.
(** C36 is false if the shape of the observations changes: arrays of different lengths can compare equal by broadcasting (the old statistics are
    used and the call fails), or the comparison itself fails; so does the comparison of two empty lists. *)
Theorem C36_shape_refuted :
  (forall h x, h 0 = [Vec [XR x]] -> h 1 = [Vec [XR x; XR x]] ->
     nth_error (calls ident columns [(h, Some 0, Some 0); (h, Some 1, Some 1)] fresh_cache) 1 = Some (Err ValueError)
     /\ snd (call ident columns h (Some 1) (Some 1) fresh_cache) = Ok (mkmat 2 [[XR x; XR x]], mkmat 2 [[XR x; XR x]]))
  /\ (forall h x y z, h 0 = [Vec [XR x; XR y]] -> h 1 = [Vec [XR x; XR y; XR z]] ->
     nth_error (calls ident columns [(h, Some 0, Some 0); (h, Some 1, Some 1)] fresh_cache) 1 = Some (Err AttributeError)
     /\ snd (call ident columns h (Some 1) (Some 1) fresh_cache) = Ok (mkmat 3 [[XR x; XR y; XR z]], mkmat 3 [[XR x; XR y; XR z]]))
  /\ (forall h, h 0 = [] -> nth_error (calls ident columns [(h, Some 0, Some 0); (h, Some 0, Some 0)] fresh_cache) 1 = Some (Err IndexError)
     /\ snd (call ident columns h (Some 0) (Some 0) fresh_cache) = Ok (mkmat 1 [], mkmat 1 [])).
Proof.
  assert (Hx : forall x, xeqb (XR x) (XR x) = true) by (intros x; cbn; destruct (Req_EM_T x x); congruence).
  assert (H2 : forall h x, h 0 = [Vec [XR x]] -> h 1 = [Vec [XR x; XR x]] ->
     nth_error (calls ident columns [(h, Some 0, Some 0); (h, Some 1, Some 1)] fresh_cache) 1 = Some (Err ValueError)
     /\ snd (call ident columns h (Some 1) (Some 1) fresh_cache) = Ok (mkmat 2 [[XR x; XR x]], mkmat 2 [[XR x; XR x]])).
  { intros h x E0 E1. unfold calls, call, calc. cbn [fresh_cache c_ref c_s1 c_same]. rewrite E0, E1. cbn -[xeqb]. unfold compare. rewrite E0, E1. cbn -[xeqb]. rewrite Hx. cbn. auto. }
  split; [exact H2|split].
  - intros h x y z E0 E1. unfold calls, call, calc. cbn [fresh_cache c_ref c_s1 c_same]. rewrite E0, E1. cbn -[xeqb]. unfold compare. rewrite E0, E1. cbn -[xeqb]. auto.
  - intros h E0. unfold calls, call, calc. cbn [fresh_cache c_ref c_s1 c_same]. rewrite E0. cbn -[xeqb]. unfold compare. rewrite E0. cbn. auto.
Qed.
Print Assumptions C36_shape_refuted.

(** C37.  The value: the mean over all pairs of observations of the Euclidean distance of their statistics; an empty data set gives NaN. *)
Theorem C37_value : forall stat h a b p xs ys, stat (h a) = Ok (matR p xs) -> stat (h b) = Ok (matR p ys) ->
  (xs <> [] -> ys <> [] -> snd (call stat euclid h (Some a) (Some b) fresh_cache) = Ok (XR (mean_dist xs ys)))
  /\ (xs = [] \/ ys = [] -> snd (call stat euclid h (Some a) (Some b) fresh_cache) = Ok XNaN).
Proof.
  intros stat h a b p xs ys Ha Hb. rewrite (proj1 (C36_fresh stat xr euclid h a b)), Ha, Hb. cbn [matR mcols]. rewrite Nat.eqb_refl. split.
  - intros Hx Hy. apply euclid_fin; assumption.
  - intros H. unfold euclid, matR. cbn [mrows]. f_equal. assert (E : flat_map (fun x => map (ediff x) (map (map XR) ys)) (map (map XR) xs) = []).
    { destruct H as [-> | ->]; [reflexivity|]. cbn [map]. clear. induction xs; [reflexivity | assumption]. }
    rewrite E. unfold xmean, xsum. cbn. rewrite rsign_zero. reflexivity.
Qed.
Print Assumptions C37_value.
Open Scope R_scope.
(** C37.  Non-negative and symmetric; triangle inequality for all data sets; on single observations zero exactly if the statistics coincide. *)
Theorem C37_metric : forall p xs ys zs, xs <> [] -> ys <> [] -> zs <> [] ->
  Forall (fun v => length v = p) xs -> Forall (fun v => length v = p) ys -> Forall (fun v => length v = p) zs ->
  0 <= mean_dist xs ys /\ mean_dist xs ys = mean_dist ys xs /\ mean_dist xs zs <= mean_dist xs ys + mean_dist ys zs.
Proof.
  intros p xs ys zs Hx Hy Hz Fx Fy Fz. pose proof (INR_len_pos xs Hx) as Px. pose proof (INR_len_pos ys Hy) as Py. pose proof (INR_len_pos zs Hz) as Pz.
  rewrite !mean_psum. split.
  { apply Rmult_le_pos; [|apply Rlt_le, Rinv_0_lt_compat, Rmult_lt_0_compat; assumption]. apply total_nonneg, Forall_map, Forall_forall. intros x _. apply total_nonneg, Forall_map, Forall_forall. intros y _. apply vdist_nn. }
  split; [rewrite psum_sym, Rmult_comm; reflexivity|].
  pose proof (psum_triangle p xs ys zs Fx Fy Fz) as H. set (X := INR (length xs)) in *. set (Y := INR (length ys)) in *. set (Z := INR (length zs)) in *.
  apply (Rmult_le_reg_r (X * Y * Z)); [repeat apply Rmult_lt_0_compat; assumption|].
  replace (psum vdist xs zs / (X * Z) * (X * Y * Z)) with (Y * psum vdist xs zs) by (field; split; apply Rgt_not_eq; assumption).
  replace ((psum vdist xs ys / (X * Y) + psum vdist ys zs / (Y * Z)) * (X * Y * Z)) with (Z * psum vdist xs ys + X * psum vdist ys zs) by (field; repeat split; apply Rgt_not_eq; assumption).
  exact H.
Qed.
Print Assumptions C37_metric.
Theorem C37_single : forall x y, length x = length y -> (mean_dist [x] [y] = 0 <-> x = y).
Proof.
  intros x y Hl. rewrite mean_psum. unfold psum. cbn [map total fold_right length INR]. rewrite !Rplus_0_r, Rmult_1_r. unfold Rdiv. rewrite Rinv_1, Rmult_1_r. rewrite vdist_sq. rewrite <- sq_zero by exact Hl. split.
  - intros E. apply sqrt_eq_0; [apply sq_nn | exact E].
  - intros ->. apply sqrt_0.
Qed.
Print Assumptions C37_single.
(** For several observations the distance of a data set to itself is positive, unless all its statistics coincide. *)
Theorem C37_self_refuted : mean_dist [[0]; [1]] [[0]; [1]] = 1 / 2.
Proof.
  rewrite mean_psum. unfold psum. cbn [map total fold_right length INR]. unfold vdist. cbn [map combine fst snd]. rewrite !total_cons. change (total []) with 0.
  replace ((0 - 0) ^ 2 + 0) with 0 by ring. replace ((0 - 1) ^ 2 + 0) with 1 by ring. replace ((1 - 0) ^ 2 + 0) with 1 by ring. replace ((1 - 1) ^ 2 + 0) with 0 by ring. rewrite sqrt_0, sqrt_1. field.
Qed.
Print Assumptions C37_self_refuted.

(** Cases. *)
Open Scope nat_scope.
Definition h_ex : heap := fun n => match n with 0 => [Num (XR 0); Num (XR 1)] | 1 => [Num (XR 5)] | _ => [Num (XR 2)] end.
Example C36_case : FirstUniform None [(h_ex, Some 0, Some 1); (h_ex, Some 2, Some 0); (h_ex, None, Some 0); (h_ex, Some 0, Some 0)]
  /\ NoMutation [(h_ex, Some 0, Some 1); (h_ex, Some 2, Some 0); (h_ex, None, Some 0); (h_ex, Some 0, Some 0)].
Proof. split; [repeat constructor; discriminate | repeat constructor]. Qed.
Example C37_case : exists p xs ys, ident (h_ex 0) = Ok (matR p xs) /\ ident (h_ex 1) = Ok (matR p ys) /\ xs <> [] /\ ys <> [] /\ length xs = 2.
Proof. exists 1, [[0]; [1]]%R, [[5]]%R. split; [reflexivity|]. split; [reflexivity|]. split; [discriminate|]. split; [discriminate | reflexivity]. Qed.
