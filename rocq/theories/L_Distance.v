(** Proofs about the distance cache and the Euclidean distance. *)
From Coq Require Import Reals Lra.
From Verif Require Import M_Base M_Num M_XReal L_PMC M_Stats S_Stats L_Stats M_Distance S_Distance.
Open Scope nat_scope.

Lemma xeqb_eq a b : xeqb a b = true -> a = b.
Proof. destruct a, b; cbn; try discriminate; try reflexivity. destruct (Req_EM_T r r0); [congruence | discriminate]. Qed.
Lemma eqs_eq : forall a b, length a = length b -> eqs a b = true -> a = b.
Proof.
  induction a as [|x a IH]; intros [|y b] Hl H; try discriminate; [reflexivity|]. cbn in H. apply andb_true_iff in H. destruct H as [H1 H2]. rewrite (xeqb_eq _ _ H1), (IH b) by (assumption || (cbn in Hl; lia)). reflexivity.
Qed.
Lemma arr_inj a b : shape_of a = shape_of b -> arr a = arr b -> a = b.
Proof. destruct a, b; cbn; intros H E; congruence. Qed.
Lemma arr_len a b : shape_of a = shape_of b -> length (arr a) = length (arr b).
Proof. destruct a, b; cbn; intros H; congruence. Qed.

Lemma all_branch_ok sh : forall d0 d1, Forall (fun d => shape_of d = sh) d0 -> Forall (fun d => shape_of d = sh) d1 -> length d0 = length d1 ->
  exists t, all_branch d0 d1 = Ok t /\ (t = true -> d0 = d1).
Proof.
  induction d0 as [|a d0 IH]; intros [|b d1] H0 H1 Hl; try discriminate; [exists true; auto|].
  pose proof (Forall_inv H0) as Ha. pose proof (Forall_inv H1) as Hb. cbv beta in Ha, Hb. assert (Hs : shape_of a = shape_of b) by congruence.
  destruct (IH d1 (Forall_inv_tail H0) (Forall_inv_tail H1) ltac:(cbn in Hl; lia)) as (t & Et & Ht). cbn [all_branch]. unfold all_same. rewrite (arr_len a b Hs), Nat.eqb_refl, Et.
  eexists. split; [reflexivity|]. intros E. apply andb_true_iff in E. destruct E as [E1 E2]. apply eqs_eq in E1; [|apply arr_len; exact Hs]. rewrite (arr_inj a b Hs E1), (Ht E2). reflexivity.
Qed.
Lemma list_branch_ok sh : forall d0 d1, Forall (fun d => shape_of d = sh) d0 -> Forall (fun d => shape_of d = sh) d1 -> length d0 = length d1 -> (sh = None \/ sh = Some 1) ->
  exists t, list_branch d0 d1 = Ok t /\ (t = true -> d0 = d1).
Proof.
  induction d0 as [|a d0 IH]; intros [|b d1] H0 H1 Hl Hsh; try discriminate; [exists true; auto|].
  pose proof (Forall_inv H0) as Ha. pose proof (Forall_inv H1) as Hb. cbv beta in Ha, Hb. assert (Hs : shape_of a = shape_of b) by congruence.
  destruct (IH d1 (Forall_inv_tail H0) (Forall_inv_tail H1) ltac:(cbn in Hl; lia) Hsh) as (t & Et & Ht). cbn [list_branch]. unfold truth.
  assert (Hla : exists u, arr a = [u]).
  { destruct a as [x|[|u [|v l]]]; cbn in Ha |- *; [eauto | | eauto |]; destruct Hsh; congruence. }
  assert (Hlb : exists u, arr b = [u]).
  { destruct b as [x|[|u [|v l]]]; cbn in Hb |- *; [eauto | | eauto |]; destruct Hsh; congruence. }
  destruct Hla as (u & Eu), Hlb as (v & Ev). rewrite Eu, Ev. destruct (xeqb u v) eqn:E.
  - exists t. split; [exact Et|]. intros E2. apply xeqb_eq in E. rewrite (arr_inj a b Hs ltac:(congruence)), (Ht E2). reflexivity.
  - exists false. split; [reflexivity | discriminate].
Qed.
Lemma compare_ok sh h ds a : Uniform sh (h ds) -> Uniform sh (h a) -> exists t, compare h ds a = Ok t /\ (t = true -> h ds = h a).
Proof.
  intros [Hn0 H0] [Hn1 H1]. unfold compare. destruct (Nat.eqb_spec (length (h a)) (length (h ds))) as [El|]; [|exists false; split; [reflexivity | discriminate]]. cbn [negb].
  remember (h a) as d1 eqn:E1. destruct d1 as [|x d1]; [congruence|]. destruct (Nat.eqb_spec (length (arr x)) 1) as [Ex|Ex].
  - destruct (Nat.eqb_spec ds a) as [->|]; [exists true; split; [reflexivity | congruence]|].
    apply (list_branch_ok sh); [exact H0 | exact H1 | congruence|]. pose proof (Forall_inv H1) as Hx. cbv beta in Hx. destruct x as [y|l]; cbn in Hx, Ex; [left; congruence | right; congruence].
  - apply (all_branch_ok sh); [exact H0 | exact H1 | congruence].
Qed.

Section Cache.
Variable stat : list datum -> res mat.
Definition good (sh : option nat) (rest : list (heap * arg * arg)) (c : cache) : Prop :=
  match c_s1 c, c_ref c with
  | None, None => c_same c = false
  | Some s, Some p => exists d, stat d = Ok s /\ Uniform sh d /\ Forall (fun k => fst (fst k) p = d) rest
  | _, _ => False
  end.
Lemma call_spec {V} (f : mat -> mat -> res V) sh h a1 a2 rest c :
  good sh ((h, a1, a2) :: rest) c -> match a1 with Some p => Uniform sh (h p) | None => True end ->
  (match a1 with Some p => Forall (fun k => fst (fst k) p = h p) rest | None => True end) ->
  exists c', call stat f h a1 a2 c = (c', snd (call stat f h a1 a2 fresh_cache)) /\ good sh rest c'.
Proof.
  intros Hg Hu Hm. assert (Hg0 : good sh rest c).
  { unfold good in *. destruct (c_s1 c), (c_ref c); try assumption. destruct Hg as (d & E & Hd & Hf). exists d. split; [exact E|]. split; [exact Hd | exact (Forall_inv_tail Hf)]. }
  unfold call, calc. destruct a1 as [p1|]; [|exists c; split; [reflexivity | exact Hg0]]. destruct a2 as [p2|]; [|exists c; split; [reflexivity | exact Hg0]].
  cbn [c_ref c_s1 fresh_cache c_same].
  assert (Hcase : exists same, (match c_ref c with None => Ok (c_same c) | Some ds => compare h ds p1 end) = Ok same
     /\ (forall s, c_s1 c = Some s -> same = true -> stat (h p1) = Ok s)
     /\ good sh rest (mkcache (c_s1 c) (c_ref c) same)).
  { unfold good in Hg, Hg0 |- *. cbn [c_s1 c_ref c_same]. destruct (c_s1 c) as [s|], (c_ref c) as [ds|]; try contradiction.
    - destruct Hg as (d & E & Hd & Hf). pose proof (Forall_inv Hf) as Eh. cbn [fst] in Eh. destruct (compare_ok sh h ds p1) as (t & Et & Ht); [rewrite Eh; exact Hd | exact Hu|].
      exists t. split; [exact Et|]. split; [intros s0 Hs Hsame; injection Hs as <-; rewrite <- (Ht Hsame), Eh; exact E|]. exact Hg0.
    - exists false. rewrite Hg. split; [reflexivity|]. split; [discriminate | reflexivity]. }
  destruct Hcase as (same & -> & Hs & Hgc).
  assert (Hnew : forall s same', stat (h p1) = Ok s -> good sh rest (mkcache (Some s) (Some p1) same')).
  { intros s same' E. unfold good. cbn [c_s1 c_ref]. exists (h p1). split; [exact E|]. split; [exact Hu | exact Hm]. }
  destruct (c_s1 c) as [s|] eqn:Es.
  - destruct same.
    + rewrite (Hs s eq_refl eq_refl). destruct (stat (h p2)) as [s2|]; cbn [snd]; [destruct (negb (mcols s =? mcols s2))|]; eexists; (split; [reflexivity|]); exact Hgc.
    + destruct (stat (h p1)) as [s1|] eqn:E1; [|eexists; split; [reflexivity | exact Hgc]]. destruct (stat (h p2)) as [s2|]; cbn [snd]; [destruct (negb (mcols s1 =? mcols s2))|]; eexists; (split; [reflexivity|]); apply Hnew; reflexivity.
  - destruct (stat (h p1)) as [s1|] eqn:E1.
    + destruct (stat (h p2)) as [s2|]; cbn [snd]; [destruct (negb (mcols s1 =? mcols s2))|]; eexists; (split; [reflexivity|]); apply Hnew; reflexivity.
    + eexists. split; [reflexivity|]. exact Hgc.
Qed.
Lemma calls_spec {V} (f : mat -> mat -> res V) sh hist : forall c, good sh hist c -> FirstUniform sh hist -> NoMutation hist ->
  calls stat f hist c = map (fun k => snd (call stat f (fst (fst k)) (snd (fst k)) (snd k) fresh_cache)) hist.
Proof.
  induction hist as [|[[h a1] a2] rest IH]; intros c Hg Hu Hm; [reflexivity|]. cbn [calls map fst snd]. inversion Hm as [|x l Hm1 Hm2]; subst x l.
  destruct (call_spec f sh h a1 a2 rest c Hg (Forall_inv Hu)) as (c' & -> & Hg'); [cbn [fst snd] in Hm1; destruct a1; [exact Hm1 | exact I]|].
  f_equal. apply IH; [exact Hg' | exact (Forall_inv_tail Hu) | exact Hm2].
Qed.
End Cache.

(** real analysis *)
Open Scope R_scope.
Lemma total_app a b : total (a ++ b) = total a + total b.
Proof. induction a as [|x a IH]; [change (total []) with 0; cbn [app]; lra|]. cbn [app]. change (total (x :: a)) with (x + total a). change (total (x :: a ++ b)) with (x + total (a ++ b)). lra. Qed.
Definition sq (x y : list R) : R := total (map (fun ab => (fst ab - snd ab) ^ 2) (combine x y)).
Lemma sq_nn x y : 0 <= sq x y.
Proof. apply total_nonneg. apply Forall_map, Forall_forall. intros ab _. apply sq_nonneg. Qed.
Lemma vdist_sq x y : vdist x y = sqrt (sq x y).
Proof. reflexivity. Qed.
Lemma vdist_nn x y : 0 <= vdist x y.
Proof. apply sqrt_pos. Qed.
Lemma sq_sym : forall x y, sq x y = sq y x.
Proof.
  induction x as [|a x IH]; intros [|b y]; try reflexivity. unfold sq in *. cbn [combine map fst snd]. change (total (?u :: ?v)) with (u + total v).
  replace (total (((a - b) ^ 2) :: map (fun ab => (fst ab - snd ab) ^ 2) (combine x y))) with ((a - b) ^ 2 + total (map (fun ab => (fst ab - snd ab) ^ 2) (combine x y))) by reflexivity.
  replace (total (((b - a) ^ 2) :: map (fun ab => (fst ab - snd ab) ^ 2) (combine y x))) with ((b - a) ^ 2 + total (map (fun ab => (fst ab - snd ab) ^ 2) (combine y x))) by reflexivity.
  rewrite IH. ring.
Qed.
Lemma sq_cons a b x y : sq (a :: x) (b :: y) = (a - b) ^ 2 + sq x y.
Proof. reflexivity. Qed.
Lemma sq_zero : forall x y, length x = length y -> sq x y = 0 <-> x = y.
Proof.
  induction x as [|a x IH]; intros [|b y] Hl; try discriminate; [split; reflexivity|]. rewrite sq_cons. pose proof (sq_nn x y) as H1. pose proof (sq_nonneg (a - b)) as H2. split.
  - intros E. assert (E1 : (a - b) ^ 2 = 0) by lra. assert (E2 : sq x y = 0) by lra. apply IH in E2; [|cbn in Hl; lia]. assert (a = b). { assert ((a - b) * (a - b) = 0) as H0 by (rewrite <- E1; ring). apply Rmult_integral in H0. lra. } congruence.
  - intros E. injection E as -> ->. rewrite (proj2 (IH y eq_refl) eq_refl). ring.
Qed.
(** Cauchy-Schwarz and Minkowski *)
Definition dotl (x y : list R) : R := total (map (fun ab => fst ab * snd ab) (combine x y)).
Lemma dotl_cons a b x y : dotl (a :: x) (b :: y) = a * b + dotl x y.
Proof. reflexivity. Qed.
Lemma dotl_self x : 0 <= dotl x x.
Proof. induction x as [|a x IH]; [cbn; lra|]. rewrite dotl_cons. nra. Qed.
Lemma cauchy : forall x y, length x = length y -> dotl x y * dotl x y <= dotl x x * dotl y y.
Proof.
  induction x as [|a x IH]; intros [|b y] Hl; try discriminate; [cbn; lra|]. rewrite !dotl_cons. specialize (IH y ltac:(cbn in Hl; lia)).
  pose proof (dotl_self x) as HA. pose proof (dotl_self y) as HB. set (A := dotl x x) in *. set (B := dotl y y) in *. set (C := dotl x y) in *.
  assert (H : 2 * (a * b * C) <= a * a * B + b * b * A).
  { set (X := a * a * B + b * b * A). set (Y := 2 * (a * b * C)). assert (HX : 0 <= X) by (unfold X; pose proof (Rle_0_sqr a); pose proof (Rle_0_sqr b); unfold Rsqr in *; nra).
    assert (HY : Y * Y <= X * X).
    { unfold X, Y. assert (E : (a * a * B + b * b * A) * (a * a * B + b * b * A) - 2 * (a * b * C) * (2 * (a * b * C)) = (a * a * B - b * b * A) * (a * a * B - b * b * A) + 4 * ((a * b) * (a * b)) * (A * B - C * C)) by ring.
      pose proof (Rle_0_sqr (a * a * B - b * b * A)) as H1. unfold Rsqr in H1. assert (H2 : 0 <= (a * b) * (a * b)) by (apply Rle_0_sqr). assert (H3 : 0 <= A * B - C * C) by lra. pose proof (Rmult_le_pos _ _ H2 H3). lra. }
    destruct (Rle_or_lt Y X) as [|Hlt]; [assumption|]. exfalso. assert (X * X < Y * Y) by nra. lra. }
  nra.
Qed.
Definition vsub (x y : list R) : list R := map (fun ab => fst ab - snd ab) (combine x y).
Lemma sq_dot x y : sq x y = dotl (vsub x y) (vsub x y).
Proof.
  unfold vsub. revert y. induction x as [|a x IH]; intros [|b y]; try reflexivity. rewrite sq_cons. cbn [combine map fst snd]. rewrite dotl_cons, <- IH. ring.
Qed.
Lemma sq_expand : forall x y z, length x = length y -> length y = length z ->
  sq x z = sq x y + 2 * dotl (vsub x y) (vsub y z) + sq y z.
Proof.
  induction x as [|a x IH]; intros [|b y] [|c z] H1 H2; try discriminate; [cbn; lra|]. rewrite !sq_cons. unfold vsub. cbn [combine map fst snd]. rewrite dotl_cons. fold (vsub x y). fold (vsub y z).
  rewrite (IH y z) by (cbn in *; lia). ring.
Qed.
Lemma vdist_triangle x y z : length x = length y -> length y = length z -> vdist x z <= vdist x y + vdist y z.
Proof.
  intros H1 H2. rewrite !vdist_sq. pose proof (sq_nn x y) as Ha. pose proof (sq_nn y z) as Hb. pose proof (sq_nn x z) as Hc.
  pose proof (sqrt_pos (sq x y)) as Sa. pose proof (sqrt_pos (sq y z)) as Sb. apply Rsqr_incr_0_var; [|lra]. rewrite Rsqr_sqrt by exact Hc. unfold Rsqr.
  assert (Ea : sqrt (sq x y) * sqrt (sq x y) = sq x y) by (apply sqrt_def; exact Ha). assert (Eb : sqrt (sq y z) * sqrt (sq y z) = sq y z) by (apply sqrt_def; exact Hb).
  rewrite (sq_expand x y z H1 H2). assert (Hd : dotl (vsub x y) (vsub y z) <= sqrt (sq x y) * sqrt (sq y z)).
  { assert (Hl : length (vsub x y) = length (vsub y z)) by (unfold vsub; rewrite !map_length, !combine_length; lia). pose proof (cauchy _ _ Hl) as Hcs. rewrite <- !sq_dot in Hcs.
    set (P := sqrt (sq x y) * sqrt (sq y z)). assert (HP : 0 <= P) by (apply Rmult_le_pos; assumption). assert (EP : P * P = sq x y * sq y z) by (unfold P; nra).
    destruct (Rle_or_lt (dotl (vsub x y) (vsub y z)) P); [assumption|]. exfalso. nra. }
  nra.
Qed.

(** averages over pairs *)
Lemma flat_len {A B C} (f : A -> B -> C) xs ys : length (flat_map (fun x => map (f x) ys) xs) = (length xs * length ys)%nat.
Proof. induction xs as [|x xs IH]; cbn; [reflexivity|]. rewrite app_length, map_length, IH. reflexivity. Qed.
Definition psum (f : list R -> list R -> R) (xs ys : list (list R)) : R := total (map (fun x => total (map (f x) ys)) xs).
Lemma psum_flat f xs ys : total (flat_map (fun x => map (f x) ys) xs) = psum f xs ys.
Proof. unfold psum. induction xs as [|x xs IH]; [reflexivity|]. cbn [flat_map map]. rewrite total_app, IH. reflexivity. Qed.
Lemma mean_psum xs ys : mean_dist xs ys = psum vdist xs ys / (INR (length xs) * INR (length ys)).
Proof. unfold mean_dist, average. rewrite psum_flat, flat_len, mult_INR. reflexivity. Qed.
Lemma total_cons x l : total (x :: l) = x + total l.
Proof. reflexivity. Qed.
Lemma total_plus {A} (f g : A -> R) l : total (map (fun x => f x + g x) l) = total (map f l) + total (map g l).
Proof. induction l as [|x l IH]; [cbn; lra|]. cbn [map]. rewrite !total_cons, IH. lra. Qed.
Lemma total_scale {A} (f : A -> R) k l : total (map (fun x => k * f x) l) = k * total (map f l).
Proof. induction l as [|x l IH]; [cbn; lra|]. cbn [map]. rewrite !total_cons, IH. lra. Qed.
Lemma total_le {A} (f g : A -> R) l : (forall x, In x l -> f x <= g x) -> total (map f l) <= total (map g l).
Proof. induction l as [|x l IH]; intros H; [cbn; lra|]. cbn [map]. rewrite !total_cons. pose proof (H x (or_introl eq_refl)). specialize (IH (fun y Hy => H y (or_intror Hy))). lra. Qed.
Lemma total_const {A} k (l : list A) : total (map (fun _ => k) l) = INR (length l) * k.
Proof. induction l as [|x l IH]; [cbn; lra|]. cbn [map length]. rewrite total_cons, IH, S_INR. ring. Qed.
Lemma total_swap {A B} (f : A -> B -> R) xs ys : total (map (fun x => total (map (f x) ys)) xs) = total (map (fun y => total (map (fun x => f x y) xs)) ys).
Proof.
  induction xs as [|x xs IH]; [cbn [map]; change (fun y : B => total []) with (fun _ : B => 0); rewrite total_const; change (total []) with 0; ring|].
  cbn [map]. rewrite total_cons, IH. rewrite <- total_plus. apply f_equal. apply map_ext. intros y. rewrite total_cons. reflexivity.
Qed.
Lemma psum_triangle p xs ys zs : Forall (fun v => length v = p) xs -> Forall (fun v => length v = p) ys -> Forall (fun v => length v = p) zs ->
  INR (length ys) * psum vdist xs zs <= INR (length zs) * psum vdist xs ys + INR (length xs) * psum vdist ys zs.
Proof.
  intros Hx Hy Hz. rewrite Forall_forall in Hx, Hy, Hz.
  (* sum over all triples *)
  assert (H : total (map (fun x => total (map (fun z => total (map (fun y => vdist x z) ys)) zs)) xs)
     <= total (map (fun x => total (map (fun z => total (map (fun y => vdist x y + vdist y z) ys)) zs)) xs)).
  { apply total_le. intros x Hix. apply total_le. intros z Hiz. apply total_le. intros y Hiy. apply vdist_triangle; [rewrite (Hx x Hix), (Hy y Hiy) | rewrite (Hy y Hiy), (Hz z Hiz)]; reflexivity. }
  assert (E1 : total (map (fun x => total (map (fun z => total (map (fun y => vdist x z) ys)) zs)) xs) = INR (length ys) * psum vdist xs zs).
  { unfold psum. rewrite <- total_scale. apply f_equal, map_ext. intros x. rewrite <- total_scale. apply f_equal, map_ext. intros z. apply total_const. }
  assert (E2 : total (map (fun x => total (map (fun z => total (map (fun y => vdist x y + vdist y z) ys)) zs)) xs) = INR (length zs) * psum vdist xs ys + INR (length xs) * psum vdist ys zs).
  { unfold psum. rewrite <- total_scale. rewrite <- (total_const (total (map (fun x => total (map (vdist x) zs)) ys)) xs). rewrite <- total_plus. apply f_equal, map_ext. intros x.
    rewrite <- (total_const (total (map (vdist x) ys)) zs). rewrite (total_swap vdist ys zs). rewrite <- total_plus. apply f_equal, map_ext. intros z. apply total_plus. }
  lra.
Qed.
Lemma psum_sym xs ys : psum vdist xs ys = psum vdist ys xs.
Proof. unfold psum. rewrite total_swap. apply f_equal, map_ext. intros y. apply f_equal, map_ext. intros x. rewrite !vdist_sq, sq_sym. reflexivity. Qed.

(** the model on real data *)
Lemma ediff_fin x y : ediff (map XR x) (map XR y) = XR (vdist x y).
Proof.
  unfold ediff. replace (map (fun ab => xpow (xsub (fst ab) (snd ab)) 2) (combine (map XR x) (map XR y))) with (map XR (map (fun ab => (fst ab - snd ab) ^ 2) (combine x y))).
  - rewrite xsum_fin. rewrite total_rsum. fold (sq x y). rewrite xsqrt_fin by apply sq_nn. reflexivity.
  - rewrite map_map. revert y. induction x as [|a x IH]; intros [|b y]; try reflexivity. cbn [map combine fst snd]. f_equal; [cbn; f_equal; ring | apply IH].
Qed.
Lemma euclid_fin p q xs ys : xs <> [] -> ys <> [] -> euclid (matR p xs) (matR q ys) = Ok (XR (mean_dist xs ys)).
Proof.
  intros Hx Hy. unfold euclid, matR. cbn [mrows]. f_equal. unfold mean_dist. rewrite <- xmean_fin.
  2:{ intros E. apply (f_equal (@length R)) in E. rewrite flat_len in E. cbn in E. destruct xs; [congruence|]. destruct ys; [congruence|]. discriminate. }
  f_equal. clear Hx Hy. induction xs as [|x xs IH]; [reflexivity|]. cbn [map flat_map]. rewrite map_app, IH. f_equal. rewrite !map_map. apply map_ext. intros y. apply ediff_fin.
Qed.
