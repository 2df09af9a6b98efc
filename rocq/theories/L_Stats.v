(** Proofs about the summary statistics. *)
From Coq Require Import Reals Lra.
From Verif Require Import M_Base M_Num M_XReal L_PMC M_Stats S_Stats.
Open Scope nat_scope.

Lemma nth_error_map' {A B} (f : A -> B) l n : nth_error (map f l) n = match nth_error l n with Some x => Some (f x) | None => None end.
Proof. revert n; induction l as [|x l IH]; intros [|n]; cbn; auto. Qed.
Lemma combine_map2 {A B C} (f : A -> B) (g : A -> C) l : combine (map f l) (map g l) = map (fun x => (f x, g x)) l.
Proof. induction l as [|x l IH]; cbn; [reflexivity | rewrite IH; reflexivity]. Qed.
Lemma colstack_map a b (f g : list xr -> list xr) l : colstack (mkmat a (map f l)) (mkmat b (map g l)) = mkmat (a + b) (map (fun r => f r ++ g r) l).
Proof. unfold colstack. cbn [mcols mrows]. rewrite combine_map2, map_map. reflexivity. Qed.

Definition pows (n : nat) (row : list xr) : list xr := flat_map (fun k => map (fun x => xpow x k) row) (seq 2 n).
Definition crossrow (p : nat) (row : list xr) : list xr :=
  flat_map (fun i => map (fun j => xmul (nth i row XNaN) (nth j row XNaN)) (seq (S i) (p - S i))) (seq 0 p).
Lemma poly_pows m n : forall s (f : list xr -> list xr) w,
  fold_left (fun r ind => colstack r (mkmat (mcols m) (map (map (fun x => xpow x ind)) (mrows m)))) (seq s n) (mkmat w (map f (mrows m)))
  = mkmat (w + n * mcols m) (map (fun r => f r ++ flat_map (fun k => map (fun x => xpow x k) r) (seq s n)) (mrows m)).
Proof.
  induction n as [|n IH]; intros s f w; cbn [seq fold_left].
  - f_equal; [lia|]. apply map_ext. intros r. cbn. rewrite app_nil_r. reflexivity.
  - rewrite colstack_map, IH. f_equal; [lia|]. apply map_ext. intros r. cbn [flat_map]. rewrite app_assoc. reflexivity.
Qed.
Lemma poly_inner m i l : forall (f : list xr -> list xr) w,
  fold_left (fun r ind2 => colstack r (prodcol m i ind2)) l (mkmat w (map f (mrows m)))
  = mkmat (w + length l) (map (fun r => f r ++ map (fun j => xmul (nth i r XNaN) (nth j r XNaN)) l) (mrows m)).
Proof.
  induction l as [|j l IH]; intros f w; cbn [fold_left length].
  - f_equal; [lia|]. apply map_ext. intros r. cbn. rewrite app_nil_r. reflexivity.
  - unfold prodcol at 2. rewrite colstack_map, IH. f_equal; [lia|]. apply map_ext. intros r. cbn [map]. rewrite <- app_assoc. reflexivity.
Qed.
Definition pairs_upto (p : nat) (l : list nat) : nat := fold_right (fun i acc => (p - S i) + acc) 0 l.
Lemma poly_outer m l : forall (f : list xr -> list xr) w,
  fold_left (fun r ind1 => fold_left (fun r ind2 => colstack r (prodcol m ind1 ind2)) (seq (S ind1) (mcols m - S ind1)) r) l (mkmat w (map f (mrows m)))
  = mkmat (w + pairs_upto (mcols m) l) (map (fun r => f r ++ flat_map (fun i => map (fun j => xmul (nth i r XNaN) (nth j r XNaN)) (seq (S i) (mcols m - S i))) l) (mrows m)).
Proof.
  induction l as [|i l IH]; intros f w; cbn [fold_left pairs_upto fold_right].
  - f_equal; [lia|]. apply map_ext. intros r. cbn. rewrite app_nil_r. reflexivity.
  - rewrite poly_inner, IH, seq_length. f_equal; [unfold pairs_upto; lia|]. apply map_ext. intros r. cbn [flat_map]. rewrite app_assoc. reflexivity.
Qed.
Lemma pairs_sum p k : forall s, s + k <= p -> 2 * pairs_upto p (seq s k) = k * (2 * p - 2 * s - k - 1).
Proof.
  induction k as [|k IH]; intros s H; [reflexivity|]. cbn [seq pairs_upto fold_right]. specialize (IH (S s) ltac:(lia)). fold (pairs_upto p (seq (S s) k)). rewrite Nat.mul_add_distr_l, IH. nia.
Qed.
Lemma pairs_closed p k : k <= p -> pairs_upto p (seq 0 k) = k * (2 * p - k - 1) / 2.
Proof. intros H. pose proof (pairs_sum p k 0 ltac:(lia)) as E. rewrite Nat.mul_0_r, Nat.sub_0_r in E. rewrite <- E, (Nat.mul_comm 2 (pairs_upto p (seq 0 k))). symmetry. apply Nat.div_mul. discriminate. Qed.
Lemma pairs_all p : pairs_upto p (seq 0 p) = p * (p - 1) / 2.
Proof. rewrite (pairs_closed p p) by lia. f_equal. f_equal. lia. Qed.

Definition full (degree : nat) (cross : bool) (p : nat) (row : list xr) : list xr := (row ++ pows (degree - 1) row) ++ (if cross then crossrow p row else []).
Lemma poly_full degree cross m : poly degree cross m =
  mkmat (mcols m * Nat.max degree 1 + (if cross then mcols m * (mcols m - 1) / 2 else 0)) (map (full degree cross (mcols m)) (mrows m)).
Proof.
  unfold poly. assert (E : m = mkmat (mcols m) (map (fun r => r) (mrows m))) by (rewrite map_id; destruct m; reflexivity).
  pose proof (poly_pows m (degree - 1) 2 (fun r => r) (mcols m)) as P. rewrite <- E in P. rewrite P. clear P E. cbn zeta.
  assert (Hd : mcols m + (degree - 1) * mcols m = mcols m * Nat.max degree 1) by nia. rewrite Hd. clear Hd.
  destruct cross; cbn [andb].
  - destruct (Nat.ltb_spec 1 (mcols m)) as [Hp|Hp].
    + rewrite poly_outer, pairs_all. reflexivity.
    + f_equal; [|apply map_ext; intros r; unfold full, pows, crossrow].
      * destruct (mcols m) as [|[|p]]; [cbn; lia | change (1 * (1 - 1) / 2) with 0; lia | lia].
      * rewrite <- (app_nil_r (r ++ _)) at 1. f_equal. destruct (mcols m) as [|[|p]]; [reflexivity | reflexivity | lia].
  - f_equal; [lia|]. apply map_ext. intros r. unfold full, pows. rewrite app_nil_r. reflexivity.
Qed.

Lemma flat_map_block {B} (g : nat -> list B) p (l : list nat) : (forall k, length (g k) = p) -> forall k j t, nth_error l k = Some t -> j < p ->
  nth_error (flat_map g l) (k * p + j) = nth_error (g t) j.
Proof.
  intros Hg. induction l as [|i l IH]; intros [|k] j t Hk Hj; cbn [nth_error] in Hk; try discriminate; cbn [flat_map].
  - injection Hk as ->. rewrite nth_error_app1; [reflexivity | rewrite Hg; exact Hj].
  - rewrite nth_error_app2 by (rewrite Hg; cbn; lia). rewrite Hg. replace (S k * p + j - p) with (k * p + j) by (cbn; lia). apply IH; assumption.
Qed.
Lemma nth_error_seq' s n k : k < n -> nth_error (seq s n) k = Some (s + k).
Proof. revert s k; induction n as [|n IH]; intros s [|k] H; cbn; [lia | lia | f_equal; lia | rewrite IH by lia; f_equal; lia]. Qed.
Lemma iter_pow x k : Nat.iter k (xmul x) x = xpow x (S k).
Proof. induction k as [|k IH]; [reflexivity|]. cbn [Nat.iter nat_rect] in *. unfold Nat.iter in IH. rewrite IH. reflexivity. Qed.
Lemma pows_len n row : length (pows n row) = n * length row.
Proof. unfold pows. generalize 2. induction n as [|n IH]; intros s; cbn; [reflexivity | rewrite app_length, map_length, IH; reflexivity]. Qed.
Lemma flat_pairs_len p row : forall l, length (flat_map (fun i => map (fun j => xmul (nth i row XNaN) (nth j row XNaN)) (seq (S i) (p - S i))) l) = pairs_upto p l.
Proof. induction l as [|i l IH]; [reflexivity|]. cbn [flat_map]. rewrite app_length, map_length, seq_length, IH. reflexivity. Qed.
Lemma cross_len p row : length (crossrow p row) = p * (p - 1) / 2.
Proof. unfold crossrow. rewrite flat_pairs_len. apply pairs_all. Qed.
Lemma cross_nth p row a b x y : length row = p -> a < b -> nth_error row a = Some x -> nth_error row b = Some y ->
  nth_error (crossrow p row) (a * (2 * p - a - 1) / 2 + (b - a - 1)) = Some (xmul x y).
Proof.
  intros Hl Hab Ha Hb. assert (Hbp : b < p) by (rewrite <- Hl; apply nth_error_Some; congruence).
  unfold crossrow. assert (Es : seq 0 p = seq 0 a ++ seq a (p - a)) by (replace p with (a + (p - a)) at 1 by lia; rewrite seq_app; reflexivity). rewrite Es, flat_map_app.
  rewrite <- (pairs_closed p a) by lia. rewrite nth_error_app2 by (rewrite flat_pairs_len; lia). rewrite flat_pairs_len.
  replace (pairs_upto p (seq 0 a) + (b - a - 1) - pairs_upto p (seq 0 a)) with (b - a - 1) by lia.
  replace (p - a) with (S (p - S a)) by lia. cbn [seq flat_map]. rewrite nth_error_app1 by (rewrite map_length, seq_length; lia).
  rewrite nth_error_map', nth_error_seq' by lia. replace (S a + (b - a - 1)) with b by lia. rewrite (nth_error_nth _ _ _ Ha), (nth_error_nth _ _ _ Hb). reflexivity.
Qed.
Lemma poly_spec d c m : Rect m -> Expanded d c m (poly d c m).
Proof.
  intros Hr. unfold Expanded. cbv zeta. rewrite poly_full. cbn [mcols mrows]. split; [reflexivity|]. split; [apply map_length|].
  intros i row Hi. exists (full d c (mcols m) row). rewrite nth_error_map', Hi. split; [reflexivity|].
  assert (Hl : length row = mcols m) by (unfold Rect in Hr; rewrite Forall_forall in Hr; apply Hr; eapply nth_error_In; exact Hi).
  assert (Hlp : length (row ++ pows (d - 1) row) = mcols m * Nat.max d 1) by (rewrite app_length, pows_len, Hl; nia).
  split; [unfold full; rewrite app_length, Hlp; destruct c; [rewrite cross_len|]; reflexivity|].
  split.
  - intros k j x Hk Hj. assert (Hjp : j < mcols m) by (rewrite <- Hl; apply nth_error_Some; congruence). unfold full.
    rewrite nth_error_app1 by (rewrite Hlp; nia). destruct k as [|k].
    + cbn [Nat.mul Nat.add Nat.iter nat_rect]. rewrite nth_error_app1 by lia. exact Hj.
    + rewrite nth_error_app2 by (rewrite Hl; cbn; lia). rewrite Hl. replace (S k * mcols m + j - mcols m) with (k * mcols m + j) by (cbn; lia).
      unfold pows. rewrite (flat_map_block _ (mcols m) _ ltac:(intros; rewrite map_length; exact Hl) k j (2 + k)); [|apply nth_error_seq'; lia | exact Hjp].
      rewrite nth_error_map', Hj, iter_pow. reflexivity.
  - intros -> a b x y Hab Ha Hb. unfold full. rewrite nth_error_app2 by (rewrite Hlp; lia). rewrite Hlp.
    replace (mcols m * Nat.max d 1 + a * (2 * mcols m - a - 1) / 2 + (b - a - 1) - mcols m * Nat.max d 1) with (a * (2 * mcols m - a - 1) / 2 + (b - a - 1)) by lia.
    apply cross_nth; assumption.
Qed.
Lemma poly_rect d c m : Rect m -> Rect (poly d c m).
Proof.
  intros Hr. destruct (poly_spec d c m Hr) as (_ & Hn & H). apply Forall_forall. intros row Hin. apply In_nth_error in Hin. destruct Hin as (i & Hi).
  destruct (nth_error (mrows m) i) as [r|] eqn:Er.
  - destruct (H i r Er) as (out & Ho & Hl & _). congruence.
  - apply nth_error_None in Er. assert (i < length (mrows (poly d c m))) by (apply nth_error_Some; congruence). lia.
Qed.

Lemma rescale_spec sd m out : Rect m -> rescale sd m = Ok out -> Rescaled sd m out /\ Rect out.
Proof.
  intros Hr. unfold rescale, Rescaled. destruct sd as [s|]; [|intros H; injection H as <-; auto].
  destruct (Nat.eqb_spec (mcols m) (length s)) as [E|]; [|discriminate]. cbn [negb]. intros H. injection H as <-. cbn [mcols mrows].
  split; [|unfold Rect in *; cbn [mcols mrows]; apply Forall_map; revert Hr; apply Forall_impl; intros row Hl; rewrite map_length, combine_length; lia].
  split; [reflexivity|]. split; [lia|]. split; [apply map_length|]. intros i row Hi. eexists. rewrite nth_error_map', Hi. split; [reflexivity|].
  assert (Hl : length row = mcols m) by (unfold Rect in Hr; rewrite Forall_forall in Hr; apply Hr; eapply nth_error_In; exact Hi).
  split; [rewrite map_length, combine_length; lia|]. intros j x t Hx Ht. rewrite nth_error_map'.
  assert (Hc : nth_error (combine row s) j = Some (x, t)).
  { clear - Hx Ht. revert s j Hx Ht. induction row as [|y row IH]; intros [|u s] [|j] Hx Ht; try discriminate; cbn in *; [congruence | apply IH; assumption]. }
  rewrite Hc. reflexivity.
Qed.
Lemma rescale_fails s m : length s <> mcols m -> rescale (Some s) m = Err RuntimeError.
Proof. intros H. unfold rescale. destruct (Nat.eqb_spec (mcols m) (length s)); [congruence | reflexivity]. Qed.

Lemma chunk_len n p l : length (chunk n p l) = n.
Proof. revert l; induction n as [|n IH]; intros l; cbn; [reflexivity | rewrite IH; reflexivity]. Qed.
Lemma chunk_concat p : forall vs, Forall (fun v => length v = p) vs -> chunk (length vs) p (concat vs) = vs.
Proof.
  induction vs as [|v vs IH]; intros H; [reflexivity|]. cbn [length concat chunk]. pose proof (Forall_inv H) as Hv. cbv beta in Hv.
  rewrite firstn_app, skipn_app. replace (p - length v) with 0 by lia. rewrite firstn_O, app_nil_r, firstn_all2 by lia. rewrite skipn_all2 by lia. cbn [app skipn]. rewrite IH by exact (Forall_inv_tail H). reflexivity.
Qed.
Lemma concat_len p (vs : list (list xr)) : Forall (fun v => length v = p) vs -> length (concat vs) = length vs * p.
Proof. induction 1 as [|v vs Hv H IH]; [reflexivity|]. cbn [concat]. rewrite app_length, IH, Hv. reflexivity. Qed.
Lemma all_nums_map xs : all_nums (map Num xs) = Some xs.
Proof. unfold all_nums. induction xs as [|x xs IH]; cbn; [reflexivity | rewrite IH; reflexivity]. Qed.
Lemma all_vecs_map xs : all_vecs (map Vec xs) = Some xs.
Proof. unfold all_vecs. induction xs as [|x xs IH]; cbn; [reflexivity | rewrite IH; reflexivity]. Qed.
Lemma all_nums_inv l xs : all_nums l = Some xs -> l = map Num xs.
Proof.
  revert xs; induction l as [|d l IH]; intros xs; cbn; [intros H; injection H as <-; reflexivity|]. destruct d as [x|v]; [|discriminate].
  fold (all_nums l). destruct (all_nums l) as [ys|]; [|discriminate]. intros H. injection H as <-. cbn. rewrite (IH ys eq_refl). reflexivity.
Qed.
Lemma all_vecs_inv l xs : all_vecs l = Some xs -> l = map Vec xs.
Proof.
  revert xs; induction l as [|d l IH]; intros xs; cbn; [intros H; injection H as <-; reflexivity|]. destruct d as [x|v]; [discriminate|].
  fold (all_vecs l). destruct (all_vecs l) as [ys|]; [|discriminate]. intros H. injection H as <-. cbn. rewrite (IH ys eq_refl). reflexivity.
Qed.
Lemma all_nums_vecs vs : vs <> [] -> all_nums (map Vec vs) = None.
Proof. destruct vs as [|v vs]; [congruence|]. intros _. reflexivity. Qed.

Lemma chunk_one xs : chunk (length xs) 1 xs = map (fun x => [x]) xs.
Proof. induction xs as [|x xs IH]; [reflexivity|]. cbn. rewrite IH. reflexivity. Qed.
Lemma input_nums xs : check_input (PList (map Num xs)) = Ok (mkmat 1 (map (fun x => [x]) xs)).
Proof. unfold check_input. rewrite all_nums_map, map_length, chunk_one. reflexivity. Qed.
Lemma input_vecs p vs : vs <> [] -> Forall (fun v => length v = p) vs -> check_input (PList (map Vec vs)) = Ok (mkmat p vs).
Proof.
  intros Hne H. unfold check_input. rewrite all_nums_vecs by exact Hne. rewrite all_vecs_map. destruct vs as [|v vs]; [congruence|].
  pose proof (Forall_inv H) as Hv. cbv beta in Hv. assert (Hb : forallb (fun w => length w =? length v) vs = true).
  { apply forallb_forall. intros w Hw. apply Nat.eqb_eq. rewrite Hv. pose proof (Forall_inv_tail H) as Ht. rewrite Forall_forall in Ht. apply Ht. exact Hw. }
  rewrite Hb, map_length, (concat_len p) by exact H. rewrite Nat.mul_comm, Nat.div_mul by discriminate. f_equal. f_equal. apply chunk_concat. exact H.
Qed.
Lemma input_inv l m : check_input (PList l) = Ok m -> (exists xs, l = map Num xs /\ m = mkmat 1 (map (fun x => [x]) xs))
  \/ (exists p vs, vs <> [] /\ Forall (fun v => length v = p) vs /\ l = map Vec vs /\ m = mkmat p vs).
Proof.
  intros H. destruct (all_nums l) as [xs|] eqn:En.
  - left. apply all_nums_inv in En. subst l. rewrite input_nums in H. injection H as <-. eauto.
  - right. destruct (all_vecs l) as [vs|] eqn:Ev; [|unfold check_input in H; rewrite En, Ev in H; discriminate].
    pose proof (all_vecs_inv _ _ Ev) as El. destruct vs as [|v vs]; [unfold check_input in H; rewrite En, Ev in H; discriminate|].
    destruct (forallb (fun w => length w =? length v) vs) eqn:Hb; [|unfold check_input in H; rewrite En, Ev, Hb in H; discriminate].
    assert (Hf : Forall (fun w => length w = length v) (v :: vs)).
    { constructor; [reflexivity|]. apply Forall_forall. intros w Hw. rewrite forallb_forall in Hb. apply Nat.eqb_eq. apply Hb. exact Hw. }
    exists (length v), (v :: vs). split; [discriminate|]. split; [exact Hf|]. split; [exact El|]. subst l. rewrite (input_vecs (length v)) in H by (assumption || discriminate). congruence.
Qed.
Lemma input_rect l m : check_input (PList l) = Ok m -> Rect m /\ length (mrows m) = length l.
Proof.
  intros H. apply input_inv in H. destruct H as [(xs & -> & ->) | (p & vs & _ & Hf & -> & ->)]; unfold Rect; cbn [mrows mcols]; rewrite ?map_length; (split; [|reflexivity]).
  - apply Forall_map, Forall_forall. intros x _. reflexivity.
  - exact Hf.
Qed.
Lemma kind_rect k m m' : net_ok k -> Rect m -> apply_kind k m = Ok m' -> Rect m' /\ length (mrows m') = length (mrows m).
Proof.
  intros Hn Hr. destruct k as [|coef|p q f]; cbn [apply_kind].
  - intros H. injection H as <-. auto.
  - destruct (negb _); [discriminate|]. intros H. injection H as <-. unfold Rect. cbn [mcols mrows]. rewrite map_length. split; [|reflexivity]. apply Forall_map, Forall_forall. intros row _. unfold dotrow. rewrite map_length, seq_length. reflexivity.
  - destruct (Nat.eqb_spec (mcols m) p) as [E|]; [|discriminate]. cbn [negb]. intros H. injection H as <-. unfold Rect in *. cbn [mcols mrows]. rewrite map_length. split; [|reflexivity]. apply Forall_map. revert Hr. apply Forall_impl. intros row Hl. apply Hn. congruence.
Qed.
Lemma rescale_rows sd m out : rescale sd m = Ok out -> length (mrows out) = length (mrows m).
Proof. unfold rescale. destruct sd; [destruct (negb _); [discriminate|]|]; intros H; injection H as <-; cbn [mrows]; [apply map_length | reflexivity]. Qed.

Fixpoint statistics_rect (s : stats) : forall l m, nets_ok s -> statistics s (PList l) = Ok m -> Rect m /\ length (mrows m) = length l.
Proof.
  destruct s as [k d c sd prev]. intros l m Hn H. cbn [statistics] in H.
  assert (Hpre : forall m0, (match prev with Some s' => statistics s' (PList l) | None => check_input (PList l) end) = Ok m0 -> Rect m0 /\ length (mrows m0) = length l).
  { destruct prev as [s'|]; intros m0 Hm.
    - apply (statistics_rect s'); [exact (proj2 Hn) | exact Hm].
    - apply input_rect. exact Hm. }
  destruct (match prev with Some s' => statistics s' (PList l) | None => check_input (PList l) end) as [m0|]; [|discriminate].
  destruct (Hpre m0 eq_refl) as [Hr Hl]. destruct (apply_kind k m0) as [m1|] eqn:Ek; [|discriminate]. destruct (kind_rect k m0 m1 (proj1 Hn) Hr Ek) as [Hr1 Hl1].
  split; [eapply rescale_spec; [|exact H]; apply poly_rect; exact Hr1|]. rewrite (rescale_rows _ _ _ H), poly_full. cbn [mrows]. rewrite map_length. congruence.
Qed.

(** row by row: [g] acts on each row separately *)
Definition rowwise (g : mat -> res mat) : Prop := exists (w : nat -> res nat) (f : nat -> list xr -> list xr), forall m, g m = match w (mcols m) with Ok p => Ok (mkmat p (map (f (mcols m)) (mrows m))) | Err e => Err e end.
Lemma rowwise_kind k : rowwise (apply_kind k).
Proof.
  destruct k as [|coef|p q f].
  - exists (fun p => Ok p), (fun _ r => r). intros [p rows]. cbn. rewrite map_id. reflexivity.
  - exists (fun p => if negb (p =? length (mrows coef)) then Err ValueError else Ok (mcols coef)), (fun _ => dotrow coef). intros [p rows]. cbn. destruct (negb _); reflexivity.
  - exists (fun p' => if negb (p' =? p) then Err RuntimeError else Ok q), (fun _ => f). intros [p' rows]. cbn. destruct (negb _); reflexivity.
Qed.
Lemma rowwise_tail sd d c : rowwise (fun m => rescale sd (poly d c m)).
Proof.
  set (w := fun p => p * Nat.max d 1 + (if c then p * (p - 1) / 2 else 0)).
  destruct sd as [s|].
  - exists (fun p => if negb (w p =? length s) then Err RuntimeError else Ok (w p)), (fun p row => map (fun ab => xdiv (fst ab) (snd ab)) (combine (full d c p row) s)).
    intros m. rewrite poly_full. unfold rescale. cbn [mcols mrows]. fold (w (mcols m)). destruct (negb _); [reflexivity|]. rewrite map_map. reflexivity.
  - exists (fun p => Ok (w p)), (fun p => full d c p). intros m. rewrite poly_full. reflexivity.
Qed.
Lemma rowwise_comp g1 g2 : rowwise g1 -> rowwise g2 -> rowwise (fun m => match g1 m with Ok m' => g2 m' | Err e => Err e end).
Proof.
  intros (w1 & f1 & H1) (w2 & f2 & H2). exists (fun p => match w1 p with Ok p1 => w2 p1 | Err e => Err e end), (fun p r => f2 (match w1 p with Ok p1 => p1 | Err _ => 0 end) (f1 p r)).
  intros m. rewrite H1. destruct (w1 (mcols m)) as [p1|]; [|reflexivity]. rewrite H2. cbn [mcols mrows]. destruct (w2 p1); [|reflexivity]. rewrite map_map. reflexivity.
Qed.
Fixpoint statistics_rowwise (s : stats) : exists g, rowwise g /\ forall d, statistics s d = match check_input d with Ok m => g m | Err e => Err e end.
Proof.
  destruct s as [k d c sd prev]. pose proof (rowwise_comp _ _ (rowwise_kind k) (rowwise_tail sd d c)) as Hh.
  destruct prev as [s'|].
  - destruct (statistics_rowwise s') as (g & Hg & E). exists (fun m => match g m with Ok m' => match apply_kind k m' with Ok m'' => rescale sd (poly d c m'') | Err e => Err e end | Err e => Err e end).
    split; [exact (rowwise_comp _ _ Hg Hh)|]. intros x. cbn [statistics]. rewrite E. destruct (check_input x); reflexivity.
  - eexists. split; [exact Hh|]. intros x. cbn [statistics]. destruct (check_input x); reflexivity.
Qed.

(** finite numbers *)
Lemma xmul_fin a b : xmul (XR a) (XR b) = XR (a * b).
Proof. reflexivity. Qed.
Lemma iter_fin x k : Nat.iter k (xmul (XR x)) (XR x) = XR (x ^ S k)%R.
Proof. induction k as [|k IH]; [cbn; f_equal; lra|]. cbn [Nat.iter nat_rect] in *. unfold Nat.iter in IH. rewrite IH. reflexivity. Qed.
Lemma xsqrt_fin x : (0 <= x)%R -> xsqrt (XR x) = XR (sqrt x).
Proof. intros H. cbn. unfold rsign. destruct (total_order_T x 0) as [[Hl|He]|Hg]; [lra | reflexivity | reflexivity]. Qed.
Lemma total_rsum l : rsum l = total l.
Proof. reflexivity. Qed.
Lemma INR_len_pos {A} (l : list A) : l <> [] -> (0 < INR (length l))%R.
Proof. destruct l; [congruence|]. intros _. apply lt_0_INR. cbn. lia. Qed.
Lemma xmean_fin l : l <> [] -> xmean (map XR l) = XR (average l).
Proof. intros H. unfold xmean, average. rewrite xsum_fin, map_length. apply xdiv_fin. apply Rgt_not_eq. apply INR_len_pos. exact H. Qed.
Lemma total_nonneg l : Forall (fun x => 0 <= x)%R l -> (0 <= total l)%R.
Proof. unfold total. induction 1 as [|x l Hx H IH]; cbn; lra. Qed.
Lemma average_nonneg l : l <> [] -> Forall (fun x => 0 <= x)%R l -> (0 <= average l)%R.
Proof. intros Hne H. unfold average, Rdiv. apply Rmult_le_pos; [apply total_nonneg; exact H | apply Rlt_le, Rinv_0_lt_compat, INR_len_pos; exact Hne]. Qed.
Lemma sq_nonneg x : (0 <= x ^ 2)%R.
Proof. apply pow2_ge_0. Qed.
Lemma xstd_fin l : l <> [] -> xstd (map XR l) = XR (deviation l).
Proof.
  intros H. unfold xstd, deviation. rewrite xmean_fin by exact H. rewrite map_map.
  replace (map (fun x => xmul (xsub (XR x) (XR (average l))) (xsub (XR x) (XR (average l)))) l) with (map XR (map (fun x => (x - average l) ^ 2)%R l)).
  2:{ rewrite map_map. apply map_ext. intros x. cbn. f_equal. ring. }
  assert (H' : map (fun x => (x - average l) ^ 2)%R l <> []) by (destruct l; [congruence | discriminate]).
  rewrite xmean_fin by exact H'. apply xsqrt_fin. apply average_nonneg; [exact H'|]. apply Forall_map, Forall_forall. intros x _. apply sq_nonneg.
Qed.
Lemma total_map_scale (f : R -> R) k l : total (map (fun x => f x * k)%R l) = (total (map f l) * k)%R.
Proof. unfold total. induction l as [|x l IH]; cbn; [lra|]. rewrite IH. lra. Qed.
Lemma deviation_scale l s : l <> [] -> (0 < s)%R -> deviation (map (fun x => x / s)%R l) = (deviation l / s)%R.
Proof.
  intros Hne Hs. assert (Ha : average (map (fun x => x / s)%R l) = (average l / s)%R).
  { unfold average. rewrite map_length. change (map (fun x => x / s)%R l) with (map (fun x => x * / s)%R l). rewrite (total_map_scale (fun x => x) (/ s) l), map_id. unfold Rdiv. ring. }
  unfold deviation. rewrite Ha. rewrite map_map.
  replace (map (fun x => (x / s - average l / s) ^ 2)%R l) with (map (fun x => ((x - average l) ^ 2 * (/ s) ^ 2))%R l) by (apply map_ext; intros x; unfold Rdiv; ring).
  replace (average (map (fun x => (x - average l) ^ 2 * (/ s) ^ 2)%R l)) with (average (map (fun x => (x - average l) ^ 2)%R l) * (/ s) ^ 2)%R.
  2:{ unfold average at 1 3. rewrite !map_length, (total_map_scale (fun x => (x - average l) ^ 2)%R). unfold Rdiv. ring. }
  rewrite sqrt_mult.
  - rewrite sqrt_pow2; [reflexivity | apply Rlt_le, Rinv_0_lt_compat, Hs].
  - apply average_nonneg; [destruct l; [congruence | discriminate]|]. apply Forall_map, Forall_forall. intros x _. apply sq_nonneg.
  - apply sq_nonneg.
Qed.
Lemma total_zero l : Forall (fun x => 0 <= x)%R l -> total l = 0%R -> Forall (fun x => x = 0%R) l.
Proof.
  intros H. induction H as [|x l Hx H IH]; [constructor|]. change (total (x :: l)) with (x + total l)%R. intros E. pose proof (total_nonneg l H). constructor; [lra | apply IH; lra].
Qed.
(** the deviation is zero exactly for constant vectors *)
Lemma deviation_zero l : l <> [] -> deviation l = 0%R <-> Forall (fun x => x = average l) l.
Proof.
  intros Hne. set (sq := map (fun x => (x - average l) ^ 2)%R l). assert (Hn : Forall (fun x => 0 <= x)%R sq) by (apply Forall_map, Forall_forall; intros x _; apply sq_nonneg).
  assert (Hne' : sq <> []) by (unfold sq; destruct l; [congruence | discriminate]). unfold deviation. fold sq. split.
  - intros E. apply sqrt_eq_0 in E; [|apply average_nonneg; assumption]. unfold average in E at 1. pose proof (INR_len_pos sq Hne') as Hp.
    assert (E' : total sq = 0%R) by (apply (Rmult_eq_reg_r (/ INR (length sq))); [rewrite Rmult_0_l; exact E | apply Rgt_not_eq, Rinv_0_lt_compat, Hp]).
    apply total_zero in E'; [|exact Hn]. unfold sq in E'. rewrite Forall_map in E'. revert E'. apply Forall_impl. intros x Hx. assert ((x - average l) * (x - average l) = 0)%R as H0 by (rewrite <- Hx; ring). apply Rmult_integral in H0. lra.
  - intros H. assert (E : total sq = 0%R). { unfold sq. clear - H. revert H. generalize (average l). intros a H. induction H as [|x l Hx H IH]; [reflexivity|]. cbn [map]. change (total (((x - a) ^ 2)%R :: map (fun x => (x - a) ^ 2)%R l)) with ((x - a) ^ 2 + total (map (fun x => (x - a) ^ 2) l))%R. rewrite IH. subst x. ring. }
    unfold average. rewrite E. unfold Rdiv. rewrite Rmult_0_l. apply sqrt_0.
Qed.
Lemma deviation_nonneg l : (0 <= deviation l)%R.
Proof. apply sqrt_pos. Qed.
